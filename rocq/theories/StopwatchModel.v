(** Model of the timing file: src/nimble.quanta.stopwatch.h (time stamps), src/nimble_timing_utils.{h,cc}
    (the file) and the place in src/integrators/explicit_time_integrator.cc that writes it.
    A clock reading is the number of nanoseconds since the epoch (what high_resolution_clock holds on
    the platforms the program is built for); readings before the epoch are not modelled (duration_cast
    truncates, which is the floor on the readings modelled).  The time zone is a function from seconds
    since the epoch to seconds east of Greenwich.  Leap seconds do not exist (as in POSIX). *)
From Coq Require Import Reals.
From Verif Require Import Base Strings.
Set Implicit Arguments.
Local Open Scope Z_scope.
Local Open Scope list_scope.

(** *** std::localtime (C library, called at nimble.quanta.stopwatch.h 97, 118, 137) *)
(** struct tm; the year and the month are given as numbers of the calendar, not as offsets *)
Record tm := Tm { tm_year : Z; tm_mon : Z; tm_mday : Z; tm_hour : Z; tm_min : Z; tm_sec : Z }.
Definition leap (y : Z) : bool := (y mod 4 =? 0) && negb (y mod 100 =? 0) || (y mod 400 =? 0).
Definition year_length (y : Z) : Z := if leap y then 366 else 365.
Definition month_lengths (y : Z) : list Z := [31; if leap y then 29 else 28; 31; 30; 31; 30; 31; 31; 30; 31; 30; 31].
(** year and day of the year of day d counted from the first of January of year y; one unit of fuel per year *)
Fixpoint find_year (fuel : nat) (y d : Z) : Z * Z :=
  match fuel with
  | O => (y, d)
  | S fuel => if d <? year_length y then (y, d) else find_year fuel (y + 1) (d - year_length y)
  end.
(** month and day of the month of day d counted from the first of month m *)
Fixpoint find_month (ls : list Z) (m d : Z) : Z * Z :=
  match ls with
  | [] => (m, d)
  | l :: ls => if d <? l then (m, d) else find_month ls (m + 1) (d - l)
  end.
(** broken-down time of a number of seconds counted from the first of January 1970; a year has at least
    365 days, so days / 365 + 1 units of fuel suffice *)
Definition broken_down (secs : Z) : tm :=
  let days := secs / 86400 in
  let rest := secs mod 86400 in
  let '(y, yday) := find_year (S (Z.to_nat (days / 365))) 1970 days in
  let '(m, mday) := find_month (month_lengths y) 1 yday in
  Tm y m (mday + 1) (rest / 3600) (rest / 60 mod 60) (rest mod 60).
Definition localtime (zone : Z -> Z) (t : Z) : tm := broken_down (t + zone t).

(** *** std::strftime *)
(** '0' + (z % 10) *)
Definition put_digit (z : Z) : ascii := digit (Z.to_N (z mod 10)).
(** %m, %d, %H, %M, %S: two digits *)
Definition two (z : Z) : chars := [put_digit (z / 10); put_digit z].
(** %e: two characters, padded with a space *)
Definition two_space (z : Z) : chars := [if z <? 10 then " "%char else put_digit (z / 10); put_digit z].
(** %Y *)
Definition put_year (z : Z) : chars := dec (Z.to_N z).
Definition dot : ascii := "."%char.
(** "%Y.%m.%d.%H.%M.%S." and "%Y.%m.%e.%H.%M.%S." (the result always fits into 100 characters) *)
Definition date_with (day : Z -> chars) (b : tm) : chars :=
  put_year (tm_year b) ++ dot :: two (tm_mon b) ++ dot :: day (tm_mday b) ++ dot ::
  two (tm_hour b) ++ dot :: two (tm_min b) ++ dot :: two (tm_sec b) ++ [dot].

(** duration_cast<seconds>, duration_cast<unit>(epoch_duration - duration_in_seconds) *)
Definition whole_seconds (ns : Z) : Z := ns / 1000000000.
Definition part (unit ns : Z) : Z := (ns - whole_seconds ns * 1000000000) / unit.

(** stopwatch::get_microsecond_timestamp, nimble.quanta.stopwatch.h 111-131 *)
Definition microsecond_stamp (zone : Z -> Z) (now : Z) : chars :=
  let us := part 1000 now in
  date_with two (localtime zone (whole_seconds now)) ++
  [put_digit (us / 100000); put_digit (us / 10000); put_digit (us / 1000); put_digit (us / 100); put_digit (us / 10); put_digit us].

(** stopwatch::get_nanosecond_timestamp, nimble.quanta.stopwatch.h 87-110 *)
Definition nanosecond_stamp (zone : Z -> Z) (now : Z) : chars :=
  let ns := part 1 now in
  date_with two_space (localtime zone (whole_seconds now)) ++
  [put_digit (ns / 100000000); put_digit (ns / 10000000); put_digit (ns / 1000000); put_digit (ns / 100000); put_digit (ns / 10000);
   put_digit (ns / 1000); put_digit (ns / 100); put_digit (ns / 10); put_digit ns].

(** stopwatch::get_millisecond_timestamp, nimble.quanta.stopwatch.h 132-150: the clock is read a second
    time for the milliseconds (they shadow those of the first reading) *)
Definition millisecond_stamp (zone : Z -> Z) (now later : Z) : chars :=
  let ms := later / 1000000 in
  date_with two_space (localtime zone (whole_seconds now)) ++ [put_digit (ms / 100); put_digit (ms / 10); put_digit ms].

(** *** TimingInfo, nimble_timing_utils.h 51-78; the constructor of nimble_timing_utils.cc 52-69 initialises
    the members in the order of its arguments *)
Record timing_info := TimingInfo {
  ti_num_ranks : N; ti_time_stamp : chars;
  ti_simulation : R; ti_internal : R; ti_contact : R; ti_exodus : R; ti_reduction : R }.

(** File names and contents of the working directory *)
Definition files := list (chars * chars).
Definition tab : ascii := ascii_of_nat 9.
Definition newline : ascii := ascii_of_nat 10.
(** for (char& c : timingfilenamestr) if (c == ' ') c = '-' *)
Definition no_space (c : ascii) : ascii := if ascii_dec c " " then "-"%char else c.

(** TimingInfo::BinaryWrite, nimble_timing_utils.cc 71-94.  [put] is what operator<<(double) prints;
    [opens] says whether the operating system opens a file; the message on std::cerr is not modelled. *)
Definition file_name (i : timing_info) : chars :=
  map no_space (lit "nimble_timing_data_n" ++ dec (ti_num_ranks i) ++ lit "_" ++ ti_time_stamp i ++ lit ".log").
Definition file_text (put : R -> chars) (i : timing_info) : chars :=
  dec (ti_num_ranks i) ++ [tab] ++ put (ti_simulation i) ++ [tab] ++ put (ti_internal i) ++ [tab] ++
  put (ti_contact i) ++ [tab] ++ put (ti_exodus i) ++ [tab] ++ put (ti_reduction i) ++ [newline].
Definition binary_write (put : R -> chars) (opens : chars -> bool) (i : timing_info) (fs : files) : files :=
  if opens (file_name i) then assoc_set chars_eqb (file_name i) (file_text put i) fs else fs.

(** The end of ExplicitTimeIntegrator::Integrate, src/integrators/explicit_time_integrator.cc 295-305, on one
    rank: [asked] is parser.WriteTimingDataFile(), [now] the clock when the stamp is made. *)
Record totals := Totals { t_simulation : R; t_force : R; t_contact : R; t_exodus : R; t_reduction : R }.
Definition write_timing (put : R -> chars) (opens : chars -> bool) (zone : Z -> Z)
           (my_rank : nat) (asked : bool) (num_ranks : N) (now : Z) (t : totals) (fs : files) : files :=
  if Nat.eqb my_rank 0 && asked then
    binary_write put opens
      (TimingInfo num_ranks (microsecond_stamp zone now) (t_simulation t) (t_force t) (t_contact t) (t_exodus t) (t_reduction t)) fs
  else fs.
