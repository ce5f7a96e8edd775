(** What a user expects of the timing file: the calendar, order of names, the columns. *)
From Coq Require Import Reals.
From Verif Require Import Base Strings StopwatchModel.
Set Implicit Arguments.
Local Open Scope Z_scope.
Local Open Scope list_scope.

(** *** The Gregorian calendar: number of days from the first of January 1970 to a date *)
(** leap days before the first of January of year y *)
Definition leap_days (y : Z) : Z := (y - 1) / 4 - (y - 1) / 100 + (y - 1) / 400.
Definition days_in_month (y m : Z) : Z :=
  if m =? 2 then if (y mod 400 =? 0) || ((y mod 4 =? 0) && negb (y mod 100 =? 0)) then 29 else 28
  else if (m =? 4) || (m =? 6) || (m =? 9) || (m =? 11) then 30 else 31.
(** days of the months before m *)
Definition days_before_month (y m : Z) : Z :=
  fold_right Z.add 0 (map (fun k => days_in_month y (Z.of_nat k)) (seq 1 (Z.to_nat (m - 1)))).
Definition days_since_1970 (y m d : Z) : Z :=
  365 * (y - 1970) + (leap_days y - leap_days 1970) + days_before_month y m + (d - 1).
(** a date and time of day that exist *)
Definition exists_date (b : tm) : Prop :=
  1 <= tm_mon b <= 12 /\ 1 <= tm_mday b <= days_in_month (tm_year b) (tm_mon b) /\
  0 <= tm_hour b < 24 /\ 0 <= tm_min b < 60 /\ 0 <= tm_sec b < 60.
(** the instant it names, in seconds *)
Definition instant_of (b : tm) : Z :=
  days_since_1970 (tm_year b) (tm_mon b) (tm_mday b) * 86400 + tm_hour b * 3600 + tm_min b * 60 + tm_sec b.

(** *** Order of file names in a listing: by the first character that differs, a beginning comes first *)
Fixpoint before (a b : chars) : Prop :=
  match a, b with
  | _, [] => False
  | [], _ :: _ => True
  | x :: a, y :: b => (N_of_ascii x < N_of_ascii y)%N \/ x = y /\ before a b
  end.

(** Seconds from 1970 to the year 10000 *)
Definition year_10000 : Z := days_since_1970 10000 1 1 * 86400.

(** Number written with decimal digits *)
Definition number (w : chars) : Z := Z.of_N (undec w).

(** *** Lines and columns *)
(** the pieces of a text between occurrences of c *)
Fixpoint pieces (c : ascii) (s : chars) : list chars :=
  match s with
  | [] => [[]]
  | x :: s => if ascii_dec x c then [] :: pieces c s
              else match pieces c s with [] => [[x]] | w :: ws => (x :: w) :: ws end
  end.

(** The clock of the place where the program runs is never set back *)
Definition never_set_back (zone : Z -> Z) : Prop := forall a b, a < b -> a + zone a < b + zone b.

(** The instant can be shown: at or after the start of 1970 and before the year 10000, in local time *)
Definition shown (zone : Z -> Z) (now : Z) : Prop :=
  let t := now / 1000000000 in 0 <= t + zone t < year_10000.

Definition same_microsecond (a b : Z) : Prop := a / 1000 = b / 1000.

(** *** Histories: what the ranks of successive runs do at the end *)
Record ending := Ending {
  e_rank : nat; e_asked : bool; e_ranks : N; e_now : Z; e_totals : totals;
  e_opens : chars -> bool (* which files the operating system lets it open *) }.
(** the name the file of that run has *)
Definition name_of (zone : Z -> Z) (ranks : N) (now : Z) : chars :=
  lit "nimble_timing_data_n" ++ dec ranks ++ lit "_" ++ microsecond_stamp zone now ++ lit ".log".
(** the ranks that write: rank 0, if the input asks for it and the file can be opened *)
Definition writes (zone : Z -> Z) (e : ending) : Prop :=
  e_rank e = 0%nat /\ e_asked e = true /\ e_opens e (name_of zone (e_ranks e) (e_now e)) = true.
Definition finish (put : R -> chars) (zone : Z -> Z) (fs : files) (e : ending) : files :=
  write_timing put (e_opens e) zone (e_rank e) (e_asked e) (e_ranks e) (e_now e) (e_totals e) fs.
