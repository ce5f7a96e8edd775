(** Model of the timers: src/nimble_timer.h and src/nimble_profiling_timer.h.
    Clock readings (std::chrono time points) are numbers of nanoseconds; a duration<double> in
    seconds is a real number (rounding of doubles is not modelled).  The clock is arbitrary: every
    call carries the reading it got, and readings need not increase. *)
From Coq Require Import Reals.
From Verif Require Import Base Strings.
Set Implicit Arguments.
Local Open Scope R_scope.
Local Open Scope list_scope.

(** duration_cast<duration<double>>(ns), nimble_timer.h 78-81 *)
Definition seconds (ns : Z) : R := IZR ns / 1000000000.

(** class TimeKeeper, nimble_timer.h 52-94: start_time_ (value-initialised to the epoch) and
    total_time_; end_time_ is only used inside Stop. *)
Record keeper := Keeper { k_start : Z; k_total : R }.
(** TimeKeeper(), nimble_timer.h 55 *)
Definition new_keeper : keeper := Keeper 0 0.
(** TimeKeeper::Start, nimble_timer.h 66-70 *)
Definition keeper_start (now : Z) (k : keeper) : keeper := Keeper now (k_total k).
(** TimeKeeper::Stop, nimble_timer.h 72-81 *)
Definition keeper_stop (now : Z) (k : keeper) : keeper :=
  let time_increment := if (k_start k <? now)%Z then seconds (now - k_start k) else 0 in
  Keeper (k_start k) (k_total k + time_increment).

(** class Timer, nimble_timer.h 96-150: std::map<std::string, TimeKeeper>. *)
Definition timer := list (chars * keeper).
(** timers_[name]: the entry, default-constructed when it is missing *)
Definition entry (t : timer) (name : chars) : keeper :=
  match assoc chars_eqb name t with Some k => k | None => new_keeper end.
(** writing the entry back *)
Fixpoint set_entry (t : timer) (name : chars) (k : keeper) : timer :=
  match t with
  | [] => [(name, k)]
  | (n, k') :: t' => if chars_eqb name n then (n, k) :: t' else (n, k') :: set_entry t' name k
  end.
(** Timer::Start, nimble_timer.h 112-117 *)
Definition timer_start (now : Z) (name : chars) (t : timer) : timer := set_entry t name (keeper_start now (entry t name)).
(** Timer::Stop, nimble_timer.h 119-124 *)
Definition timer_stop (now : Z) (name : chars) (t : timer) : timer := set_entry t name (keeper_stop now (entry t name)).
(** Timer::StopReport, nimble_timer.h 126-135 *)
Definition timer_stop_report (now : Z) (name : chars) (t : timer) : timer * R :=
  let v := 0 - k_total (entry t name) in
  let t' := timer_stop now name t in
  (t', v + k_total (entry t' name)).
(** Timer::ElapsedTime, nimble_timer.h 137-141 (map::at) *)
Definition timer_elapsed (t : timer) (name : chars) : outcome R :=
  match assoc chars_eqb name t with Some k => Ok (k_total k) | None => Throw end.

(** A call on a Timer with the clock reading it gets. *)
Inductive call := CStart (name : chars) (now : Z) | CStop (name : chars) (now : Z) | CStopReport (name : chars) (now : Z).
Definition timer_call (t : timer) (c : call) : timer :=
  match c with
  | CStart n now => timer_start now n t
  | CStop n now => timer_stop now n t
  | CStopReport n now => fst (timer_stop_report now n t)
  end.
Definition timer_run (cs : list call) : timer := fold_left timer_call cs [].

(** class ProfilingTimer, nimble_profiling_timer.h 60-110, without Kokkos: a stack of region names
    and a Timer. *)
Record profiler := Profiler { p_stack : list chars; p_timer : timer }.
Inductive pcall := Push (name : chars) (now : Z) | Pop (now : Z).
(** push_region 72-82, pop_region_and_report_time 84-98; top() of an empty std::stack is undefined
    behaviour.  The reported times are collected. *)
Definition profiler_call (p : profiler) (c : pcall) : outcome (profiler * list R) :=
  match c with
  | Push n now => Ok (Profiler (n :: p_stack p) (timer_start now n (p_timer p)), [])
  | Pop now =>
      match p_stack p with
      | [] => UB
      | n :: s => let r := timer_stop_report now n (p_timer p) in Ok (Profiler s (fst r), [snd r])
      end
  end.
Fixpoint profiler_run (p : profiler) (cs : list pcall) : outcome (profiler * list R) :=
  match cs with
  | [] => Ok (p, [])
  | c :: cs => do r <- profiler_call p c; do r' <- profiler_run (fst r) cs; Ok (fst r', snd r ++ snd r')
  end.

(** The same class built with Kokkos: one Kokkos::Timer (k_timer_) for all regions; reset() takes the
    reading, seconds() the difference. *)
Record kprofiler := KProfiler { kp_stack : list chars; kp_reset : Z }.
Definition kprofiler_call (p : kprofiler) (c : pcall) : outcome (kprofiler * list R) :=
  match c with
  | Push n now => Ok (KProfiler (n :: kp_stack p) now, [])
  | Pop now =>
      match kp_stack p with
      | [] => UB
      | n :: s => Ok (KProfiler s (kp_reset p), [seconds (now - kp_reset p)])
      end
  end.
Fixpoint kprofiler_run (p : kprofiler) (cs : list pcall) : outcome (kprofiler * list R) :=
  match cs with
  | [] => Ok (p, [])
  | c :: cs => do r <- kprofiler_call p c; do r' <- kprofiler_run (fst r) cs; Ok (fst r', snd r ++ snd r')
  end.
