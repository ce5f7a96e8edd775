(** Vocabulary of the statements about timers. *)
From Coq Require Import Reals.
From Verif Require Import Base Strings TimerModel.
Set Implicit Arguments.
Local Open Scope R_scope.
Local Open Scope list_scope.

(** What one name sees of a history: true = started, false = stopped, with the clock reading. *)
Definition seen_by (name : chars) (c : call) : list (bool * Z) :=
  match c with
  | CStart n now => if list_eq_dec ascii_dec n name then [(true, now)] else []
  | CStop n now | CStopReport n now => if list_eq_dec ascii_dec n name then [(false, now)] else []
  end.
Definition history (name : chars) (cs : list call) : list (bool * Z) := flat_map (seen_by name) cs.

(** A history of start/stop pairs with the given intervals. *)
Definition paired (ivs : list (Z * Z)) : list (bool * Z) := flat_map (fun iv => [(true, fst iv); (false, snd iv)]) ivs.

(** Length of an interval in seconds; a clock that went backwards counts as nothing. *)
Definition interval (a b : Z) : R := IZR (Z.max 0 (b - a)) / 10 ^ 9.
Definition total (ivs : list (Z * Z)) : R := fold_right (fun iv s => interval (fst iv) (snd iv) + s) 0 ivs.

(** A nest of profiled regions: name, reading at entry, inner regions, reading at exit. *)
Inductive region := Region (name : chars) (enter : Z) (inner : list region) (leave : Z).
Fixpoint trace (r : region) : list pcall :=
  match r with Region n a inner b => Push n a :: flat_map trace inner ++ [Pop b] end.
(** Times the exits should report, innermost first. *)
Fixpoint times (r : region) : list R :=
  match r with Region n a inner b => flat_map times inner ++ [interval a b] end.
Fixpoint names_in (r : region) : list chars :=
  match r with Region n _ inner _ => n :: flat_map names_in inner end.
(** No region lies inside another one of the same name. *)
Fixpoint no_recursion (r : region) : Prop :=
  match r with
  | Region n _ inner _ => (forall r', In r' inner -> ~ In n (names_in r')) /\ fold_right (fun r' P => no_recursion r' /\ P) True inner
  end.
(** Clock readings never decrease along the trace. *)
Definition reading (c : pcall) : Z := match c with Push _ t | Pop t => t end.
