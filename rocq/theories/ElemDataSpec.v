(** Vocabulary of the statements about element data. *)
From Verif Require Import Base Strings DataModel.
From Coq Require Import NArith.
Set Implicit Arguments.
Local Open Scope nat_scope.
Local Open Scope list_scope.
Local Notation length := List.length.

(** What is stored at an integration point of a hexahedral element: the nine components of the
    deformation gradient, the six of the stress, and the material's state variables. *)
Inductive quantity := DefGrad (c : nat) | Stress (c : nat) | State (s : nat).
Definition valid (states : list chars) (q : quantity) : Prop :=
  match q with DefGrad c => c < 9 | Stress c => c < 6 | State s => s < length states end.
Definition full9 : list chars := map lit ["_xx"; "_yy"; "_zz"; "_xy"; "_yz"; "_zx"; "_yx"; "_zy"; "_xz"]%string.
Definition sym6 : list chars := map lit ["_xx"; "_yy"; "_zz"; "_xy"; "_yz"; "_zx"]%string.
Definition plain_label (states : list chars) (q : quantity) : chars :=
  match q with
  | DefGrad c => lit "deformation_gradient" ++ nth c full9 []
  | Stress c => lit "stress" ++ nth c sym6 []
  | State s => nth s states []
  end.
(** The label of a quantity at integration point ipt (counted from 0). *)
Definition point_label (states : list chars) (ipt : nat) (q : quantity) : chars :=
  add_ipt_prefix (plain_label states q) (Z.of_nat (ipt + 1)).

(** Its place among the values of one element. *)
Definition per_point (states : list chars) : nat := 15 + length states.
Definition slot (states : list chars) (ipt : nat) (q : quantity) : nat :=
  ipt * per_point states + match q with DefGrad c => c | Stress c => 9 + c | State s => 15 + s end.
Definition per_element (nip : nat) (states : list chars) : nat := nip * per_point states.
Definition all_labels (nip : nat) (states : list chars) : list chars :=
  flat_map (fun ipt => map (point_label states ipt) (map DefGrad (seq 0 9) ++ map Stress (seq 0 6) ++ map State (seq 0 (length states)))) (seq 0 nip).

(** State variable labels that can be told apart: different even when case is ignored, and none of
    the labels used for the deformation gradient and the stress. *)
Definition good_states (states : list chars) : Prop :=
  NoDup (map tolower states) /\
  (forall s, In s states -> tolower s <> lit "deformation_gradient" /\ tolower s <> lit "stress") /\
  (forall s c, In s states -> c < 9 -> s <> plain_label [] (DefGrad c)) /\
  (forall s c, In s states -> c < 6 -> s <> plain_label [] (Stress c)).

(** An element block: id, number of integration points per element, state variables with their
    requested initial values, global ids of its elements. *)
Record block (T : Type) := Block { b_id : nat; b_nip : nat; b_states : list (chars * T); b_elems : list Z }.
Arguments Block {T}.
Definition b_labels {T} (b : block T) : list chars := map fst (b_states b).
Definition b_size {T} (b : block T) : nat := length (b_elems b) * per_element (b_nip b) (b_labels b).

(** Two blocks may use the same state variable label, but not two that differ only in case. *)
Definition case_consistent {T} (bs : list (block T)) : Prop :=
  forall b b' s s', In b bs -> In b' bs -> In s (b_labels b) -> In s' (b_labels b') -> tolower s = tolower s' -> s = s'.

(** What the containers hold after initialisation: the identity deformation gradient, zero stress;
    state variables start at 0 except two special names. *)
Definition start_value {T} (zero one : T) (of_int : Z -> T) (b : block T) (e ipt : nat) (q : quantity) : T :=
  match q with
  | DefGrad c => if c <? 3 then one else zero
  | Stress _ => zero
  | State s => if chars_eqb (nth s (b_labels b) []) (lit "global_elem_id") then of_int (nth e (b_elems b) 0%Z)
               else if chars_eqb (nth s (b_labels b) []) (lit "ipt_id") then of_int (Z.of_nat (ipt + 1))
               else zero
  end.
(** Reading quantity q at integration point ipt of element e of a block's container. *)
Definition stored {T} (container : list T) (nip : nat) (states : list chars) (e ipt : nat) (q : quantity) : option T :=
  nth_error container (e * per_element nip states + slot states ipt q).

(** Deformation gradients, stresses and state variables of all the integration points of an element,
    in the form in which they are handed to and returned by the material: value [q] at point [ipt]. *)
Definition given {T} (ns : nat) (r : list T * list T * list T) (ipt : nat) (q : quantity) : option T :=
  let '(f, s, v) := r in
  match q with DefGrad c => nth_error f (ipt * 9 + c) | Stress c => nth_error s (ipt * 6 + c) | State k => nth_error v (ipt * ns + k) end.
(** A result of full size. *)
Definition full_size {T} (nip ns : nat) (r : list T * list T * list T) : Prop :=
  let '(f, s, v) := r in length f = nip * 9 /\ length s = nip * 6 /\ length v = nip * ns.

(** Blocks that can be set up together. *)
Record acceptable {T} (bs : list (block T)) : Prop := {
  ac_ids : NoDup (map (@b_id T) bs);
  ac_states : forall b, In b bs -> good_states (b_labels b);
  ac_case : case_consistent bs;
  ac_ipt : forall b s, In b bs -> In s (b_labels b) -> starts_with (lit "ipt") s = false \/ s = lit "ipt_id";
  ac_points : forall b, In b bs -> b_nip b <> 0 /\ (N.of_nat (b_nip b) <= INT_MAX)%N }.
