(** Specification vocabulary for the MPI reduction properties (independent of the model). *)
From Verif Require Import Base.
Local Open Scope Z_scope.

(** Rank r declared node id g. *)
Definition holds (ids_by_rank : list (list Z)) (r : nat) (g : Z) : Prop :=
  In g (nth r ids_by_rank []).
Definition holdsb (ids_by_rank : list (list Z)) (r : nat) (g : Z) : bool :=
  existsb (Z.eqb g) (nth r ids_by_rank []).
(** The ranks that declared g, in rank order. *)
Definition holders (ids_by_rank : list (list Z)) (g : Z) : list nat :=
  filter (fun r => holdsb ids_by_rank r g) (seq 0 (length ids_by_rank)).
(** Two ids are declared by exactly the same ranks. *)
Definition same_holders (ids_by_rank : list (list Z)) (g h : Z) : Prop :=
  forall r, holds ids_by_rank r g <-> holds ids_by_rank r h.
(** Position of an id in a list. *)
Fixpoint index_of (g : Z) (l : list Z) : option nat :=
  match l with
  | [] => None
  | x :: l => if Z.eqb g x then Some 0%nat else option_map S (index_of g l)
  end.
(** Value rank r holds for component j of node g (field size fs), given the ranks' memories. *)
Definition node_value {T} (fs : nat) (ids_by_rank : list (list Z)) (data : list (nat -> T))
           (r : nat) (g : Z) (j : nat) : option T :=
  match nth_error data r, index_of g (nth r ids_by_rank []) with
  | Some m, Some i => Some (m (i * fs + j)%nat)
  | _, _ => None
  end.
(** The values all holders of g have for component j, in rank order. *)
Definition holder_values {T} (fs : nat) (ids_by_rank : list (list Z)) (data : list (nat -> T))
           (g : Z) (j : nat) : list T :=
  flat_map (fun r => match node_value fs ids_by_rank data r g j with
                     | Some v => [v] | None => [] end)
           (seq 0 (length ids_by_rank)).
Definition all_nodup (ids_by_rank : list (list Z)) : Prop := Forall (@NoDup Z) ids_by_rank.

Lemma holdsb_spec ids r g : holdsb ids r g = true <-> holds ids r g.
Proof.
  unfold holdsb, holds. rewrite existsb_exists. split.
  - intros (x & Hx & E). apply Z.eqb_eq in E. now subst.
  - intros H. exists g. split; auto. apply Z.eqb_refl.
Qed.

Lemma holds_lt ids r g : holds ids r g -> (r < length ids)%nat.
Proof.
  unfold holds. intros H. destruct (Nat.lt_ge_cases r (length ids)) as [L|L]; auto.
  rewrite nth_overflow in H by lia. destruct H.
Qed.

Lemma holders_In ids g r : In r (holders ids g) <-> holds ids r g.
Proof.
  unfold holders. rewrite filter_In, holdsb_spec, in_seq. split; [tauto|].
  intros H. split; auto. apply holds_lt in H. lia.
Qed.
