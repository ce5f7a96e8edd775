(** Proofs about the hexahedron: tables, Jacobians, deformation gradients, forces. *)
From Verif Require Import Base Loops TensorModel TensorSpec TensorProofs PolarProofs ElementModel ElementSpec.
From Coq Require Import Reals Lra Psatz.
Set Implicit Arguments.
Local Open Scope R_scope.

Ltac idx8 i := destruct i as [|[|[|[|[|[|[|[|i]]]]]]]]; [| | | | | | | |exfalso; lia].
(** ** Tables *)
Lemma values_table nc v i n : (i < 8)%nat -> (n < 8)%nat ->
  shape_function_values nc v (8 * i + n)%nat = shape n (fun k => nc (3 * i + k)%nat).
Proof.
  intros Hi Hn. unfold shape_function_values.
  pose (P := fun m (w : arr) => forall i, (i < m)%nat -> forall n, (n < 8)%nat -> w (8 * i + n)%nat = shape n (fun k => nc (3 * i + k)%nat)).
  enough (H : P 8%nat (shape_function_values nc v)) by (apply H; auto).
  unfold shape_function_values. cbv zeta. apply floop_ind; [lia|intros ? ?; lia|].
  clear i Hi n Hn. intros m w Hm IH i Hi n Hn. unfold upd.
  destruct (Nat.eq_dec i m) as [->|Hne].
  - replace (3 * m + 0)%nat with (3 * m)%nat by lia.
    unfold shape, hat. rewrite !(Nat.add_0_r (3 * m)).
    idx8 n;
    repeat match goal with |- context [Nat.eqb ?a ?b] => destruct (Nat.eqb_spec a b) as [E|_]; [exfalso; lia|] || (replace (Nat.eqb a b) with true by (symmetry; apply Nat.eqb_eq; lia)) end;
    cbv [corner existsb Nat.eqb orb]; field.
  - repeat match goal with |- context [Nat.eqb ?a ?b] => destruct (Nat.eqb_spec a b) as [E|_]; [exfalso; lia|] end.
    apply IH; lia.
Qed.
Lemma derivs_table nc v i n k : (i < 8)%nat -> (n < 8)%nat -> (k < 3)%nat ->
  shape_function_derivatives nc v (24 * i + 3 * n + k)%nat = dshape n k (fun k => nc (3 * i + k)%nat).
Proof.
  intros Hi Hn Hk. unfold shape_function_derivatives.
  pose (P := fun m (w : arr) => forall i, (i < m)%nat -> forall n k, (n < 8)%nat -> (k < 3)%nat -> w (24 * i + 3 * n + k)%nat = dshape n k (fun k => nc (3 * i + k)%nat)).
  enough (H : P 8%nat (shape_function_derivatives nc v)) by (apply H; auto).
  unfold shape_function_derivatives. cbv zeta. apply floop_ind; [lia|intros ? ?; lia|].
  clear i Hi n Hn k Hk. intros m w Hm IH i Hi n k Hn Hk. unfold upd.
  destruct (Nat.eq_dec i m) as [->|Hne].
  - unfold dshape, hat. rewrite !(Nat.add_0_r (3 * m)).
    idx8 n; idx3 k;
    repeat match goal with |- context [Nat.eqb ?a ?b] => destruct (Nat.eqb_spec a b) as [E|_]; [exfalso; lia|] || (replace (Nat.eqb a b) with true by (symmetry; apply Nat.eqb_eq; lia)) end;
    cbv [corner existsb Nat.eqb orb]; field.
  - repeat match goal with |- context [Nat.eqb ?a ?b] => destruct (Nat.eqb_spec a b) as [E|_]; [exfalso; lia|] end.
    apply IH; lia.
Qed.
Lemma int_pts_gauss q k : (q < 8)%nat -> (k < 3)%nat -> int_pts (3 * q + k)%nat = gauss q k.
Proof.
  intros Hq Hk. unfold gauss. fold val. idx8 q; idx3 k; cbv [int_pts nth Nat.mul Nat.add corner existsb Nat.eqb orb]; ring.
Qed.
Lemma dshape_ext n k p p' : (forall k, (k < 3)%nat -> p k = p' k) -> dshape n k p = dshape n k p'.
Proof. intros H. unfold dshape, hat. rewrite !H by lia. reflexivity. Qed.
Lemma shape_ext n p p' : (forall k, (k < 3)%nat -> p k = p' k) -> shape n p = shape n p'.
Proof. intros H. unfold shape, hat. rewrite !H by lia. reflexivity. Qed.
Lemma deriv_at q n k : (q < 8)%nat -> (n < 8)%nat -> (k < 3)%nat ->
  shape_fcn_deriv (24 * q + 3 * n + k)%nat = dshape n k (gauss q).
Proof.
  intros. unfold shape_fcn_deriv. rewrite derivs_table by assumption. apply dshape_ext. intros. now apply int_pts_gauss.
Qed.
Lemma value_at q n : (q < 8)%nat -> (n < 8)%nat -> shape_fcn_vals (8 * q + n)%nat = shape n (gauss q).
Proof.
  intros. unfold shape_fcn_vals. rewrite values_table by assumption. apply shape_ext. intros. now apply int_pts_gauss.
Qed.

(** Partition of unity *)
Ltac unfold8 := cbv [Rsum shape dshape hat corner existsb Nat.eqb orb].
Lemma shape_sum p : Rsum 8 (fun n => shape n p) = 1.
Proof. unfold8. field. Qed.
Lemma dshape_sum k p : (k < 3)%nat -> Rsum 8 (fun n => dshape n k p) = 0.
Proof. intros Hk. idx3 k; unfold8; field. Qed.
Lemma shape_linear k p : (k < 3)%nat -> Rsum 8 (fun n => corner n k * shape n p) = p k.
Proof. intros Hk. idx3 k; unfold8; field. Qed.
Lemma shape_own a b : (a < 8)%nat -> (b < 8)%nat -> shape a (corner b) = if (a =? b)%nat then 1 else 0.
Proof. intros Ha Hb. idx8 a; idx8 b; unfold8; field. Qed.
Lemma dshape_derivative n k p : (k < 3)%nat ->
  derivable_pt_lim (fun x => shape n (upd p k x)) (p k) (dshape n k p).
Proof.
  intros Hk.
  assert (G : forall c b x, derivable_pt_lim (fun x => c * (1 + b * x)) x (c * b)).
  { intros c b x. replace (c * b) with (c * (0 + b * 1)) by ring.
    apply (derivable_pt_lim_scal (fun x => 1 + b * x) c x (0 + b * 1)).
    apply (derivable_pt_lim_plus (fun _ => 1) (fun x => b * x)); [apply derivable_pt_lim_const|].
    apply (derivable_pt_lim_scal (fun x => x) b x 1). apply derivable_pt_lim_id. }
  idx3 k; unfold shape, dshape, hat, upd; cbn [Nat.eqb].
  - eapply derivable_pt_lim_ext; [|replace (/ 8 * corner n 0 * ((1 + corner n 1 * p 1%nat) * (1 + corner n 2 * p 2%nat))) with ((/ 8 * ((1 + corner n 1 * p 1%nat) * (1 + corner n 2 * p 2%nat))) * corner n 0) by ring; apply G].
    intros; cbv beta; ring.
  - eapply derivable_pt_lim_ext; [|replace (/ 8 * corner n 1 * ((1 + corner n 0 * p 0%nat) * (1 + corner n 2 * p 2%nat))) with ((/ 8 * ((1 + corner n 0 * p 0%nat) * (1 + corner n 2 * p 2%nat))) * corner n 1) by ring; apply G].
    intros; cbv beta; ring.
  - eapply derivable_pt_lim_ext; [|replace (/ 8 * corner n 2 * ((1 + corner n 0 * p 0%nat) * (1 + corner n 1 * p 1%nat))) with ((/ 8 * ((1 + corner n 0 * p 0%nat) * (1 + corner n 1 * p 1%nat))) * corner n 2) by ring; apply G].
    intros; cbv beta; ring.
Qed.
