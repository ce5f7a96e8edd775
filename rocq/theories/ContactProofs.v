(** Proofs about projection, forces and bounding boxes of contact entities. *)
From Verif Require Import Base ListLemmas Loops ContactModel ContactSpec.
From Coq Require Import Reals Lra.
Set Implicit Arguments.
Local Open Scope R_scope.

Lemma V3_eq a b : vx a = vx b -> vy a = vy b -> vz a = vz b -> a = b.
Proof. destruct a, b; simpl; intros; subst; reflexivity. Qed.
Lemma vdot_zero n : vdot n n = 0 -> n = vzero.
Proof.
  intros H. unfold vdot in H. pose proof (Rle_0_sqr (vx n)) as A. pose proof (Rle_0_sqr (vy n)) as B. pose proof (Rle_0_sqr (vz n)) as C. unfold Rsqr in *.
  apply V3_eq; simpl; apply Rsqr_0_uniq; unfold Rsqr; lra.
Qed.
Lemma vdot_nonneg n : 0 <= vdot n n.
Proof. unfold vdot. pose proof (Rle_0_sqr (vx n)) as A. pose proof (Rle_0_sqr (vy n)) as B. pose proof (Rle_0_sqr (vz n)) as C. unfold Rsqr in *. lra. Qed.
Lemma nondeg_pos p1 p2 p3 : nondegenerate p1 p2 p3 <-> 0 < vdot (triangle_normal p1 p2 p3) (triangle_normal p1 p2 p3).
Proof.
  unfold nondegenerate. set (n := triangle_normal p1 p2 p3). split; intros H.
  - destruct (vdot_nonneg n) as [G|G]; [exact G|]. exfalso. apply H. apply vdot_zero. now symmetry.
  - intros E. rewrite E in H. unfold vdot, vzero in H. simpl in H. lra.
Qed.

Section Tri.
  Variables p p1 p2 p3 : V3.
  Let u := vsub p2 p1.
  Let v := vsub p3 p1.
  Let w := vsub p p1.
  Let n := cross_product u v.
  Let N2 := vdot n n.
  Definition al3 := vdot (cross_product u w) n / N2.
  Definition al2 := vdot (cross_product w v) n / N2.
  Definition al1 := 1 - al2 - al3.
  Definition albary := mkV3 al1 al2 al3.
  Lemma n_normal : n = triangle_normal p1 p2 p3.
  Proof. unfold n, triangle_normal, u, v, vminus, cross_product, vcross, vsub, vadd, vscal. simpl. apply V3_eq; simpl; ring. Qed.
  Hypothesis Hn : 0 < N2.
  Lemma offset_normal : vminus p (bary_point p1 p2 p3 albary) = vscal (vdot w n / N2) n.
  Proof.
    unfold albary, al1, al2, al3, bary_point. pose proof (Rgt_not_eq _ _ Hn) as Hne.
    assert (E : forall x : V3 -> R, (x = vx \/ x = vy \/ x = vz) -> N2 * x w = vdot (cross_product w v) n * x u + vdot (cross_product u w) n * x v + vdot w n * x n).
    { intros x [-> |[-> | ->]]; unfold N2, vdot, n, cross_product; simpl; ring. }
    apply V3_eq; unfold vminus, vadd, vscal; cbn [vx vy vz].
    - pose proof (E vx ltac:(auto)) as H. assert (H' : vx p - vx p1 = (vdot (cross_product w v) n * (vx p2 - vx p1) + vdot (cross_product u w) n * (vx p3 - vx p1) + vdot w n * vx n) / N2).
      { change (vx w = (vdot (cross_product w v) n * vx u + vdot (cross_product u w) n * vx v + vdot w n * vx n) / N2). rewrite <- H. field. exact Hne. }
      transitivity (vx p - vx p1 - vdot (cross_product w v) n / N2 * (vx p2 - vx p1) - vdot (cross_product u w) n / N2 * (vx p3 - vx p1)); [ring|]. rewrite H'. field. exact Hne.
    - pose proof (E vy ltac:(auto)) as H. assert (H' : vy p - vy p1 = (vdot (cross_product w v) n * (vy p2 - vy p1) + vdot (cross_product u w) n * (vy p3 - vy p1) + vdot w n * vy n) / N2).
      { change (vy w = (vdot (cross_product w v) n * vy u + vdot (cross_product u w) n * vy v + vdot w n * vy n) / N2). rewrite <- H. field. exact Hne. }
      transitivity (vy p - vy p1 - vdot (cross_product w v) n / N2 * (vy p2 - vy p1) - vdot (cross_product u w) n / N2 * (vy p3 - vy p1)); [ring|]. rewrite H'. field. exact Hne.
    - pose proof (E vz ltac:(auto)) as H. assert (H' : vz p - vz p1 = (vdot (cross_product w v) n * (vz p2 - vz p1) + vdot (cross_product u w) n * (vz p3 - vz p1) + vdot w n * vz n) / N2).
      { change (vz w = (vdot (cross_product w v) n * vz u + vdot (cross_product u w) n * vz v + vdot w n * vz n) / N2). rewrite <- H. field. exact Hne. }
      transitivity (vz p - vz p1 - vdot (cross_product w v) n / N2 * (vz p2 - vz p1) - vdot (cross_product u w) n / N2 * (vz p3 - vz p1)); [ring|]. rewrite H'. field. exact Hne.
  Qed.
  Lemma al_projects : projects_to p p1 p2 p3 albary.
  Proof.
    unfold projects_to. rewrite offset_normal. split; [unfold bary_sum, albary, al1; simpl; ring|].
    split; unfold vdot at 1; unfold vscal; cbn [vx vy vz]; unfold n, u, v, w, cross_product, vsub, vminus, vadd, vscal, vdot; cbn [vx vy vz]; ring.
  Qed.
  Lemma unit_n : unit_normal p1 p2 p3 = vscal (/ sqrt N2) n.
  Proof. unfold unit_normal. cbv zeta. rewrite <- n_normal. reflexivity. Qed.
  Lemma signed_w : signed_distance p p1 p2 p3 = vdot w n / sqrt N2.
  Proof.
    unfold signed_distance. rewrite unit_n. pose proof (sqrt_lt_R0 _ Hn) as Hs.
    assert (Ew : vminus p p1 = w) by (apply V3_eq; unfold vminus, w, vsub, vadd, vscal; simpl; ring). rewrite Ew.
    generalize dependent (sqrt N2). intros s Hs. clearbody w n. unfold vdot, vscal. cbn [vx vy vz]. field. lra.
  Qed.
  Lemma bary_unique b : projects_to p p1 p2 p3 b -> b = albary.
  Proof.
    intros (S1 & O1 & O2). destruct al_projects as (T1 & Q1 & Q2).
    (* d = b - albary: db2 u + db3 v orthogonal to u and v *)
    set (x2 := vy b - al2). set (x3 := vz b - al3).
    assert (Eu : forall e, vdot (vminus p (bary_point p1 p2 p3 albary)) e - vdot (vminus p (bary_point p1 p2 p3 b)) e = x2 * vdot u e + x3 * vdot v e).
    { intros e. unfold bary_sum in S1. assert (X1 : vx b = 1 - vy b - vz b) by lra. unfold x2, x3, vdot, vminus, bary_point, vadd, vscal, albary, al1, u, v, vsub. cbn [vx vy vz]. rewrite X1. ring. }
    assert (Vu : vminus p2 p1 = u) by (apply V3_eq; unfold vminus, u, vsub, vadd, vscal; simpl; ring).
    assert (Vv : vminus p3 p1 = v) by (apply V3_eq; unfold vminus, v, vsub, vadd, vscal; simpl; ring).
    rewrite Vu, Vv in *. pose proof (Eu u) as A. pose proof (Eu v) as B. rewrite O1, Q1 in A. rewrite O2, Q2 in B.
    assert (G : N2 = vdot u u * vdot v v - vdot u v * vdot u v) by (unfold N2, n, vdot, cross_product; simpl; ring).
    assert (C : vdot v u = vdot u v) by (unfold vdot; ring). rewrite C in A.
    assert (X2 : N2 * x2 = 0) by (rewrite G; transitivity ((x2 * vdot u u + x3 * vdot u v) * vdot v v - (x2 * vdot u v + x3 * vdot v v) * vdot u v); [ring|rewrite <- A, <- B; ring]).
    assert (X3 : N2 * x3 = 0) by (rewrite G; transitivity ((x2 * vdot u v + x3 * vdot v v) * vdot u u - (x2 * vdot u u + x3 * vdot u v) * vdot u v); [ring|rewrite <- A, <- B; ring]).
    apply Rmult_integral in X2 as [X2|X2]; [lra|]. apply Rmult_integral in X3 as [X3|X3]; [lra|].
    unfold bary_sum in S1. apply V3_eq; unfold albary, al1; cbn [vx vy vz]; unfold x2, x3 in *; lra.
  Qed.
End Tri.

Lemma within_iff a x b : within a x b = true <-> a < x < b.
Proof. unfold within. destruct (Rlt_dec a x), (Rlt_dec x b); simpl; split; intros; try discriminate; try lra; reflexivity. Qed.

Lemma projection_cases node tri gap0 normal0 bary0 tol :
  let p := coord_1 node in let p1 := coord_1 tri in let p2 := coord_2 tri in let p3 := coord_3 tri in
  let r := projection node tri gap0 normal0 bary0 tol in
  let b := albary p p1 p2 p3 in
  (nondegenerate p1 p2 p3 /\ all_between (- tol) (1 + tol) b /\
   r = Proj (within (- char_len_ tri) (signed_distance p p1 p2 p3) 0) (signed_distance p p1 p2 p3) (unit_normal p1 p2 p3) b) \/
  ((~ nondegenerate p1 p2 p3 \/ ~ all_between (- tol) (1 + tol) b) /\ r = Proj false gap0 normal0 bary0).
Proof.
  intros p p1 p2 p3 r b. unfold r, projection. fold p p1 p2 p3. cbv zeta.
  set (u := vsub p2 p1). set (v := vsub p3 p1). set (w := vsub p p1). set (n := cross_product u v).
  fold (vdot n n). fold (vdot (cross_product u w) n). fold (vdot (cross_product w v) n).
  assert (En : n = triangle_normal p1 p2 p3) by apply n_normal.
  destruct (Req_EM_T (vdot n n) 0) as [E|E].
  { right. split; [|reflexivity]. left. rewrite nondeg_pos, <- En. lra. }
  assert (Hn : 0 < vdot n n) by (pose proof (vdot_nonneg n); lra).
  match goal with |- context[if ?c then _ else _] => change c with (within (- tol) (al1 p p1 p2 p3) (1 + tol) && within (- tol) (al2 p p1 p2 p3) (1 + tol) && within (- tol) (al3 p p1 p2 p3) (1 + tol)) end.
  destruct (within (- tol) (al1 p p1 p2 p3) (1 + tol) && within (- tol) (al2 p p1 p2 p3) (1 + tol) && within (- tol) (al3 p p1 p2 p3) (1 + tol)) eqn:EB.
  - left. apply andb_true_iff in EB as [EB B3]. apply andb_true_iff in EB as [B1 B2]. apply within_iff in B1, B2, B3.
    split; [rewrite nondeg_pos, <- En; exact Hn|]. split; [unfold all_between, b, albary; simpl; tauto|].
    pose proof (sqrt_lt_R0 _ Hn) as Hs.
    assert (Norm : mkV3 (vx n * (1 / sqrt (vdot n n))) (vy n * (1 / sqrt (vdot n n))) (vz n * (1 / sqrt (vdot n n))) = unit_normal p1 p2 p3).
    { unfold unit_normal. cbv zeta. rewrite <- En. apply V3_eq; unfold vscal; cbn [vx vy vz]; field; lra. }
    pose proof (@offset_normal p p1 p2 p3 Hn) as Off. fold u v w n in Off.
    assert (Gap : (vx p - (al1 p p1 p2 p3 * vx p1 + al2 p p1 p2 p3 * vx p2 + al3 p p1 p2 p3 * vx p3)) * (vx n * (1 / sqrt (vdot n n))) +
                  (vy p - (al1 p p1 p2 p3 * vy p1 + al2 p p1 p2 p3 * vy p2 + al3 p p1 p2 p3 * vy p3)) * (vy n * (1 / sqrt (vdot n n))) +
                  (vz p - (al1 p p1 p2 p3 * vz p1 + al2 p p1 p2 p3 * vz p2 + al3 p p1 p2 p3 * vz p3)) * (vz n * (1 / sqrt (vdot n n))) = signed_distance p p1 p2 p3).
    { rewrite (@signed_w p p1 p2 p3 Hn). fold u v w n.
      transitivity (vdot (vminus p (bary_point p1 p2 p3 (albary p p1 p2 p3))) n / sqrt (vdot n n)).
      - unfold vdot at 4. unfold vminus, bary_point, albary, vadd, vscal. cbn [vx vy vz]. field. lra.
      - rewrite Off. unfold vdot at 1. unfold vscal. cbn [vx vy vz].
        replace (vdot w n / vdot n n * vx n * vx n + vdot w n / vdot n n * vy n * vy n + vdot w n / vdot n n * vz n * vz n) with (vdot w n / vdot n n * vdot n n) by (unfold vdot; ring).
        field. split; lra. }
    match goal with |- Proj _ ?g ?nn _ = _ => change nn with (mkV3 (vx n * (1 / sqrt (vdot n n))) (vy n * (1 / sqrt (vdot n n))) (vz n * (1 / sqrt (vdot n n)))); assert (G' : g = signed_distance p p1 p2 p3) by exact Gap; rewrite G', Norm end.
    reflexivity.
  - right. split; [|reflexivity]. right. intros (B1 & B2 & B3). unfold b, albary in *. cbn [vx vy vz] in *.
    apply within_iff in B1, B2, B3. rewrite B1, B2, B3 in EB. discriminate.
Qed.
