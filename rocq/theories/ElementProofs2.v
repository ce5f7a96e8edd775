(** Proofs about the hexahedron: Jacobians, deformation gradients, forces, masses, averages. *)
From Verif Require Import Base Loops TensorModel TensorSpec TensorProofs PolarProofs ElementModel ElementSpec ElementProofs.
From Coq Require Import Reals Lra Psatz.
Set Implicit Arguments.
Local Open Scope R_scope.

(** ** The Jacobian *)
Lemma jacobian_loop_sum x q i j : (i < 3)%nat -> (j < 3)%nat ->
  jacobian_loop x q i j = Rsum 8 (fun n => x n i * shape_fcn_deriv (24 * q + 3 * n + j)%nat).
Proof.
  intros Hi Hj.
  assert (E : forall n, shape_fcn_deriv (24 * q + 3 * n + 0)%nat = shape_fcn_deriv (24 * q + 3 * n)%nat) by (intros; now rewrite Nat.add_0_r).
  unfold jacobian_loop, floop. change (seq 0 (8 - 0)) with [0;1;2;3;4;5;6;7]%nat. unfold at2, zero3.
  idx3 i; idx3 j; cbv [fold_left upd2 Nat.eqb andb Rsum]; rewrite ?E; ring.
Qed.
Lemma jacobian_loop_jac x x' q : (q < 8)%nat -> (forall n i, (n < 8)%nat -> (i < 3)%nat -> x n i = x' n i) ->
  meq (jacobian_loop x q) (jac x' q).
Proof.
  intros Hq Hx. apply meq_intro. intros i j Hi Hj. rewrite jacobian_loop_sum by assumption. unfold jac.
  apply Rsum_ext. intros n Hn. rewrite deriv_at, Hx by assumption. reflexivity.
Qed.

(** The inverse the code computes, as adjugate over determinant *)
Definition minv (A : mat3) : mat3 := mscale (/ mdet A) (madj A).
Lemma minv_l A : mdet A <> 0 -> meq (mmul (minv A) A) mone.
Proof.
  intros H. unfold minv. rewrite mmul_scale_l, madj_l. apply meq_intro. intros i j Hi Hj. unfold mscale. field. exact H.
Qed.
Lemma minv_r A : mdet A <> 0 -> meq (mmul A (minv A)) mone.
Proof. intros H. apply right_inverse_left. now apply minv_l. Qed.
Lemma inverse_unique A B : mdet A <> 0 -> meq (mmul A B) mone -> meq B (minv A).
Proof.
  intros H HB. rewrite <- (mmul_1_l B). rewrite <- (minv_l H). rewrite <- mmul_assoc, HB. apply mmul_1_r.
Qed.
Lemma invert_jac a J r : meq a J -> 0 < mdet J ->
  exists inv, invert3x3 a r = Ok (inv, mdet J) /\ meq inv (minv J).
Proof.
  intros Ha Hd. assert (Hd' : 0 < mdet a) by (rewrite (mdet_proper Ha); exact Hd).
  destruct (@invert3_ok a r Hd') as (inv & E & H1 & _). exists inv. rewrite (mdet_proper Ha) in E. split; [exact E|].
  apply inverse_unique; [lra|]. rewrite <- Ha. exact H1.
Qed.
Lemma invert_jac_fail a J r : meq a J -> mdet J <= 0 -> invert3x3 a r = Abort.
Proof. intros Ha Hd. apply invert3_fail. rewrite (mdet_proper Ha). exact Hd. Qed.

(** ** The two kinds of outcome of a loop over integration points that inverts the Jacobian *)
Lemma oloop_abort_at {S} n q (f : nat -> S -> outcome S) s : (q < n)%nat ->
  (forall k s, (k < q)%nat -> (exists s', f k s = Ok s') \/ f k s = Abort) ->
  (forall s, f q s = Abort) -> oloop 0 n f s = Abort.
Proof.
  intros Hq Hk Hf. unfold oloop. rewrite Nat.sub_0_r.
  replace n with (q + (1 + (n - q - 1)))%nat by lia. rewrite seq_app. 
  assert (G : forall l s, (forall k, In k l -> (k < q)%nat) ->
     (exists s', ofold (fun s k => f k s) l s = Ok s') \/ ofold (fun s k => f k s) l s = Abort).
  { induction l as [|k l IH]; intros s0 Hl; simpl; eauto.
    destruct (Hk k s0) as [[s' E]|E]; [apply Hl; now left| |]; rewrite E; simpl; auto.
    apply IH. intros k' Hk'. apply Hl. now right. }
  assert (A : forall l1 l2 s, ofold (fun s k => f k s) (l1 ++ l2) s = obind (ofold (fun s k => f k s) l1 s) (fun s => ofold (fun s k => f k s) l2 s)).
  { induction l1 as [|k l1 IH]; intros l2 s0; simpl; auto. destruct (f k s0); simpl; auto. }
  rewrite A. destruct (G (seq 0 q) s) as [[s' E]|E].
  - intros k Hk'. apply in_seq in Hk'. lia.
  - rewrite E. simpl. now rewrite Hf.
  - rewrite E. reflexivity.
Qed.

Lemma shaped_dec x : well_shaped x \/ exists q, (q < 8)%nat /\ mdet (jac x q) <= 0.
Proof.
  unfold well_shaped. generalize 8%nat as n. induction n as [|n IH].
  - left. intros; lia.
  - destruct IH as [IH|(q & Hq & Hd)]; [|right; exists q; split; [lia|assumption]].
    destruct (Rlt_dec 0 (mdet (jac x n))) as [Hp|Hn].
    + left. intros q Hq. destruct (Nat.eq_dec q n) as [->|]; [assumption|apply IH; lia].
    + right. exists n. split; [lia|lra].
Qed.

(** ** Gradients *)
Definition gradN (x : nat -> nat -> R) (q n i : nat) : R := Rsum 3 (fun k => dshape n k (gauss q) * minv (jac x q) k i).
Lemma gradN_field x u G q i j : (q < 8)%nat -> 0 < mdet (jac x q) -> meq (mmul (G q) (jac x q)) (jac u q) -> (i < 3)%nat -> (j < 3)%nat ->
  Rsum 8 (fun n => u n i * gradN x q n j) = G q i j.
Proof.
  intros Hq Hd HG Hi Hj.
  assert (E : Rsum 8 (fun n => u n i * gradN x q n j) = mmul (jac u q) (minv (jac x q)) i j).
  { unfold gradN. generalize (minv (jac x q)). intros M. unfold mmul, jac.
    transitivity (Rsum 8 (fun n => Rsum 3 (fun k => u n i * dshape n k (gauss q) * M k j))).
    - apply Rsum_ext. intros n Hn. rewrite <- Rsum_scal. apply Rsum_ext. intros; ring.
    - rewrite Rsum_swap. apply Rsum_ext. intros k Hk. rewrite (Rmult_comm _ (M k j)), <- Rsum_scal. apply Rsum_ext. intros; ring. }
  rewrite E. clear E. apply (fun H => meq_elim H Hi Hj). rewrite <- HG, <- mmul_assoc, minv_r by lra. apply mmul_1_r.
Qed.
Lemma gradient_exists x u : well_shaped x -> gradient_of x u (fun q => mmul (jac u q) (minv (jac x q))).
Proof.
  intros Hw q Hq. rewrite <- mmul_assoc, minv_l; [apply mmul_1_r|]. pose proof (Hw q Hq). lra.
Qed.
Lemma gradient_unique x u G G' q : well_shaped x -> gradient_of x u G -> gradient_of x u G' -> (q < 8)%nat -> meq (G q) (G' q).
Proof.
  intros Hw H H' Hq. pose proof (Hw q Hq) as Hd. apply meq_intro. intros i j Hi Hj.
  rewrite <- (@gradN_field x u G q i j Hq Hd (H q Hq) Hi Hj), <- (@gradN_field x u G' q i j Hq Hd (H' q Hq) Hi Hj). reflexivity.
Qed.

(** ** Deformation gradients *)
Lemma full_9 out q : full (fun k => out (9 * q + k)%nat) = fun i j => out (9 * q + full_index i j)%nat.
Proof. reflexivity. Qed.
Lemma def_grad_step (a b : nat -> nat -> R) d j k : (j < 3)%nat -> (k < 3)%nat ->
  floop 0 3 (fun j d => floop 0 3 (fun k d =>
        upd2 d j k (at2 a j 0 * at2 b 0 k + at2 a j 1 * at2 b 1 k + at2 a j 2 * at2 b 2 k)) d) d j k = mmul a b j k.
Proof.
  intros Hj Hk. unfold floop. change (seq 0 (3 - 0)) with [0;1;2]%nat. unfold at2.
  idx3 j; idx3 k; cbv [fold_left upd2 Nat.eqb andb mmul Rsum]; ring.
Qed.
Lemma def_grad_ok ref cur out0 : well_shaped (nodes ref) ->
  exists out, compute_deformation_gradients ref cur out0 = Ok out /\
    gradient_of (nodes ref) (nodes cur) (fun q => full (fun k => out (9 * q + k)%nat)) /\
    forall k, (72 <= k)%nat -> out k = out0 k.
Proof.
  intros Hw. unfold compute_deformation_gradients. cbv zeta.
  match goal with |- context [oloop 0 8 ?f0 ?s0] => 
    destruct (@oloop_ind _ (fun m (s : (nat -> nat -> R) * (nat -> nat -> R) * arr) =>
       (forall q, (q < m)%nat -> meq (mmul (full (fun k => snd s (9 * q + k)%nat)) (jac (nodes ref) q)) (jac (nodes cur) q)) /\
       forall k, (9 * m <= k)%nat -> snd s k = out0 k) 0%nat 8%nat f0 s0) as (s' & E & H1 & H2) end; [lia| | |].
  - split; [intros; lia|reflexivity].
  - intros q [[b_inv dg] out] Hq [IH1 IH2]. cbn [snd] in IH1, IH2.
    match goal with |- context [invert3x3 (jacobian_loop ?x q) _] =>
      assert (HJ : meq (jacobian_loop x q) (jac (nodes ref) q)) by (apply jacobian_loop_jac; [lia|reflexivity]) end.
    destruct (invert_jac b_inv HJ (Hw q ltac:(lia))) as (inv & E & Hinv). rewrite E. cbn [obind fst snd].
    match goal with |- context [floop 0 3 (fun j d => floop 0 3 (fun k d => upd2 d j k (at2 ?a j 0 * _ + _ + _)) d) dg] => set (A := a) end.
    match goal with |- context [floop 0 3 ?f dg] => set (D := floop 0 3 f dg) end.
    assert (HD : meq D (mmul A inv)) by (apply meq_intro; intros j k Hj Hk; unfold D; now rewrite def_grad_step).
    assert (HA : meq A (jac (nodes cur) q)).
    { apply jacobian_loop_jac; [lia|]. intros n i _ _. unfold nodes. ring. }
    clearbody A D. eexists. split; [reflexivity|]. cbn [snd]. split.
    + intros q' Hq'. destruct (Nat.eq_dec q' q) as [->|Hne].
      * transitivity (mmul D (jac (nodes ref) q)).
        { apply meq_intro. intros i j Hi Hj. unfold mmul. apply Rsum_ext. intros k Hk. f_equal.
          unfold full, upd.
          idx3 i; idx3 k; cbv [full_index K_F_XX K_F_XY K_F_XZ K_F_YX K_F_YY K_F_YZ K_F_ZX K_F_ZY K_F_ZZ];
          repeat match goal with |- context [Nat.eqb ?a ?b] => destruct (Nat.eqb_spec a b) as [E'|_]; [exfalso; lia|] || (replace (Nat.eqb a b) with true by (symmetry; apply Nat.eqb_eq; lia)) end; reflexivity. }
        rewrite HD, HA, Hinv, <- mmul_assoc, minv_l; [apply mmul_1_r|]. pose proof (Hw q ltac:(lia)). lra.
      * rewrite <- (IH1 q') by lia. apply meq_intro. intros i j Hi Hj. unfold mmul. apply Rsum_ext. intros k Hk. f_equal.
        unfold full, upd. cbv [K_F_XX K_F_XY K_F_XZ K_F_YX K_F_YY K_F_YZ K_F_ZX K_F_ZY K_F_ZZ].
        assert (full_index i k < 9)%nat by (idx3 i; idx3 k; cbv [full_index]; lia).
        repeat match goal with |- context [Nat.eqb ?a ?b] => destruct (Nat.eqb_spec a b) as [E'|_]; [exfalso; lia|] end. reflexivity.
    + intros k Hk. rewrite <- (IH2 k) by lia. unfold upd. cbv [K_F_XX K_F_XY K_F_XZ K_F_YX K_F_YY K_F_YZ K_F_ZX K_F_ZY K_F_ZZ].
      repeat match goal with |- context [Nat.eqb ?a ?b] => destruct (Nat.eqb_spec a b) as [E'|_]; [exfalso; lia|] end. reflexivity.
  - rewrite E. cbn [obind]. exists (snd s'). split; [reflexivity|]. split; [exact H1|exact H2].
Qed.
Lemma def_grad_abort ref cur out0 : ~ well_shaped (nodes ref) -> compute_deformation_gradients ref cur out0 = Abort.
Proof.
  intros Hw.
  destruct (shaped_dec (nodes ref)) as [Hs|(q & Hq & Hd)]; [contradiction|].
  unfold compute_deformation_gradients. cbv zeta. rewrite (@oloop_abort_at _ 8 q); auto.
  - intros k [[b dg] out] Hk.
    match goal with |- context [invert3x3 ?a ?r] => destruct (Rlt_dec 0 (mdet a)) as [Hp|Hn] end.
    + left. match goal with |- context [invert3x3 ?a ?r] => destruct (@invert3_ok a r Hp) as (inv & E & _) end. rewrite E. cbn [obind]. eexists; reflexivity.
    + right. rewrite invert3_fail by lra. reflexivity.
  - intros [[b dg] out]. rewrite invert_jac_fail with (J := jac (nodes ref) q); [reflexivity| |exact Hd].
    apply jacobian_loop_jac; [exact Hq|reflexivity].
Qed.
