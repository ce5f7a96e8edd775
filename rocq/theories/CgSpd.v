(** The conjugate gradient solver on symmetric positive definite matrices: the residuals of
    different passes are orthogonal (in the product weighted by the inverse diagonal) and the
    search directions conjugate; hence no division by zero and at most n passes. *)
From Coq Require Import Reals Lra Sorting.Sorted.
From Verif Require Import Base ListLemmas Loops LinModel LinSpec CrsProofs CgProofs.
Local Open Scope R_scope.
Set Implicit Arguments.

Lemma dot_sym n u v : dot n u v = dot n v u.
Proof. apply Rsum_ext. intros; ring. Qed.
Lemma dot_axpy_l n u c v w : dot n (fun i => u i + c * v i) w = dot n u w + c * dot n v w.
Proof. unfold dot. rewrite <- Rsum_scal, <- Rsum_plus. apply Rsum_ext. intros; ring. Qed.
Lemma dot_axpy_r n u c v w : dot n w (fun i => u i + c * v i) = dot n w u + c * dot n w v.
Proof. rewrite dot_sym, dot_axpy_l, (dot_sym n u), (dot_sym n v). reflexivity. Qed.
Lemma dot_mv_sym n A u v : symmetric n A -> dot n u (mv n A v) = dot n v (mv n A u).
Proof.
  intros Hs. unfold dot, mv.
  transitivity (Rsum n (fun i => Rsum n (fun j => u i * A i j * v j))).
  { apply Rsum_ext. intros i Hi. rewrite <- Rsum_scal. apply Rsum_ext. intros; ring. }
  rewrite Rsum_swap. apply Rsum_ext. intros j Hj. rewrite <- Rsum_scal. apply Rsum_ext. intros i Hi.
  rewrite (Hs i j) by auto. ring.
Qed.

Lemma Rsum_nonzero n f : Rsum n f <> 0 -> exists i, (i < n)%nat /\ f i <> 0.
Proof.
  induction n as [|n IH]; simpl; intros H; [lra|]. destruct (Req_EM_T (f n) 0) as [E|E]; [|exists n; split; auto].
  destruct IH as (i & Hi & Hf); [lra|]. exists i. split; auto.
Qed.

Section SPD.
  Variables (n : nat) (A : nat -> nat -> R).
  Hypothesis Hsym : symmetric n A.
  Hypothesis Hpd : positive_definite n A.

  Lemma diag_pos i : (i < n)%nat -> 0 < A i i.
  Proof.
    intros Hi. pose (e := fun k => if (k =? i)%nat then 1 else 0).
    assert (H : 0 < dot n e (mv n A e)).
    { apply Hpd. exists i. split; auto. unfold e. rewrite Nat.eqb_refl. lra. }
    unfold dot in H. rewrite (@Rsum_single n _ i Hi) in H.
    - unfold mv in H. rewrite (@Rsum_single n _ i Hi) in H.
      + unfold e in H. rewrite Nat.eqb_refl in H. lra.
      + intros k _ Hk. unfold e. apply Nat.eqb_neq in Hk. rewrite Hk. ring.
    - intros k _ Hk. unfold e. apply Nat.eqb_neq in Hk. rewrite Hk. ring.
  Qed.

  (** the weighted product *)
  Definition W (u v : nat -> R) : R := Rsum n (fun i => u i * v i / A i i).
  Lemma W_sym u v : W u v = W v u.
  Proof. apply Rsum_ext. intros. unfold Rdiv. ring. Qed.
  Lemma W_axpy u c v w : W (fun i => u i + c * v i) w = W u w + c * W v w.
  Proof. unfold W. rewrite <- Rsum_scal, <- Rsum_plus. apply Rsum_ext. intros. unfold Rdiv. ring. Qed.
  Lemma W_nonneg u : 0 <= W u u.
  Proof.
    apply Rsum_nonneg. intros k Hk. pose proof (diag_pos Hk). unfold Rdiv. pose proof (Rinv_0_lt_compat _ H). nra.
  Qed.
  Lemma W_dot u v : W u v = dot n (fun i => u i / A i i) v.
  Proof. apply Rsum_ext. intros. unfold Rdiv. ring. Qed.
  Lemma W_ext u v u' v' : (forall i, (i < n)%nat -> u i = u' i) -> (forall i, (i < n)%nat -> v i = v' i) -> W u v = W u' v'.
  Proof. intros H1 H2. apply Rsum_ext. intros i Hi. now rewrite H1, H2. Qed.

  (** Bessel's inequality, and: at most n mutually orthogonal vectors *)
  Lemma bessel (V : nat -> nat -> R) m : (forall i, (i < m)%nat -> 0 < W (V i) (V i)) ->
    (forall i j, (i < j < m)%nat -> W (V i) (V j) = 0) ->
    forall z, Rsum m (fun j => W z (V j) * W z (V j) / W (V j) (V j)) <= W z z.
  Proof.
    intros Hp Ho z.
    assert (H : forall k, (k <= m)%nat -> exists p,
      W p p = W z z - Rsum k (fun j => W z (V j) * W z (V j) / W (V j) (V j)) /\
      forall j, (k <= j < m)%nat -> W p (V j) = W z (V j)).
    { induction k as [|k IH]; intros Hk.
      - exists z. split; [simpl; ring|auto].
      - destruct IH as (p & H1 & H2); [lia|]. pose (c := - (W z (V k) / W (V k) (V k))).
        exists (fun i => p i + c * V k i). pose proof (Hp k ltac:(lia)) as Hk0. split.
        + rewrite W_axpy, (W_sym p), (W_sym (V k)), !W_axpy, H1, (W_sym (V k) p), H2 by lia. simpl Rsum. unfold c. field. lra.
        + intros j Hj. rewrite W_axpy, H2, Ho by lia. ring. }
    destruct (H m (le_n m)) as (p & H1 & _). pose proof (W_nonneg p). lra.
  Qed.

  Lemma at_most_n (V : nat -> nat -> R) m : (forall i, (i < m)%nat -> 0 < W (V i) (V i)) ->
    (forall i j, (i < j < m)%nat -> W (V i) (V j) = 0) -> (m <= n)%nat.
  Proof.
    intros Hp Ho. apply INR_le.
    assert (H1 : forall i, (i < n)%nat -> Rsum m (fun j => V j i * V j i / A i i / W (V j) (V j)) <= 1).
    { intros i Hi. pose (z := fun k => if (k =? i)%nat then A i i else 0).
      assert (Hz : forall v, W z v = v i).
      { intros v. unfold W. rewrite (@Rsum_single n _ i Hi).
        - unfold z. rewrite Nat.eqb_refl. field. pose proof (diag_pos Hi). lra.
        - intros k _ Hk. unfold z. apply Nat.eqb_neq in Hk. rewrite Hk. unfold Rdiv. ring. }
      pose proof (bessel V Hp Ho z) as Hb. rewrite Hz in Hb. unfold z in Hb at 3. rewrite Nat.eqb_refl in Hb.
      pose proof (diag_pos Hi) as Hd.
      replace (Rsum m (fun j => V j i * V j i / A i i / W (V j) (V j)))
        with (/ A i i * Rsum m (fun j => W z (V j) * W z (V j) / W (V j) (V j))).
      - apply (Rmult_le_compat_l (/ A i i)) in Hb; [|left; now apply Rinv_0_lt_compat].
        rewrite Rinv_l in Hb by lra. exact Hb.
      - rewrite <- Rsum_scal. apply Rsum_ext. intros j Hj. rewrite Hz. pose proof (Hp j Hj). field. split; lra. }
    assert (H2 : Rsum n (fun i => Rsum m (fun j => V j i * V j i / A i i / W (V j) (V j))) <= Rsum n (fun _ => 1)).
    { apply Rsum_le. exact H1. }
    assert (Hone : forall k, Rsum k (fun _ => 1) = INR k).
    { induction k as [|k IH]; [reflexivity|]. simpl Rsum. rewrite IH, S_INR. reflexivity. }
    rewrite Rsum_swap, Hone in H2.
    replace (Rsum m (fun j => Rsum n (fun i => V j i * V j i / A i i / W (V j) (V j)))) with (INR m) in H2; auto.
    rewrite <- Hone. apply Rsum_ext. intros j Hj. pose proof (Hp j Hj) as Hj0.
    transitivity (/ W (V j) (V j) * W (V j) (V j)); [rewrite Rinv_l; lra|].
    unfold W at 2. rewrite <- Rsum_scal. apply Rsum_ext. intros i Hi. unfold Rdiv. ring.
  Qed.
End SPD.

Section Run.
  Variables (pat : list (nat * nat)) (Hpat : good_pattern pat).
  Variables (a : rcrs) (D : nat -> nat -> R) (Hrep : represents pat a D).
  Let n := num_rows a.
  Hypothesis Hcols : forall i j, In (i, j) pat -> (j < n)%nat.
  Hypothesis Hdiag : forall r, is_row pat r -> In (r, r) pat.
  Let A := dense_of pat D.
  Hypothesis Hsym : symmetric n A.
  Hypothesis Hpd : positive_definite n A.
  Variables (b : nat -> R) (m : list R).
  Hypothesis Hm : forall i, (i < n)%nat -> nth i m 0 = 1 / D i i.

  Lemma diag_A i : (i < n)%nat -> D i i = A i i.
  Proof. intros Hi. unfold A. rewrite (dense_of_in pat D); auto. apply Hdiag. now apply (@rows_n pat Hpat a D Hrep). Qed.

  (** the passes so far: residuals V 0 .. V k, directions P 0 .. P k *)
  Record run (k : nat) (V P : nat -> nat -> R) (st : cg_state) : Prop := {
    ru_inv : cg_inv pat a D b st;
    ru_iter : cg_iter st = k;
    ru_r : forall i, (i < n)%nat -> cg_r st i = V k i;
    ru_d : forall i, (i < n)%nat -> cg_d st i = P k i;
    ru_pos : forall j, (j < k)%nat -> 0 < W n A (V j) (V j);
    ru_orth : forall i j, (i < j <= k)%nat -> W n A (V i) (V j) = 0;
    ru_conj : forall i j, (i < j <= k)%nat -> dot n (P i) (mv n A (P j)) = 0;
    ru_pr : forall i j, (i < j <= k)%nat -> dot n (P i) (V j) = 0;
    ru_prr : forall j, (j <= k)%nat -> dot n (P j) (V j) = W n A (V j) (V j);
    ru_first : forall i, (i < n)%nat -> P 0%nat i = V 0%nat i / A i i;
    ru_next : forall j, (j < k)%nat -> exists beta, forall i, (i < n)%nat -> P (S j) i = V (S j) i / A i i + beta * P j i;
    ru_move : forall j, (j < k)%nat -> exists alpha, alpha <> 0 /\ forall i, (i < n)%nat -> V (S j) i = V j i - alpha * mv n A (P j) i }.

  Lemma run_delta k V P st : run k V P st -> cg_delta st = W n A (V k) (V k).
  Proof.
    intros H. destruct (ru_inv H) as [H1 H2]. rewrite H2. unfold wres, W. fold n A. apply Rsum_ext. intros i Hi.
    rewrite diag_A by auto. rewrite <- (ru_r H) by auto. fold n A in H1. now rewrite H1.
  Qed.

  Lemma run_step k V P st : run k V P st -> 0 < cg_delta st ->
    exists st' V' P', cg_step a n m b st = Some st' /\ run (S k) V' P' st'.
  Proof.
    intros H Hpos. pose proof (run_delta H) as Hdel.
    pose (E := dot n (P k) (mv n A (P k))).
    assert (HE : 0 < E).
    { apply Hpd. destruct (Req_EM_T (dot n (P k) (V k)) 0) as [H0|H0].
      - rewrite (ru_prr H) in H0 by auto. lra.
      - apply Rsum_nonzero in H0 as (i & Hi & Hn). exists i. split; auto. intros Hz. apply Hn. rewrite Hz. ring. }
    assert (Ed : dot n (cg_d st) (mv n A (cg_d st)) = E).
    { apply dot_ext; [apply (ru_d H)|]. intros i Hi. apply mv_ext. apply (ru_d H). }
    destruct (@cg_step_some pat Hpat a D Hrep Hcols b m st) as [st' Est].
    { fold n A. rewrite Ed. lra. } { lra. }
    destruct (@cg_step_inv pat Hpat a D Hrep Hcols b m Hm st st' (ru_inv H) Est) as (Hi' & alpha & beta & Hs).
    fold n in Est. pose proof (st_alpha Hs) as Ha. fold n A in Ha. rewrite Ed in Ha.
    assert (Ha0 : alpha <> 0).
    { rewrite Ha. unfold Rdiv. apply Rmult_integral_contrapositive_currified; [lra|]. apply Rinv_neq_0_compat. lra. }
    pose (V' := fun j => if (j <=? k)%nat then V j else cg_r st').
    pose (P' := fun j => if (j <=? k)%nat then P j else cg_d st').
    assert (V1 : forall j, (j <= k)%nat -> V' j = V j) by (intros j Hj; unfold V'; apply Nat.leb_le in Hj; now rewrite Hj).
    assert (P1 : forall j, (j <= k)%nat -> P' j = P j) by (intros j Hj; unfold P'; apply Nat.leb_le in Hj; now rewrite Hj).
    assert (V2 : V' (S k) = cg_r st') by (unfold V'; replace (S k <=? k)%nat with false by (symmetry; apply Nat.leb_gt; lia); auto).
    assert (P2 : P' (S k) = cg_d st') by (unfold P'; replace (S k <=? k)%nat with false by (symmetry; apply Nat.leb_gt; lia); auto).
    assert (Hr' : forall i, (i < n)%nat -> cg_r st' i = V k i + (- alpha) * mv n A (P k) i).
    { intros i Hi. rewrite (st_r Hs) by auto. fold n A. rewrite (ru_r H) by auto.
      rewrite (mv_ext A (cg_d st) (P k) i (ru_d H)). ring. }
    assert (Hd' : forall i, (i < n)%nat -> cg_d st' i = cg_r st' i / A i i + beta * P k i).
    { intros i Hi. rewrite (st_d Hs) by auto. rewrite diag_A, (ru_d H) by auto. reflexivity. }
    assert (Hdel' : cg_delta st' = W n A (cg_r st') (cg_r st')).
    { destruct Hi' as [Q1 Q2]. rewrite Q2. unfold wres, W. fold n A. apply Rsum_ext. intros i Hi. rewrite diag_A by auto.
      fold n A in Q1. now rewrite Q1. }
    assert (Hpr : forall i, (i <= k)%nat -> dot n (P i) (cg_r st') = 0).
    { intros i Hi. rewrite (@dot_ext n (P i) (cg_r st') (P i) (fun j => V k j + - alpha * mv n A (P k) j)) by (auto; apply Hr').
      rewrite dot_axpy_r. destruct (Nat.eq_dec i k) as [->|Hne].
      - rewrite (ru_prr H) by auto. fold E. rewrite <- Hdel, Ha. field. lra.
      - rewrite (ru_pr H), (ru_conj H) by lia. ring. }
    assert (Horth : forall i, (i <= k)%nat -> W n A (V i) (cg_r st') = 0).
    { intros i Hi. rewrite W_dot. destruct i as [|i].
      - rewrite (@dot_ext n _ (cg_r st') (P 0%nat) (cg_r st')); [apply Hpr; lia| |auto]. intros j Hj. now rewrite (ru_first H).
      - destruct (ru_next H (j := i)) as [be Hbe]; [lia|].
        rewrite (@dot_ext n _ (cg_r st') (fun j => P (S i) j + - be * P i j) (cg_r st')); [| |auto].
        + rewrite dot_axpy_l, !Hpr by lia. ring.
        + intros j Hj. rewrite Hbe by auto. ring. }
    assert (Hconj : forall i, (i <= k)%nat -> dot n (P i) (mv n A (cg_d st')) = 0).
    { intros i Hi. rewrite (dot_mv_sym (P i) (cg_d st') Hsym).
      rewrite (@dot_ext n (cg_d st') _ (fun j => cg_r st' j / A j j + beta * P k j) (mv n A (P i))) by (auto; apply Hd').
      rewrite dot_axpy_l, (dot_mv_sym (P k) (P i) Hsym).
      assert (Hx : exists al v1 v2, al <> 0 /\ (forall j, (j < n)%nat -> mv n A (P i) j = (v1 j + -1 * v2 j) / al) /\
         dot n (fun j => cg_r st' j / A j j) (mv n A (P i)) = (W n A v1 (cg_r st') - W n A v2 (cg_r st')) / al /\
         ((i < k)%nat /\ v1 = V i /\ v2 = V (S i) \/ i = k /\ al = alpha /\ v1 = V k /\ v2 = cg_r st')).
      { assert (Hgen : forall al v1 v2, al <> 0 -> (forall j, (j < n)%nat -> mv n A (P i) j = (v1 j + -1 * v2 j) / al) ->
           dot n (fun j => cg_r st' j / A j j) (mv n A (P i)) = (W n A v1 (cg_r st') - W n A v2 (cg_r st')) / al).
        { intros al v1 v2 Hal Hmv. rewrite (@dot_ext n _ (mv n A (P i)) (fun j => cg_r st' j / A j j) (fun j => (v1 j + -1 * v2 j) / al)) by auto.
          replace (W n A v1 (cg_r st') - W n A v2 (cg_r st')) with (W n A v1 (cg_r st') + -1 * W n A v2 (cg_r st')) by ring.
          rewrite <- W_axpy. unfold dot, W, Rdiv. rewrite Rmult_comm, <- Rsum_scal. apply Rsum_ext. intros. ring. }
        destruct (Nat.eq_dec i k) as [->|Hne].
        - exists alpha, (V k), (cg_r st'). assert (Hmv : forall j, (j < n)%nat -> mv n A (P k) j = (V k j + -1 * cg_r st' j) / alpha).
          { intros j Hj. rewrite Hr' by auto. field. auto. }
          split; auto. split; auto. split; [now apply Hgen|]. right; auto.
        - destruct (ru_move H (j := i)) as (al & Hal & Hmv); [lia|]. exists al, (V i), (V (S i)).
          assert (Hmv' : forall j, (j < n)%nat -> mv n A (P i) j = (V i j + -1 * V (S i) j) / al).
          { intros j Hj. rewrite Hmv by auto. field. auto. }
          split; auto. split; auto. split; [now apply Hgen|]. left. split; [lia|auto]. }
      destruct Hx as (al & v1 & v2 & Hal & _ & -> & [(Hlt & -> & ->)|(-> & -> & -> & ->)]).
      - rewrite !Horth by lia. rewrite (ru_conj H) by lia. field. auto.
      - rewrite Horth by auto. fold E. rewrite <- Hdel', (st_beta Hs), Ha. field. lra. }
    exists st', V', P'. split; [exact Est|]. split.
    - exact Hi'.
    - rewrite (st_iter Hs), (ru_iter H). reflexivity.
    - intros i Hi. now rewrite V2.
    - intros i Hi. now rewrite P2.
    - intros j Hj. rewrite V1 by lia. destruct (Nat.eq_dec j k) as [->|]; [lra|apply (ru_pos H); lia].
    - intros i j Hij. rewrite (V1 i) by lia. destruct (Nat.eq_dec j (S k)) as [->|].
      + rewrite V2. apply Horth. lia.
      + rewrite V1 by lia. apply (ru_orth H). lia.
    - intros i j Hij. rewrite (P1 i) by lia. destruct (Nat.eq_dec j (S k)) as [->|].
      + rewrite P2. apply Hconj. lia.
      + rewrite P1 by lia. apply (ru_conj H). lia.
    - intros i j Hij. rewrite (P1 i) by lia. destruct (Nat.eq_dec j (S k)) as [->|].
      + rewrite V2. apply Hpr. lia.
      + rewrite V1 by lia. apply (ru_pr H). lia.
    - intros j Hj. destruct (Nat.eq_dec j (S k)) as [->|].
      + rewrite V2, P2. rewrite (@dot_ext n (cg_d st') (cg_r st') (fun j => cg_r st' j / A j j + beta * P k j) (cg_r st')) by (auto; apply Hd').
        rewrite dot_axpy_l, Hpr, <- W_dot by auto. ring.
      + rewrite V1, P1 by lia. apply (ru_prr H). lia.
    - intros i Hi. rewrite V1, P1 by lia. now apply (ru_first H).
    - intros j Hj. destruct (Nat.eq_dec j k) as [->|].
      + exists beta. intros i Hi. rewrite V2, P2, P1 by lia. now apply Hd'.
      + rewrite V1, !P1 by lia. apply (ru_next H). lia.
    - intros j Hj. destruct (Nat.eq_dec j k) as [->|].
      + exists alpha. split; auto. intros i Hi. rewrite V2, V1, P1 by lia. rewrite Hr' by auto. ring.
      + rewrite !V1, P1 by lia. apply (ru_move H). lia.
  Qed.

  Lemma run_bound k V P st : run k V P st -> 0 < cg_delta st -> (S k <= n)%nat.
  Proof.
    intros H Hpos. rewrite (run_delta H) in Hpos. apply (@at_most_n n A Hpd V (S k)).
    - intros i Hi. destruct (Nat.eq_dec i k) as [->|]; auto. apply (ru_pos H). lia.
    - intros i j Hij. apply (ru_orth H). lia.
  Qed.

  Lemma run_loop tol : 0 <= tol -> forall fuel k V P st, run k V P st -> (k <= n)%nat ->
    exists st', cg_loop fuel a n m b tol st = Some st' /\ (cg_iter st' <= n)%nat.
  Proof.
    intros Htol. induction fuel as [|fuel IH]; intros k V P st H Hk; simpl.
    - exists st. split; auto. rewrite (ru_iter H). auto.
    - destruct (Rlt_dec tol (cg_delta st)) as [Hlt|_].
      + assert (Hpos : 0 < cg_delta st) by lra. destruct (run_step H Hpos) as (st' & V' & P' & E & H').
        rewrite E. pose proof (run_bound H Hpos). eapply IH; eauto.
      + exists st. split; auto. rewrite (ru_iter H). auto.
  Qed.
End Run.

Lemma cg_spd pat (a : rcrs) D b m0 scratch x cg_tol max_it :
  good_pattern pat -> represents pat a D ->
  (forall i j, In (i, j) pat -> (j < num_rows a)%nat) -> (forall r, is_row pat r -> In (r, r) pat) ->
  length m0 = num_rows a ->
  let n := num_rows a in let A := dense_of pat D in
  symmetric n A -> positive_definite n A -> 0 <= cg_tol ->
  exists res, cg_solve a b m0 scratch x cg_tol max_it = Ok (Some res) /\ (cg_iterations res <= n)%nat /\
    0 <= weighted_residual n A b (cg_solution res).
Proof.
  intros Hp Hr Hc Hd Hm0 n A Hs Hpd Ht. unfold cg_solve.
  destruct (@populate_ok pat Hp a D Hr Hc Hd m0 Hm0) as (m & Em & Elm & Hm). rewrite Em. simpl obind.
  assert (HDA : forall i, (i < n)%nat -> D i i = A i i) by (apply (diag_A Hp Hr Hd)).
  rewrite (proj2 (@zero_diagonal_ok pat Hp a D Hr Hc Hd b m Hm)).
  2:{ intros i Hi. rewrite HDA by auto. pose proof (@diag_pos n A Hpd i Hi). lra. }
  fold n. set (q := mat_vec a x scratch). set (r := floop 0 n _ scratch).
  set (delta := inner n r _).
  assert (Hri : forall i, (i < n)%nat -> r i = b i - mv n A x i).
  { intros i Hi. unfold r. rewrite (floop_pointwise n (fun i _ => b i - q i)).
    replace (i <? n)%nat with true by (symmetry; now apply Nat.ltb_lt).
    unfold q. now rewrite (@matvec_mv pat Hp a D Hr Hc). }
  set (st0 := CG x _ r scratch q delta 0).
  assert (Hi0 : cg_inv pat a D b st0).
  { split; simpl; auto. unfold delta. now apply delta_wres. }
  assert (Hrun : run pat a D b 0 (fun _ => r) (fun _ => cg_d st0) st0).
  { constructor; auto; try (intros; lia).
    - intros j _. simpl cg_d. rewrite W_dot. apply dot_ext; auto. intros i Hi. rewrite <- HDA by auto. now apply diag_mv with (a := a).
    - intros i Hi. simpl cg_d. fold A. rewrite <- HDA by auto. now apply diag_mv with (a := a). }
  assert (Hdelta : delta = W n A r r).
  { change delta with (cg_delta st0). now rewrite (@run_delta pat Hp a D Hr Hd b 0 _ _ st0 Hrun). }
  destruct (@run_loop pat Hp a D Hr Hc Hd Hs Hpd b m Hm (cg_tol * delta)) with (fuel := max_it) (k := 0%nat) (V := fun _ : nat => r)
    (P := fun _ : nat => cg_d st0) (st := st0) as (st & E & Hit); auto.
  { rewrite Hdelta. apply Rmult_le_pos; auto. apply (@W_nonneg n A Hpd). }
  { lia. }
  fold n in E. rewrite E. eexists. split; [reflexivity|]. cbn [cg_iterations cg_solution]. split; auto.
  apply Rsum_nonneg. intros k Hk. pose proof (@diag_pos n A Hpd k Hk) as H0. unfold Rdiv. pose proof (Rinv_0_lt_compat _ H0). apply Rmult_le_pos; [exact (Rle_0_sqr _)|lra].
Qed.

(** a vanishing weighted residual means that the system is solved *)
Lemma weighted_zero n A b x : positive_definite n A -> weighted_residual n A b x <= 0 ->
  forall i, (i < n)%nat -> mv n A x i = b i.
Proof.
  intros Hpd H i Hi. unfold weighted_residual in H.
  assert (Hall : forall m, (m <= n)%nat -> Rsum m (fun i => (b i - mv n A x i) * (b i - mv n A x i) / A i i) <= 0 ->
    forall i, (i < m)%nat -> b i - mv n A x i = 0).
  { assert (Hnn : forall k, (k < n)%nat -> 0 <= (b k - mv n A x k) * (b k - mv n A x k) / A k k).
    { intros k Hk. pose proof (@diag_pos n A Hpd k Hk) as H0. unfold Rdiv. pose proof (Rinv_0_lt_compat _ H0). apply Rmult_le_pos; [exact (Rle_0_sqr _)|lra]. }
    induction m as [|m IH]; intros Hm Hs j Hj; [lia|]. simpl in Hs.
    assert (H0 : 0 <= Rsum m (fun i => (b i - mv n A x i) * (b i - mv n A x i) / A i i)).
    { apply Rsum_nonneg. intros; apply Hnn; lia. }
    pose proof (Hnn m ltac:(lia)) as H1. destruct (Nat.eq_dec j m) as [->|]; [|apply IH; lia || lra].
    assert (Hz : (b m - mv n A x m) * (b m - mv n A x m) / A m m = 0) by lra.
    pose proof (@diag_pos n A Hpd m ltac:(lia)) as Hp. unfold Rdiv in Hz. apply Rmult_integral in Hz as [Hz|Hz].
    - apply Rmult_integral in Hz. tauto.
    - exfalso. apply (Rinv_neq_0_compat (A m m)); lra. }
  specialize (Hall n (le_n n) H i Hi). lra.
Qed.
