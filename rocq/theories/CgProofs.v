(** Proofs about the conjugate gradient solver. *)
From Verif Require Import Base ListLemmas Loops LinModel LinSpec CrsProofs.
From Coq Require Import Reals Lra Sorting.Sorted.
Local Open Scope nat_scope.
Set Implicit Arguments.

Lemma floop_pointwise {T} n (g : nat -> T -> T) (x : nat -> T) k :
  floop 0 n (fun i x => upd x i (g i (x i))) x k = if k <? n then g k (x k) else x k.
Proof.
  apply (@floop_ind _ (fun m x' => forall k, x' k = if k <? m then g k (x k) else x k)); [lia|auto|].
  clear k. intros m s Hm H k. unfold upd. destruct (Nat.eqb_spec k m) as [->|Hne].
  - rewrite H. replace (m <? m) with false by (symmetry; apply Nat.ltb_ge; lia).
    now replace (m <? 1 + m) with true by (symmetry; apply Nat.ltb_lt; lia).
  - rewrite H. destruct (Nat.ltb_spec k m), (Nat.ltb_spec k (1 + m)); auto; lia.
Qed.

Local Open Scope R_scope.

Lemma inner_dot n u v : inner n u v = dot n u v.
Proof. unfold inner, dot. rewrite floop_acc by lia. rewrite Nat.sub_0_r. rewrite Rplus_0_l. reflexivity. Qed.

Lemma dot_ext n u v u' v' : (forall i, (i < n)%nat -> u i = u' i) -> (forall i, (i < n)%nat -> v i = v' i) ->
  dot n u v = dot n u' v'.
Proof. intros H1 H2. unfold dot. apply Rsum_ext. intros k Hk. now rewrite H1, H2. Qed.

Lemma mv_ext n A x y i : (forall j, (j < n)%nat -> x j = y j) -> mv n A x i = mv n A y i.
Proof. intros H. unfold mv. apply Rsum_ext. intros k Hk. now rewrite H. Qed.

Lemma mv_axpy n A x c d i : mv n A (fun j => x j + c * d j) i = mv n A x i + c * mv n A d i.
Proof.
  unfold mv. rewrite <- Rsum_scal, <- Rsum_plus. apply Rsum_ext. intros; ring.
Qed.

Section CG.
  Variables (pat : list (nat * nat)) (Hpat : good_pattern pat).
  Variables (a : rcrs) (D : nat -> nat -> R) (Hrep : represents pat a D).
  Let n := num_rows a.
  Hypothesis Hcols : forall i j, In (i, j) pat -> (j < n)%nat.
  Hypothesis Hdiag : forall r, is_row pat r -> In (r, r) pat.
  Let A := dense_of pat D.

  Lemma rows_n r : is_row pat r <-> (r < n)%nat.
  Proof. unfold n. destruct Hrep as [(E & _) _]. rewrite E. now apply is_row_iff. Qed.

  Lemma matvec_mv x y r : (r < n)%nat -> mat_vec a x y r = mv n A x r.
  Proof. intros H. apply mat_vec_dense with (pat := pat); auto. now apply rows_n. Qed.

  Lemma data_nth k i j : nth_error pat k = Some (i, j) -> nth k (data a) 0 = D i j.
  Proof. intros H. destruct Hrep as [_ HD]. now rewrite (@nth_error_nth_eq _ _ _ 0 _ (HD k i j H)). Qed.

  (** the preconditioner holds the inverse diagonal *)
  Lemma populate_ok m0 : length m0 = n -> exists m, populate_diagonal a m0 = Ok m /\ length m = n /\
    forall i, (i < n)%nat -> nth i m 0 = 1 / D i i.
  Proof.
    intros Hm0. unfold populate_diagonal. destruct Hrep as [(En & Ei & Ej & Ed & _) _].
    pose (P := fun (k : nat) (st : list R * nat) =>
      length (fst st) = n /\
      (forall i, (i < snd st)%nat -> nth i (fst st) 0 = 1 / D i i) /\
      (forall r, (exists p, (p < k)%nat /\ nth_error pat p = Some (r, r)) <-> (r < snd st)%nat)).
    destruct (@oloop_ind _ P 0 (length (data a)) (fun k st =>
      let '(m, idx) := st in
      if (nth k (i_index a) 0 =? nth k (j_index a) 0)%nat
      then do m' <- vset m idx (1 / nth k (data a) 0); Ok (m', S idx)
      else Ok (m, idx)) (m0, 0%nat)) as ([m idx] & E & (H1 & H2 & H3)); [lia| | |].
    - split; auto. split; [simpl; intros; lia|]. simpl. intros r. split; [|lia].
      intros (p & Hp & _). lia.
    - intros k [m idx] Hk (H1 & H2 & H3). cbn [fst snd] in *.
      destruct (nth_error pat k) as [[i j]|] eqn:Ep.
      2:{ apply nth_error_None in Ep. lia. }
      rewrite (data_nth _ Ep). rewrite Ei, Ej.
      rewrite (@nth_error_nth_eq _ (map fst pat) k 0%nat i) by (rewrite nth_error_map, Ep; reflexivity).
      rewrite (@nth_error_nth_eq _ (map snd pat) k 0%nat j) by (rewrite nth_error_map, Ep; reflexivity).
      destruct (Nat.eqb_spec i j) as [<-|Hne].
      + assert (Hin : In (i, i) pat) by (eapply nth_error_In; eauto).
        assert (Hin2 : (i < n)%nat) by (apply rows_n; exists i; auto).
        assert (Hidx : idx = i).
        { destruct (Nat.lt_trichotomy idx i) as [Hlt|[|Hgt]]; auto; exfalso.
          - assert (Hr : In (idx, idx) pat) by (apply Hdiag, rows_n; lia).
            apply In_nth_error in Hr as (p & Hp).
            assert (p < k)%nat.
            { destruct (Nat.lt_trichotomy p k) as [|[->|Hpk]]; auto; exfalso.
              - assert (E0 : (i, i) = (idx, idx)) by congruence. injection E0 as E0. lia.
              - pose proof (@sorted_nth _ _ _ (gp_sorted Hpat) k p _ _ Hpk Ep Hp) as [Hx|[Hx _]]; simpl in Hx; lia. }
            assert (idx < idx)%nat by (apply H3; eauto). lia.
          - apply H3 in Hgt as (p & Hp & Hpp).
            pose proof (@sorted_nth _ _ _ (gp_sorted Hpat) p k _ _ Hp Hpp Ep) as [Hx|[_ Hx]]; simpl in Hx; lia. }
        subst idx. unfold vset. rewrite H1. replace (i <? n)%nat with true by (symmetry; now apply Nat.ltb_lt).
        simpl obind. eexists. split; [reflexivity|]. split; [simpl; now rewrite list_set_length|].
        cbn [fst snd]. split.
        * intros i' Hi'. rewrite nth_list_set, H1. replace (i <? n)%nat with true by (symmetry; now apply Nat.ltb_lt).
          rewrite andb_true_r. destruct (Nat.eqb_spec i' i) as [->|]; auto. apply H2. lia.
        * intros r. split.
          -- intros (p & Hp & Hpp). destruct (Nat.eq_dec p k) as [->|].
             ++ assert (E0 : (i, i) = (r, r)) by congruence. injection E0 as E0. lia.
             ++ assert (r < i)%nat; [|lia]. apply H3. exists p. split; auto. lia.
          -- intros Hr. destruct (Nat.eq_dec r i) as [->|]; [exists k; split; auto; lia|].
             destruct (proj2 (H3 r)) as (p & Hp & Hpp); [lia|]. exists p. split; auto; lia.
      + eexists. split; [reflexivity|]. split; auto. split; auto. cbn [fst snd]. intros r. rewrite <- H3. split.
        * intros (p & Hp & Hpp). exists p. split; auto. destruct (Nat.eq_dec p k) as [->|]; [|lia].
          assert (E0 : (i, j) = (r, r)) by congruence. injection E0 as -> ->. congruence.
        * intros (p & Hp & Hpp). exists p. split; auto; lia.
    - cbn [fst snd] in *. rewrite E. simpl. exists m. repeat split; auto. intros i Hi. apply H2. apply H3.
      assert (Hr : In (i, i) pat) by (apply Hdiag, rows_n; auto).
      apply In_nth_error in Hr as (p & Hp). exists p. split; auto. rewrite Ed. apply nth_error_Some. congruence.
  Qed.

  Variables (b : nat -> R) (m : list R).
  Hypothesis Hm : forall i, (i < n)%nat -> nth i m 0 = 1 / D i i.

  (** weighted squared residual of x *)
  Definition wres (x : nat -> R) : R := Rsum n (fun i => (b i - mv n A x i) * (b i - mv n A x i) / D i i).

  Definition cg_inv (st : cg_state) : Prop :=
    (forall i, (i < n)%nat -> cg_r st i = b i - mv n A (cg_x st) i) /\ cg_delta st = wres (cg_x st).

  Lemma diag_mv r s i : (i < n)%nat -> diag_mat_vec n m r s i = r i / D i i.
  Proof.
    intros H. unfold diag_mat_vec. rewrite (floop_pointwise n (fun i _ => nth i m 0 * r i)).
    replace (i <? n)%nat with true by (symmetry; now apply Nat.ltb_lt). rewrite Hm by auto.
    unfold Rdiv. ring.
  Qed.

  Lemma delta_wres r s x : (forall i, (i < n)%nat -> r i = b i - mv n A x i) ->
    inner n r (diag_mat_vec n m r s) = wres x.
  Proof.
    intros H. rewrite inner_dot. unfold dot, wres. apply Rsum_ext. intros k Hk.
    rewrite diag_mv, H by auto. unfold Rdiv. ring.
  Qed.

  (** what one pass does, component by component *)
  Record stepped (st st' : cg_state) (alpha beta : R) : Prop := {
    st_dq : dot n (cg_d st) (mv n A (cg_d st)) <> 0;
    st_delta : cg_delta st <> 0;
    st_alpha : alpha = cg_delta st / dot n (cg_d st) (mv n A (cg_d st));
    st_beta : beta = cg_delta st' / cg_delta st;
    st_x : forall i, (i < n)%nat -> cg_x st' i = cg_x st i + alpha * cg_d st i;
    st_r : forall i, (i < n)%nat -> cg_r st' i = cg_r st i - alpha * mv n A (cg_d st) i;
    st_d : forall i, (i < n)%nat -> cg_d st' i = cg_r st' i / D i i + beta * cg_d st i;
    st_iter : cg_iter st' = S (cg_iter st) }.

  Lemma cg_step_inv st st' : cg_inv st -> cg_step a n m b st = Some st' ->
    cg_inv st' /\ exists alpha beta, stepped st st' alpha beta.
  Proof.
    intros [H1 H2]. unfold cg_step.
    set (q := mat_vec a (cg_d st) (cg_q st)).
    assert (Hq : inner n (cg_d st) q = dot n (cg_d st) (mv n A (cg_d st))).
    { rewrite inner_dot. apply dot_ext; auto. intros i Hi. unfold q. now apply matvec_mv. }
    rewrite Hq. set (dq := dot n (cg_d st) (mv n A (cg_d st))).
    destruct (Req_EM_T dq 0) as [|Hdq]; [discriminate|].
    set (alpha := cg_delta st / dq).
    set (x := floop 0 n (fun i x => upd x i (x i + alpha * cg_d st i)) (cg_x st)).
    assert (Hx : forall i, (i < n)%nat -> x i = cg_x st i + alpha * cg_d st i).
    { intros i Hi. unfold x. rewrite (floop_pointwise n (fun i v => v + alpha * cg_d st i)).
      now replace (i <? n)%nat with true by (symmetry; now apply Nat.ltb_lt). }
    set (r := if (cg_iter st mod 50 =? 0)%nat then _ else _).
    assert (Hr : forall i, (i < n)%nat -> r i = b i - mv n A x i).
    { intros i Hi. unfold r. destruct (cg_iter st mod 50 =? 0)%nat.
      - rewrite (floop_pointwise n (fun i _ => b i - mat_vec a x q i)).
        replace (i <? n)%nat with true by (symmetry; now apply Nat.ltb_lt). now rewrite matvec_mv.
      - rewrite (floop_pointwise n (fun i v => v - alpha * q i)).
        replace (i <? n)%nat with true by (symmetry; now apply Nat.ltb_lt).
        rewrite H1 by auto. unfold q. rewrite matvec_mv by auto.
        rewrite (mv_ext A x (fun j => cg_x st j + alpha * cg_d st j) i Hx), mv_axpy. ring. }
    clearbody r. destruct (Req_EM_T (cg_delta st) 0) as [|Hd0]; [discriminate|]. intros E. injection E as <-.
    split; [split; simpl; auto; now apply delta_wres|].
    exists alpha, (inner n r (diag_mat_vec n m r (cg_s st)) / cg_delta st). split; simpl; auto.
    - intros i Hi. rewrite Hr, H1 by auto. rewrite (mv_ext A x (fun j => cg_x st j + alpha * cg_d st j) i Hx), mv_axpy. ring.
    - intros i Hi. rewrite (floop_pointwise n (fun i d => diag_mat_vec n m r (cg_s st) i + _ * d)).
      replace (i <? n)%nat with true by (symmetry; now apply Nat.ltb_lt). now rewrite diag_mv.
  Qed.

  Lemma cg_step_some st : dot n (cg_d st) (mv n A (cg_d st)) <> 0 -> cg_delta st <> 0 ->
    exists st', cg_step a n m b st = Some st'.
  Proof.
    intros H1 H2. unfold cg_step. rewrite inner_dot.
    rewrite (@dot_ext n (cg_d st) (mat_vec a (cg_d st) (cg_q st)) (cg_d st) (mv n A (cg_d st)))
      by (auto; intros i Hi; now apply matvec_mv).
    destruct (Req_EM_T _ 0) as [|_]; [contradiction|]. destruct (Req_EM_T (cg_delta st) 0) as [|_]; [contradiction|]. eauto.
  Qed.

  Lemma cg_loop_inv fuel tol st st' : cg_inv st -> cg_loop fuel a n m b tol st = Some st' ->
    cg_inv st' /\ (cg_iter st <= cg_iter st' <= cg_iter st + fuel)%nat /\
    (cg_iter st' <> (cg_iter st + fuel)%nat -> cg_delta st' <= tol).
  Proof.
    revert st; induction fuel as [|fuel IH]; intros st H; simpl.
    - intros E. injection E as <-. split; auto. split; [lia|]. intros Hc. lia.
    - destruct (Rlt_dec tol (cg_delta st)) as [Hlt|Hge].
      + destruct (cg_step a n m b st) as [st1|] eqn:E1; [|discriminate]. intros E.
        destruct (cg_step_inv H E1) as (Hi & alpha & beta & Hs).
        destruct (IH _ Hi E) as (H1 & H2 & H3). rewrite (st_iter Hs) in *.
        split; auto. split; [lia|]. intros Hc. apply H3. lia.
      + intros E. injection E as <-. split; auto. split; [lia|]. intros _. lra.
  Qed.

  Lemma zero_diagonal_ok : zero_diagonal a = false <-> forall i, (i < n)%nat -> D i i <> 0.
  Proof.
    pose proof Hrep as [(En & Ei & Ej & Ed & _) _]. unfold zero_diagonal. split.
    - intros H i Hi H0. assert (Hin : In (i, i) pat) by (apply Hdiag, rows_n; auto). apply In_nth_error in Hin as (k & Hk).
      assert (Ht : true = false); [|discriminate]. rewrite <- H. symmetry. apply existsb_exists. exists k. split.
      { apply in_seq. split; [lia|]. simpl. rewrite Ed. eapply nth_error_Some_lt; eauto. }
      rewrite (data_nth _ Hk), Ei, Ej.
      rewrite (@nth_error_nth_eq _ (map fst pat) k 0%nat i) by (rewrite nth_error_map, Hk; reflexivity).
      rewrite (@nth_error_nth_eq _ (map snd pat) k 0%nat i) by (rewrite nth_error_map, Hk; reflexivity).
      rewrite Nat.eqb_refl. destruct (Req_EM_T (D i i) 0); auto.
    - intros H. match goal with |- ?x = false => destruct x eqn:Ex end; auto. exfalso. apply existsb_exists in Ex as (k & Hk & Hx).
      apply in_seq in Hk. destruct (nth_error pat k) as [[i j]|] eqn:Ep.
      2:{ apply nth_error_None in Ep. lia. }
      rewrite (data_nth _ Ep), Ei, Ej in Hx.
      rewrite (@nth_error_nth_eq _ (map fst pat) k 0%nat i) in Hx by (rewrite nth_error_map, Ep; reflexivity).
      rewrite (@nth_error_nth_eq _ (map snd pat) k 0%nat j) in Hx by (rewrite nth_error_map, Ep; reflexivity).
      destruct (Nat.eqb_spec i j) as [Hij|]; [|discriminate]. subst j. simpl in Hx.
      destruct (Req_EM_T (D i i) 0) as [H0|]; [|discriminate]. apply (H i); auto. apply rows_n. exists i. eapply nth_error_In; eauto.
  Qed.
End CG.

(** weighted squared residual: sum of (b - A x)_i^2 / A_ii *)
Definition weighted_residual (n : nat) (A : nat -> nat -> R) (b x : nat -> R) : R :=
  Rsum n (fun i => (b i - mv n A x i) * (b i - mv n A x i) / A i i).

Lemma cg_solve_ok pat (a : rcrs) D b m0 scratch x cg_tol max_it :
  good_pattern pat -> represents pat a D ->
  (forall i j, In (i, j) pat -> (j < num_rows a)%nat) -> (forall r, is_row pat r -> In (r, r) pat) ->
  length m0 = num_rows a ->
  let n := num_rows a in let A := dense_of pat D in
  exists r, cg_solve a b m0 scratch x cg_tol max_it = Ok r /\
    forall res, r = Some res ->
    (cg_iterations res <= max_it)%nat /\
    (cg_success res = true <-> (cg_iterations res < max_it)%nat) /\
    (forall i, (i < n)%nat -> cg_r (cg_last res) i = b i - mv n A (cg_solution res) i) /\
    (cg_success res = true ->
       weighted_residual n A b (cg_solution res) <= cg_tol * weighted_residual n A b x).
Proof.
  intros Hp Hr Hc Hd Hm0 n A. unfold cg_solve.
  destruct (@populate_ok pat Hp a D Hr Hc Hd m0 Hm0) as (m & Em & Elm & Hm). rewrite Em. simpl obind.
  destruct (zero_diagonal a); [exists None; split; auto; discriminate|].
  fold n. set (q := mat_vec a x scratch). set (r := floop 0 n _ scratch).
  set (delta := inner n r _).
  assert (Hri : forall i, (i < n)%nat -> r i = b i - mv n A x i).
  { intros i Hi. unfold r. rewrite (floop_pointwise n (fun i _ => b i - q i)).
    replace (i <? n)%nat with true by (symmetry; now apply Nat.ltb_lt).
    unfold q. now rewrite (@matvec_mv pat Hp a D Hr Hc). }
  assert (Hw : forall x, wres pat a D b x = weighted_residual n A b x).
  { intros x0. unfold wres, weighted_residual. apply Rsum_ext. intros k Hk.
    unfold A at 3. rewrite (dense_of_in pat D); auto. apply Hd. now apply (@rows_n pat Hp a D Hr). }
  set (st0 := CG x _ r scratch q delta 0).
  assert (Hi0 : cg_inv pat a D b st0).
  { split; simpl; auto. unfold delta. now apply delta_wres. }
  destruct (cg_loop max_it a n m b (cg_tol * delta) st0) as [st|] eqn:El; [|exists None; split; auto; discriminate].
  destruct (@cg_loop_inv pat Hp a D Hr Hc Hd b m Hm max_it (cg_tol * delta) st0 st Hi0 El) as ((H1 & H2) & H3 & H4).
  eexists. split; [reflexivity|]. intros res Er. injection Er as <-. cbn [cg_iterations cg_success cg_last cg_solution].
  change (cg_iter st0) with 0%nat in *. simpl Nat.add in *.
  fold n in H1, H2, H3, H4.
  split; [lia|]. split; [|split].
  - destruct (Nat.eqb_spec (cg_iter st) max_it); simpl; split; intros; try discriminate; try lia; auto.
  - exact H1.
  - intros Hs. rewrite <- !Hw. rewrite <- H2.
    replace (wres pat a D b x) with delta by (unfold delta; now apply delta_wres).
    apply H4. destruct (Nat.eqb_spec (cg_iter st) max_it); simpl in Hs; [discriminate|auto].
Qed.
