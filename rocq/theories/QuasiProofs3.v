(** Lemmas about the quasistatic model: Newton loop, load steps, the whole run. *)
From Coq Require Import Reals Lra.
From Verif Require Import Base ListLemmas Loops LinModel LinSpec CrsProofs CgProofs PatternProofs BcModel BcSpec BcProofs IntegratorModel IntegratorSpec QuasiModel QuasiSpec QuasiProofs QuasiProofs2.
Local Open Scope nat_scope.
Set Implicit Arguments.

(** ** prescribed motion *)
Definition kinematic_kind (b : bc) : Prop := bc_kind b = PRESCRIBED_VELOCITY \/ bc_kind b = PRESCRIBED_DISPLACEMENT.
Lemma effect_idle mg dt t ref n c l x : (forall b, In b l -> kinematic_kind b -> covers mg b n c = false) ->
  fold_left (entry_effect mg dt t ref n c) l x = x.
Proof.
  revert x; induction l as [|b l IH]; intros [d v] H; cbn [fold_left]; auto.
  rewrite IH by (intros b' Hb'; apply H; now right).
  unfold entry_effect. destruct (covers mg b n c) eqn:Ec; auto. specialize (H b (or_introl eq_refl)).
  destruct (bc_kind b) eqn:Ek; auto; rewrite H in Ec; try discriminate; unfold kinematic_kind; rewrite Ek; auto.
Qed.
Lemma motion_of_fold mg ref N tprev t (d0 d1 : view) (v0 v1 : nat -> nat -> R) : mg_scheme mg = QUASISTATIC ->
  (forall n c, (v_at d1 n c, v1 n c) = fold_left (entry_effect mg (t - tprev) t ref n c) (mg_bcs mg) (v_at d0 n c, v0 n c)) ->
  prescribed_motion mg ref N tprev t d0 d1.
Proof.
  intros Hs H n c Hn Hc. specialize (H n c). apply (f_equal fst) in H. simpl fst in H. split; [|split].
  - intros Hh. rewrite H, effect_idle; auto. intros b Hb Hk. destruct (covers mg b n c) eqn:Ec; auto.
    exfalso. apply Hh. exists b. split; auto. split; auto. destruct Hk; auto.
  - intros b (l1 & l2 & El & Ec & Hl) Hk Ht. rewrite H, El, fold_left_app. cbn [fold_left].
    rewrite effect_idle by (intros; now apply Hl). destruct (fold_left _ l1 _) as [d v]. unfold entry_effect.
    rewrite Ec, Hk, Hs. simpl. destruct (Rlt_dec 0 (t - tprev)); [reflexivity|lra].
  - intros b (Ec & l1 & l2 & El & Hl) Hk. rewrite H, El, fold_left_app. cbn [fold_left].
    rewrite (@effect_idle mg _ t ref n c l2) by (intros; apply Hl; auto; apply in_or_app; now right).
    rewrite (@effect_idle mg _ t ref n c l1) by (intros; apply Hl; auto; apply in_or_app; now left).
    unfold entry_effect. rewrite Ec, Hk, Hs. reflexivity.
Qed.
Lemma covers_same mg0 mg b n c : same_mgr mg0 mg -> covers mg b n c = covers mg0 b n c.
Proof. intros (_ & _ & _ & H & _). unfold covers. now rewrite H. Qed.
Lemma effect_same mg0 mg dt t ref n c : same_mgr mg0 mg -> forall x b, entry_effect mg dt t ref n c x b = entry_effect mg0 dt t ref n c x b.
Proof.
  intros Hs [d v] b. unfold entry_effect. rewrite (covers_same b n c Hs), (value_same ref n b t Hs).
  destruct Hs as (_ & _ & -> & _). reflexivity.
Qed.
Lemma fold_left_ext2 {A B} (f g : A -> B -> A) l : (forall a b, f a b = g a b) -> forall a, fold_left f l a = fold_left g l a.
Proof. intros H. induction l as [|b l IH]; intros a; simpl; auto. now rewrite H, IH. Qed.
Lemma same_input mg0 mg N : same_mgr mg0 mg -> bc_input_ok mg0 N -> bc_input_ok mg N.
Proof.
  intros (H1 & H2 & H3 & H4 & H5) [A B C F]. split.
  - now rewrite H2. - now rewrite H1, H2. - intros id n. rewrite H4. apply C. - intros id. rewrite H4. apply F.
Qed.
Lemma same_trans mg0 mg1 mg2 : same_mgr mg0 mg1 -> same_mgr mg1 mg2 -> same_mgr mg0 mg2.
Proof.
  intros (A1 & A2 & A3 & A4 & A5) (B1 & B2 & B3 & B4 & B5). split; [congruence|]. split; [congruence|]. split; [congruence|].
  split; [intros id; now rewrite B4|auto].
Qed.

Lemma view_eta N D v : shaped N D v -> View N D (v_at v) = v.
Proof. intros [<- <-]. destruct v; reflexivity. Qed.

Section Env.
  Context {S : Type} (ph : qphysics S) (cfg : qconfig) (N : nat) (mg0 : manager) (ref : view) (pat : list (nat * nat)).
  Let dim := mg_dim mg0.
  Let gids := qc_gids cfg.
  Hypothesis E : env ph cfg N mg0 ref pat.
  Notation qinv := (@q_inv S N mg0 ref pat).
  Notation qinv0 := (@q_inv0 S N mg0 ref pat).

  Section Step.
  Variables (tprev t : R) (e0 : S) (start : view).

  Definition held_like (d : view) : Prop := forall n c, n < N -> c < dim -> held mg0 n c -> v_at d n c = v_at start n c.
  Record settled (st : qstate S) (m : R) : Prop := {
    se_inv : qinv st;
    se_old : q_old st = e0;
    se_held : held_like (k_disp (q_kin st));
    se_force : exists x y, qp_internal ph e0 x tprev t (k_disp (q_kin st)) = Ok (y, v_at (q_int st));
    se_oob : out_of_balance mg0 gids N (v_at (q_int st)) (q_residual st);
    se_meas : m = measured N (q_residual st);
    se_elem : exists d2 f2 r2 x, qp_internal ph e0 x tprev t d2 = Ok (q_new st, f2) /\ out_of_balance mg0 gids N f2 r2 /\
      held_like d2 /\ (d2 = k_disp (q_kin st) \/ (m < measured N r2)%R) }.

  (** fields that the Newton loop leaves alone *)
  Definition framed (st st' : qstate S) : Prop :=
    q_mgr st' = q_mgr st /\ k_vel (q_kin st') = k_vel (q_kin st) /\ q_time st' = q_time st /\ q_out st' = q_out st.

  Lemma evaluate_current_ok st : qinv st -> q_old st = e0 -> held_like (k_disp (q_kin st)) ->
    exists st' m, evaluate_current ph cfg st tprev t = Ok (st', m) /\ settled st' m /\ framed st st' /\
      q_trial st' = q_trial st /\ q_trial_int st' = q_trial_int st /\ q_trial_residual st' = q_trial_residual st /\
      q_kin st' = q_kin st /\ q_matrix st' = q_matrix st /\
      qp_internal ph e0 (q_new st) tprev t (k_disp (q_kin st)) = Ok (q_new st', v_at (q_int st')).
  Proof.
    intros Hi Ho Hh. unfold evaluate_current.
    destruct (@evaluate_ok _ ph cfg N mg0 ref pat E st tprev t (k_disp (q_kin st)) (q_int st) (q_residual st) Hi
      (qi_disp (qi_inv0 Hi)) (qi_int (qi_inv0 Hi)) (qi_res (qi_inv0 Hi))) as (e & Ee & H1 & H2 & H3 & H4).
    rewrite Ee. cbn [obind]. do 2 eexists. split; [reflexivity|]. rewrite Ho in H1. split.
    - split; cbn; auto.
      + destruct Hi as [Hi Hk]. destruct Hi. split; [|exact Hk]. constructor; cbn; auto. apply H3.
      + eauto.
      + exists (k_disp (q_kin st)), (v_at (ev_force e)), (ev_vector e), (q_new st). split; [exact H1|]. auto.
    - repeat split; auto.
  Qed.

  (** the trial displacement for the linear solver's answer s *)
  Definition trial_of (st : qstate S) (s : list R) (tr : view) : Prop :=
    shaped N dim tr /\
    forall n g c, nth_error gids n = Some g -> c < dim ->
      v_at tr n c = (v_at (k_disp (q_kin st)) n c - nth (g * dim + c) s 0)%R.

  (** how one pass of the loop ends *)
  Definition pass (st : qstate S) (r : attempt (qstate S * R)) : Prop :=
    exists l diag D sol,
      qp_tangent ph (k_disp (q_kin st)) = Ok l /\ system_matrix cfg N mg0 l diag D /\
      (forall i j, ~ In (i, j) pat -> i < N * dim -> j < N * dim -> D i j = dense_of pat D i j) /\
      (diag * INR (N * dim) = Rsum (N * dim) (fun i => Rabs (contributed l i i)))%R /\
      (symmetric (N * dim) (dense_of pat D) -> positive_definite (N * dim) (dense_of pat D) -> N * dim < cg_default_max ->
         exists s, sol = Done s) /\
      match sol with
      | Failed => r = Failed
      | Degenerate => r = Degenerate
      | Done s =>
          let b := fun i => nth i (q_residual st) 0%R in
          length s = N * dim /\ (forall k, constrained mg0 gids k -> nth k s 0%R = 0%R) /\
          (weighted_residual (N * dim) (dense_of pat D) b (fun i => nth i s 0)
             <= cg_default_tol * weighted_residual (N * dim) (dense_of pat D) b (fun _ => 0))%R /\
          exists tr ft rt x y, trial_of st s tr /\ qp_internal ph e0 x tprev t tr = Ok (y, ft) /\ out_of_balance mg0 gids N ft rt /\
            let num := (list_inner s rt - list_inner s (q_residual st))%R in
            (num = 0%R /\ r = Degenerate \/
             num <> 0%R /\ exists st' m', r = Done (st', m') /\ settled st' m' /\ framed st st' /\ (m' <= measured N rt)%R)
      end.

  Lemma newton_step_full st m : settled st m -> exists r, newton_step ph cfg tprev t st = Ok r /\ pass st r.
  Proof.
    intros [Hi Ho Hh Hf Hb Hm He]. unfold newton_step.
    destruct (@assemble_tangent_ok _ ph cfg N mg0 ref pat E st (v_at (q_int st)) Hi Hb)
      as (s1 & l & diag & D & E1 & El & Hi1 & (F1 & F2 & F3 & F4 & F5 & F6 & F7) & Er1 & HD & Hsm & Hdiag).
    rewrite E1. cbn [obind]. rewrite <- Er1 in Hb.
    destruct (@linear_solve_ok _ ph cfg N mg0 ref pat E s1 l diag D _ Hi1 HD Hsm Hb) as (sol & E2 & Hsol & Hspd).
    rewrite E2. cbn [obind].
    assert (Hnone : forall i j, ~ In (i, j) pat -> i < N * dim -> j < N * dim -> D i j = dense_of pat D i j).
    { intros i j Hn Hii Hjj. unfold dense_of. destruct (in_dec nn_dec (i, j) pat) as [|_]; [contradiction|].
      destruct (Hsm i j Hii Hjj) as [A B].
      assert (Hne : i <> j).
      { intros ->. apply Hn. apply (e_diag E). now apply (e_rows E). }
      destruct (@constrained_dec _ ph cfg N mg0 ref pat E i) as [C1|C1]; [rewrite A by auto; now apply Nat.eqb_neq in Hne; rewrite Hne|].
      destruct (@constrained_dec _ ph cfg N mg0 ref pat E j) as [C2|C2]; [rewrite A by auto; now apply Nat.eqb_neq in Hne; rewrite Hne|].
      rewrite B by auto. destruct (po_tangent (e_ph E) (qi_disp (qi_inv0 Hi))) as (l' & El' & Hl').
      assert (l' = l) by congruence. subst l'. clear - Hl' Hn E. induction l as [|[[r c] v] l IH]; [reflexivity|].
      simpl. pose proof (Forall_inv Hl') as Hx. simpl in Hx.
      destruct (Nat.eqb_spec r i) as [->|]; [|apply IH; now apply Forall_inv_tail in Hl'].
      destruct (Nat.eqb_spec c j) as [->|]; [|apply IH; now apply Forall_inv_tail in Hl'].
      exfalso. apply Hn. now apply (e_in E). }
    enough (HH : exists r, match sol with
        | Done s => do s2 <- set_trial cfg s1 s; do e3 <- evaluate_trial ph cfg s2 tprev t;
            match secant (fst e3) s with
            | Some alpha => do s4 <- move cfg (fst e3) alpha s; do e5 <- evaluate_current ph cfg s4 tprev t;
                if Rlt_dec (snd e3) (snd e5) then Ok (Done (take_trial (fst e5), snd e3)) else Ok (Done e5)
            | None => Ok Degenerate end
        | Failed => Ok Failed | Degenerate => Ok Degenerate end = Ok r /\
      match sol with
      | Failed => r = Failed
      | Degenerate => r = Degenerate
      | Done s =>
          exists tr ft rt x y, trial_of st s tr /\ qp_internal ph e0 x tprev t tr = Ok (y, ft) /\ out_of_balance mg0 gids N ft rt /\
            let num := (list_inner s rt - list_inner s (q_residual st))%R in
            (num = 0%R /\ r = Degenerate \/
             num <> 0%R /\ exists st' m', r = Done (st', m') /\ settled st' m' /\ framed st st' /\ (m' <= measured N rt)%R)
      end).
    { destruct HH as (r & Hr1 & Hr2). exists r. split; [exact Hr1|]. exists l, diag, D, sol. split; [exact El|].
      split; [exact Hsm|]. split; [exact Hnone|]. split; [exact Hdiag|]. split; [exact Hspd|].
      destruct sol as [s| |]; auto. destruct (Hsol s eq_refl) as (Hls & Hz & Hres). rewrite Er1 in Hres. cbv zeta. auto. }
    destruct sol as [s| |]; [|exists Failed; auto|exists Degenerate; auto].
    destruct (Hsol s eq_refl) as (Hls & Hz & _).
    assert (Ed : mg_dim (q_mgr s1) = dim) by apply (qi_same (qi_inv0 Hi1)).
    (* the trial displacement *)
    unfold set_trial.
    destruct (@over_ok _ cfg s1 N (e_len E) (e_nodup E) (e_range E) (fun i node dof v =>
      do d <- view_get (k_disp (q_kin s1)) node dof; do x <- vget s i; view_set v node dof (d - x)%R)
      (fun i n c _ => (v_at (k_disp (q_kin s1)) n c - nth i s 0)%R) (q_trial s1)) as (tr & E3 & Hs3 & H3).
    { rewrite Ed. apply (qi_trial (qi_inv0 Hi1)). }
    { intros i n c v' Hv' Hn Hc Hlt. rewrite Ed in *. rewrite (view_get_ok (qi_disp (qi_inv0 Hi1))) by auto. cbn [obind].
      unfold vget. rewrite (@nth_error_nth' _ s i 0%R) by lia. cbn [obind]. now apply view_set_ok. }
    rewrite E3. cbn [obind]. rewrite Ed in Hs3, H3.
    set (s2 := QState _ _ _ _ _ _ _ _ _ _ _ _ _).
    assert (Hi2 : qinv s2).
    { destruct Hi1 as [Hi1 Hk1]. destruct Hi1. split; [|exact Hk1]. constructor; cbn; auto. }
    assert (Hheld2 : held_like tr).
    { intros n c Hn Hc Hx. rewrite <- (e_len E) in Hn. destruct (nth_error gids n) as [g|] eqn:Eg.
      2:{ apply nth_error_None in Eg. unfold gids in Eg. lia. }
      rewrite (H3 n g c Eg Hc). rewrite Hz by (now apply (@held_constrained _ ph cfg N mg0 ref pat E n g c Eg Hc)).
      rewrite F2, <- Hh by (auto; rewrite <- (e_len E); auto). ring. }
    unfold evaluate_trial.
    destruct (@evaluate_ok _ ph cfg N mg0 ref pat E s2 tprev t (q_trial s2) (q_trial_int s2) (q_trial_residual s2) Hi2
      (qi_trial (qi_inv0 Hi2)) (qi_trial_int (qi_inv0 Hi2)) (qi_tres (qi_inv0 Hi2))) as (et & Eet & T1 & T2 & T3 & T4).
    rewrite Eet. cbn [obind fst snd]. set (s3 := QState _ _ _ _ _ _ _ _ _ _ _ _ _).
    assert (Hi3 : qinv s3).
    { destruct Hi2 as [Hi2 Hk2]. destruct Hi2. split; [|exact Hk2]. constructor; cbn; auto. apply T3. }
    assert (Htrial : trial_of st s tr).
    { split; [exact Hs3|]. intros n g c Hn Hc. rewrite (H3 n g c Hn Hc), F2. reflexivity. }
    assert (Htint : qp_internal ph e0 (q_new s2) tprev t tr = Ok (ev_elem et, v_at (ev_force et))).
    { change (q_old s2) with (q_old s1) in T1. rewrite F4, Ho in T1. exact T1. }
    assert (Hnum : list_inner s (q_trial_residual s3) = list_inner s (ev_vector et) /\ list_inner s (q_residual s3) = list_inner s (q_residual st)).
    { split; [reflexivity|]. now rewrite <- Er1. }
    destruct Hnum as [Hn1 Hn2]. unfold secant. rewrite Hn1, Hn2.
    destruct (Req_EM_T (list_inner s (ev_vector et) - list_inner s (q_residual st)) 0) as [Hzero|Hnz].
    { exists Degenerate. split; [reflexivity|]. exists tr, (v_at (ev_force et)), (ev_vector et), (q_new s2), (ev_elem et).
      split; [exact Htrial|]. split; [exact Htint|]. split; [exact T3|]. left. auto. }
    (* the secant displacement *)
    match goal with |- context [move cfg s3 ?x s] => set (alpha := x) end. unfold move.
    destruct (@over_ok _ cfg s3 N (e_len E) (e_nodup E) (e_range E) (fun i node dof v =>
      do d <- view_get v node dof; do x <- vget s i; view_set v node dof (d - alpha * x)%R)
      (fun i n c v => (v - alpha * nth i s 0)%R) (k_disp (q_kin s3))) as (d4 & E4 & Hs4 & H4).
    { change (q_mgr s3) with (q_mgr s1). rewrite Ed. apply (qi_disp (qi_inv0 Hi3)). }
    { intros i n c v' Hv' Hn Hc Hlt. change (q_mgr s3) with (q_mgr s1) in *. rewrite Ed in *.
      rewrite (view_get_ok Hv') by auto. cbn [obind].
      unfold vget. rewrite (@nth_error_nth' _ s i 0%R) by lia. cbn [obind]. now apply view_set_ok. }
    rewrite E4. cbn [obind]. change (q_mgr s3) with (q_mgr s1) in Hs4, H4. rewrite Ed in Hs4, H4.
    set (s4 := QState _ _ _ _ _ _ _ _ _ _ _ _ _).
    assert (Hi4 : qinv s4).
    { destruct Hi3 as [Hi3 Hk3]. destruct Hi3. split; [|exact Hk3]. constructor; cbn; auto. }
    assert (Hheld4 : held_like (k_disp (q_kin s4))).
    { intros n c Hn Hc Hx. change (k_disp (q_kin s4)) with d4. rewrite <- (e_len E) in Hn. destruct (nth_error gids n) as [g|] eqn:Eg.
      2:{ apply nth_error_None in Eg. unfold gids in Eg. lia. }
      rewrite (H4 n g c Eg Hc). rewrite Hz by (now apply (@held_constrained _ ph cfg N mg0 ref pat E n g c Eg Hc)).
      change (q_kin s3) with (q_kin s1). rewrite F2, <- Hh by (auto; rewrite <- (e_len E); auto). ring. }
    assert (Ho4 : q_old s4 = e0) by (change (q_old s4) with (q_old s1); rewrite F4; auto).
    destruct (evaluate_current_ok Hi4 Ho4 Hheld4) as (s5 & m5 & E5 & Hset5 & Hfr5 & G1 & G2 & G3 & G4 & G5 & G6).
    rewrite E5. cbn [obind fst snd].
    assert (Hfr : framed st s5).
    { destruct Hfr5 as (P1 & P2 & P3 & P4). split; [rewrite P1; exact F1|]. split; [rewrite P2; cbn; now rewrite F2|].
      split; [rewrite P3; exact F6|rewrite P4; exact F7]. }
    enough (HH : exists st' m', (if Rlt_dec (ev_measure et) m5 then Ok (Done (take_trial s5, ev_measure et)) else Ok (Done (s5, m5))) =
        Ok (Done (st', m')) /\ settled st' m' /\ framed st st' /\ (m' <= measured N (ev_vector et))%R).
    { destruct HH as (st' & m' & E6 & H6 & H7 & H8). exists (Done (st', m')). split; [exact E6|].
      exists tr, (v_at (ev_force et)), (ev_vector et), (q_new s2), (ev_elem et).
      split; [exact Htrial|]. split; [exact Htint|]. split; [exact T3|]. right. split; auto. exists st', m'. auto. }
    destruct (Rlt_dec (ev_measure et) m5) as [Hlt|Hge].
    2:{ exists s5, m5. split; [reflexivity|]. split; auto. split; auto. rewrite <- T4. lra. }
    do 2 eexists. split; [reflexivity|]. destruct Hset5 as [I5 O5 B5 C5 D5 M5 X5].
    assert (Htr : View (v_nodes (k_disp (q_kin s5))) (v_cols (k_disp (q_kin s5))) (v_at (q_trial s5)) = tr).
    { rewrite G1. change (q_trial s4) with tr. destruct (qi_disp (qi_inv0 I5)) as [-> ->].
      apply view_eta. exact Hs3. }
    split; [|split; [|rewrite T4; lra]].
    - constructor.
      + destruct I5 as [I5 K5]. destruct I5. split; [|exact K5]. constructor; cbn; auto.
      + exact O5.
      + cbn. rewrite Htr. exact Hheld2.
      + cbn. rewrite Htr. exists (q_new s2), (ev_elem et). rewrite G2. change (q_trial_int s4) with (ev_force et). exact Htint.
      + cbn. rewrite G2, G3. change (q_trial_int s4) with (ev_force et). change (q_trial_residual s4) with (ev_vector et). exact T3.
      + cbn. rewrite G3. change (q_trial_residual s4) with (ev_vector et). exact T4.
      + exists (k_disp (q_kin s4)), (v_at (q_int s5)), (q_residual s5), (q_new s4). split; [exact G6|]. split; [exact D5|].
        split; [exact Hheld4|]. right. rewrite <- M5. exact Hlt.
    - destruct Hfr as (P1 & P2 & P3 & P4). repeat split; auto.
  Qed.

  Lemma newton_step_ok st m : settled st m ->
    exists r, newton_step ph cfg tprev t st = Ok r /\ forall st' m', r = Done (st', m') -> settled st' m' /\ framed st st'.
  Proof.
    intros Hs. destruct (newton_step_full Hs) as (r & E1 & (l & diag & D & sol & _ & _ & _ & _ & _ & H)). exists r. split; auto.
    intros st' m' ->. destruct sol as [s| |]; try discriminate.
    destruct H as (_ & _ & _ & tr & ft & rt & x & y & _ & _ & _ & [[_ H]|(_ & st2 & m2 & H & H2)]); [discriminate|].
    injection H as <- <-. tauto.
  Qed.

  Lemma newton_loop_ok tol : forall fuel it st m, settled st m ->
    exists r, newton_loop ph cfg fuel it tol tprev t st m = Ok r /\
      forall st' m' it', r = Done (st', m', it') ->
        settled st' m' /\ framed st st' /\ it <= it' <= it + fuel /\ (it' < it + fuel -> (m' <= tol)%R).
  Proof.
    induction fuel as [|fuel IH]; intros it st m Hs; simpl.
    - eexists. split; [reflexivity|]. intros st' m' it' H. injection H as <- <- <-.
      split; auto. split; [repeat split|]. split; [lia|]. intros; lia.
    - destruct (Rlt_dec tol m) as [Hlt|Hge].
      + destruct (newton_step_ok Hs) as (r1 & E1 & H1); rewrite E1; cbn [obind].
        destruct r1 as [[st1 m1]| |]; [|exists Failed; split; [auto|discriminate]|exists Degenerate; split; [auto|discriminate]].
        destruct (H1 st1 m1 eq_refl) as [H1' F1]. destruct (IH (Datatypes.S it) st1 m1 H1') as (r & E2 & H2). exists r. split; [exact E2|].
        intros st2 m2 it2 Hr. destruct (H2 st2 m2 it2 Hr) as (A & B & C & F). split; auto. split; [|split; [lia|]].
        * destruct F1 as (P1 & P2 & P3 & P4), B as (Q1 & Q2 & Q3 & Q4). repeat split; congruence.
        * intros H. apply F. lia.
      + eexists. split; [reflexivity|]. intros st' m' it' H. injection H as <- <- <-.
        split; auto. split; [repeat split|]. split; [lia|]. intros _. lra.
  Qed.
  End Step.
End Env.
