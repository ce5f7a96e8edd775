(** Lemmas about the quasistatic model: load steps and the whole run. *)
From Coq Require Import Reals Lra.
From Verif Require Import Base ListLemmas Loops LinModel LinSpec CrsProofs CgProofs PatternProofs BcModel BcSpec BcProofs IntegratorModel IntegratorSpec QuasiModel QuasiSpec QuasiProofs QuasiProofs2 QuasiProofs3.
Local Open Scope nat_scope.
Set Implicit Arguments.

Lemma wanted_output cfg k : k < q_steps cfg -> q_is_output cfg k = q_wanted cfg k.
Proof.
  intros Hk. unfold q_is_output, q_wanted, q_steps in *. destruct (Z.eqb_spec (qc_frequency cfg) 0) as [|Hf]; auto. simpl.
  f_equal.
  - destruct (Z.eqb_spec (Z.rem (Z.of_nat k) (qc_frequency cfg)) 0) as [H|H], (Z.eqb_spec (Z.of_nat k mod qc_frequency cfg) 0) as [H'|H']; auto; exfalso.
    + apply H'. apply Z.mod_divide; auto. apply Z.rem_divide; auto.
    + apply H. apply Z.rem_divide; auto. apply Z.mod_divide; auto.
  - destruct (Z.eqb_spec (Z.of_nat k) (qc_load_steps cfg - 1)), (Nat.eqb_spec (k + 1) (Z.to_nat (qc_load_steps cfg))); auto; lia.
Qed.

Section Env.
  Context {S : Type} (ph : qphysics S) (cfg : qconfig) (N : nat) (mg0 : manager) (ref : view) (pat : list (nat * nat)).
  Let dim := mg_dim mg0.
  Let gids := qc_gids cfg.
  Hypothesis E : env ph cfg N mg0 ref pat.
  Hypothesis Hscheme : mg_scheme mg0 = QUASISTATIC.
  Hypothesis Hmax : (0 <= qc_max_iter cfg)%Z.
  Notation qinv := (@q_inv S N mg0 ref pat).
  Notation qinv0 := (@q_inv0 S N mg0 ref pat).

  Lemma kinematic_ok st t t0 : qinv0 st ->
    exists s1, q_kinematic t t0 st = Ok s1 /\ qinv s1 /\ prescribed_motion mg0 ref N t0 t (k_disp (q_kin st)) (k_disp (q_kin s1)) /\
      q_int s1 = q_int st /\ q_old s1 = q_old st /\ q_new s1 = q_new st /\ q_time s1 = q_time st /\ q_out s1 = q_out st /\
      (forall n c, (v_at (k_disp (q_kin s1)) n c, v_at (k_vel (q_kin s1)) n c) =
         fold_left (entry_effect mg0 (t - t0) t ref n c) (mg_bcs mg0) (v_at (k_disp (q_kin st)) n c, v_at (k_vel (q_kin st)) n c)).
  Proof.
    intros Hi. pose proof (qi_same Hi) as Hs. assert (Ed : mg_dim (q_mgr st) = dim) by apply Hs. unfold q_kinematic.
    rewrite (qi_ref Hi).
    destruct (@apply_kinematic_ok (q_mgr st) N ref (t - t0)%R t (same_input Hs (e_bc E))) with (s := q_kin st) (t0 := t0)
      as (mg' & s' & E1 & H1 & H2 & H3); auto.
    { rewrite Ed. apply (e_ref E). }
    { rewrite Ed. split; [apply (qi_disp Hi)|]. split; [apply (qi_vel Hi)|apply (qi_off Hi)]. }
    rewrite E1. cbn [obind fst snd]. eexists. split; [reflexivity|]. rewrite Ed in H3.
    destruct (krel_kshaped H3) as (K1 & K2 & K3).
    assert (Hfold : forall n c, (v_at (k_disp s') n c, v_at (k_vel s') n c) =
         fold_left (entry_effect mg0 (t - t0) t ref n c) (mg_bcs mg0) (v_at (k_disp (q_kin st)) n c, v_at (k_vel (q_kin st)) n c)).
    { intros n c. destruct H3 as (_ & _ & H3 & _). rewrite H3. destruct Hs as (Hb & Hrest). rewrite Hb.
      apply fold_left_ext2. intros a b. apply effect_same. split; auto. }
    split; [|split; [|repeat split; auto]].
    - split.
      + destruct Hi. constructor; cbn; auto. eapply same_trans; eauto.
      + intros b Hb. apply H2. destruct Hs as (-> & _). exact Hb.
    - cbn. eapply motion_of_fold; eauto.
  Qed.

  Definition step_end (st : qstate S) (k : nat) (st' : qstate S) : Prop :=
    qinv0 st' /\ q_time st' = (q_time st + q_step_length cfg)%R /\
    solved_step ph mg0 ref gids N (qc_rel_tol cfg) (q_time st) (q_time st')
      (k_disp (q_kin st)) (q_old st) (k_disp (q_kin st')) (v_at (q_int st')) (q_old st') /\
    q_out st' = q_out st ++
      (if q_is_output cfg k then [QWritten (q_time st') (k_disp (q_kin st')) (k_vel (q_kin st')) (q_int st') (q_old st')] else []).

  Lemma load_step_ok st k : qinv0 st ->
    exists r, load_step ph cfg k st = Ok r /\ forall st', r = Done st' -> step_end st k st'.
  Proof.
    intros Hi. unfold load_step. set (t := (q_time st + q_user_step cfg)%R).
    assert (Hi' : qinv0 (q_set_time t st)) by (destruct Hi; constructor; auto).
    destruct (kinematic_ok t (q_time st) Hi') as (s1 & E1 & Hi1 & Hp & _ & Ho1 & _ & Ht1 & Hq1 & _). rewrite E1. cbn [obind].
    change (k_disp (q_kin (q_set_time t st))) with (k_disp (q_kin st)) in Hp.
    destruct (@evaluate_current_ok _ ph cfg N mg0 ref pat E (q_time st) t (q_old st) (k_disp (q_kin s1)) s1 Hi1 Ho1)
      as (s2 & m0 & E2 & Hset & Hfr & _ & _ & _ & Ek & _ & Hint0).
    { intros n c _ _ _. reflexivity. }
    rewrite E2. cbn [obind fst snd].
    pose proof (se_meas Hset) as Hm0. pose proof (se_oob Hset) as Hoob0.
    destruct (@newton_loop_ok _ ph cfg N mg0 ref pat E (q_time st) t (q_old st) (k_disp (q_kin s1)) (qc_rel_tol cfg * m0)
      (Z.to_nat (qc_max_iter cfg)) 0 s2 m0 Hset) as (r & E3 & Hr). rewrite E3. cbn [obind].
    destruct r as [[[s3 m] it]| |]; [|exists Failed; split; [auto|discriminate]|exists Degenerate; split; [auto|discriminate]].
    destruct (Hr s3 m it eq_refl) as (Hs3 & Hfr3 & Hit & Hconv).
    destruct (Z.eqb_spec (Z.of_nat it) (qc_max_iter cfg)) as [|Hne]; [exists Failed; split; [auto|discriminate]|].
    eexists. split; [reflexivity|]. intros st' Hst'. injection Hst' as <-.
    assert (Hle : (m <= qc_rel_tol cfg * m0)%R) by (apply Hconv; lia).
    destruct Hs3 as [Hi3 Ho3 Hh3 Hf3 Hb3 Hm3 He3]. destruct Hfr as (_ & _ & Ht2 & Hq2). destruct Hfr3 as (_ & _ & Ht3 & Hq3).
    assert (Htime : q_time s3 = t) by (rewrite Ht3, Ht2, Ht1; reflexivity).
    assert (Hout : q_out s3 = q_out st) by (rewrite Hq3, Hq2, Hq1; reflexivity).
    assert (Hsol : solved_step ph mg0 ref gids N (qc_rel_tol cfg) (q_time st) t
      (k_disp (q_kin st)) (q_old st) (k_disp (q_kin s3)) (v_at (q_int s3)) (q_new s3)).
    { exists (k_disp (q_kin s1)), (v_at (q_int s2)), (q_residual s2), (q_residual s3). split; [exact Hp|]. split; [exact Hh3|].
      split; [eauto|]. split; [exact Hoob0|]. split; [exact Hf3|]. split; [exact Hb3|]. split; [rewrite <- Hm0, <- Hm3; exact Hle|].
      destruct He3 as (d2 & f2 & r2 & x & A1 & A2 & A3 & A4). exists d2, f2, r2, x. split; auto. split; auto. split; auto.
      rewrite <- Hm3. exact A4. }
    destruct (q_is_output cfg k) eqn:Eo; unfold step_end; rewrite Eo.
    - cbn. rewrite Htime. split; [|split; [reflexivity|split; [exact Hsol|now rewrite Hout]]].
      destruct (qi_inv0 Hi3). constructor; cbn; auto.
    - cbn. rewrite Htime. split; [|split; [reflexivity|split; [exact Hsol|now rewrite Hout, app_nil_r]]].
      destruct (qi_inv0 Hi3). constructor; cbn; auto.
  Qed.

  (** what a run over the steps a .. a+n-1 has produced *)
  Definition history (a n : nat) (st st' : qstate S) : Prop :=
    exists (d : nat -> view) (e : nat -> S) (f v : nat -> view),
      d a = k_disp (q_kin st) /\ e a = q_old st /\ d (a + n) = k_disp (q_kin st') /\ e (a + n) = q_old st' /\
      (forall k, a <= k < a + n ->
         solved_step ph mg0 ref gids N (qc_rel_tol cfg) (q_time_after cfg k) (q_time_after cfg (k + 1)) (d k) (e k) (d (k + 1)) (v_at (f (k + 1))) (e (k + 1))) /\
      q_out st' = q_out st ++ map (fun k => QWritten (q_time_after cfg (k + 1)) (d (k + 1)) (v (k + 1)) (f (k + 1)) (e (k + 1)))
        (filter (q_is_output cfg) (seq a n)).

  Lemma load_steps_ok : forall n a st, qinv0 st -> q_time st = q_time_after cfg a ->
    exists r, load_steps ph cfg (seq a n) st = Ok r /\ forall st', r = Done st' -> history a n st st'.
  Proof.
    induction n as [|n IH]; intros a st Hi Ht; simpl.
    - eexists. split; [reflexivity|]. intros st' Hst'. injection Hst' as <-. exists (fun _ => k_disp (q_kin st)), (fun _ => q_old st), (fun _ => q_int st), (fun _ => q_int st).
      repeat split; auto; [intros; lia|now rewrite app_nil_r].
    - destruct (load_step_ok a Hi) as (r & E1 & H1). rewrite E1. cbn [obind]. destruct r as [s1| |]; [|exists Failed; split; [auto|discriminate]|exists Degenerate; split; [auto|discriminate]].
      destruct (H1 s1 eq_refl) as (Hi1 & Ht1 & Hsol & Hout).
      assert (Htime : q_time s1 = q_time_after cfg (Datatypes.S a)).
      { rewrite Ht1, Ht. unfold q_time_after. rewrite S_INR. ring. }
      destruct (IH (Datatypes.S a) s1 Hi1 Htime) as (r & E2 & H2). exists r. split; [exact E2|]. intros s2 Hs2.
      destruct (H2 s2 Hs2) as (d & e & f & v & D0 & E0 & D1 & E1' & Hk & Ho).
      exists (fun k => if k =? a then k_disp (q_kin st) else d k), (fun k => if k =? a then q_old st else e k),
        (fun k => if k =? Datatypes.S a then q_int s1 else f k), (fun k => if k =? Datatypes.S a then k_vel (q_kin s1) else v k).
      assert (Hna : forall k, a < k -> (k =? a) = false) by (intros k H; apply Nat.eqb_neq; lia).
      rewrite !Nat.eqb_refl. split; [reflexivity|]. split; [reflexivity|].
      rewrite !(Hna (a + Datatypes.S n)) by lia. replace (a + Datatypes.S n) with (Datatypes.S a + n) by lia.
      split; [exact D1|]. split; [exact E1'|]. split.
      + intros k Hkk. rewrite !(Hna (k + 1)) by lia. destruct (Nat.eqb_spec k a) as [->|Hne].
        * replace (a + 1) with (Datatypes.S a) by lia. rewrite Nat.eqb_refl. rewrite D0, E0, <- Htime, <- Ht. exact Hsol.
        * replace (k + 1 =? Datatypes.S a) with false by (symmetry; apply Nat.eqb_neq; lia). apply Hk. lia.
      + rewrite Ho, Hout, <- app_assoc. f_equal.
        assert (Hmap : map (fun k => QWritten (q_time_after cfg (k + 1)) (d (k + 1)) (v (k + 1)) (f (k + 1)) (e (k + 1)))
           (filter (q_is_output cfg) (seq (Datatypes.S a) n)) =
          map (fun k => QWritten (q_time_after cfg (k + 1)) (if k + 1 =? a then k_disp (q_kin st) else d (k + 1))
              (if k + 1 =? Datatypes.S a then k_vel (q_kin s1) else v (k + 1))
              (if k + 1 =? Datatypes.S a then q_int s1 else f (k + 1)) (if k + 1 =? a then q_old st else e (k + 1)))
           (filter (q_is_output cfg) (seq (Datatypes.S a) n))).
        { apply map_ext_in. intros k Hin. apply filter_In in Hin as [Hin _]. apply in_seq in Hin. rewrite (Hna (k + 1)) by lia.
          replace (k + 1 =? Datatypes.S a) with false by (symmetry; apply Nat.eqb_neq; lia). reflexivity. }
        rewrite Hmap. cbn [seq filter]. destruct (q_is_output cfg a); [|reflexivity]. cbn [app map].
        replace (a + 1) with (Datatypes.S a) by lia. rewrite (Hna (Datatypes.S a)) by lia. rewrite Nat.eqb_refl, D0, E0, <- Htime. reflexivity.
  Qed.
End Env.

Lemma zero_motion mg ref n c t d v : mg_scheme mg = QUASISTATIC ->
  fst (fold_left (entry_effect mg 0 t ref n c) (mg_bcs mg) (d, v)) = d.
Proof.
  intros Hs. generalize (mg_bcs mg). intros l. revert d v. induction l as [|b l IH]; intros d v; cbn [fold_left]; auto.
  unfold entry_effect at 2. destruct (covers mg b n c); auto. rewrite Hs. simpl.
  destruct (bc_kind b); auto.
  - rewrite IH. ring.
  - destruct (Rlt_dec 0 0) as [H|]; auto. lra.
Qed.

Lemma start_ok {S} N (ph : qphysics S) cfg (st : qstate S) : q_ok N cfg st -> physics_ok N (mg_dim (q_mgr st)) cfg ph ->
  exists pat (s : qstate S), q_start cfg st = Ok s /\ env ph cfg N (q_mgr st) (q_ref st) pat /\ q_inv0 N (q_mgr st) (q_ref st) pat s /\
    q_time s = qc_initial cfg /\ q_old s = q_old st /\
    (forall n c, v_at (k_disp (q_kin s)) n c = v_at (k_disp (q_kin st)) n c) /\
    shaped N (mg_dim (q_mgr st)) (k_disp (q_kin s)) /\
    q_out s = [QWritten (qc_initial cfg) (k_disp (q_kin s)) (k_vel (q_kin s)) (q_int st) (q_new st)].
Proof.
  intros Q P. set (dim := mg_dim (q_mgr st)). set (gids := qc_gids cfg).
  assert (Hdim : 0 < dim) by (destruct (bi_dim (qo_bc Q)) as [H|H]; unfold dim; rewrite H; lia).
  assert (Hl : length gids = N) by apply (qo_len Q).
  assert (He : Forall (Forall (fun a => a < length gids)) (qc_elems cfg)) by (rewrite Hl; apply (qo_elems Q)).
  assert (Hg : Forall (fun l => l < length gids) gids) by (rewrite Hl; apply (qo_range Q)).
  destruct (@tangent_structure_good dim gids (qc_elems cfg) He Hg Hdim) as (pat & Ep & Hgood & Hrows).
  { intros H0. pose proof (qo_pos Q). rewrite <- Hl, H0 in H. simpl in H. lia. }
  { intros l Hlt. rewrite Hl in Hlt. destruct (@pigeon gids N Hl (qo_nodup Q) (qo_range Q) l Hlt) as [n Hn].
    destruct (qo_used Q (n := n)) as (e & H1 & H2); [rewrite <- Hl; eapply nth_error_Some_lt; eauto|]. eauto. }
  rewrite Hl in Hrows.
  destruct (tangent_structure_ok dim He Hg) as (pat' & Ep' & _ & Hin).
  assert (Epat : pat' = pat).
  { rewrite Ep in Ep'. injection Ep' as A B. clear - A B. revert pat' A B. induction pat as [|[x y] p IH]; intros [|[x' y'] p'] A B; try discriminate; auto.
    simpl in A, B. injection A as -> A. injection B as -> B. f_equal. auto. }
  subst pat'.
  assert (Hown : forall r, r < N * dim -> exists n e, In e (qc_elems cfg) /\ In n e /\ owns dim gids n r).
  { intros r Hr. destruct (@pigeon gids N Hl (qo_nodup Q) (qo_range Q) (r / dim)) as [n Hn].
    { apply Nat.div_lt_upper_bound; lia. }
    destruct (qo_used Q (n := n)) as (e & H1 & H2); [rewrite <- Hl; eapply nth_error_Some_lt; eauto|].
    exists n, e. split; auto. split; auto. exists (r / dim), (r mod dim). split; auto. split; [apply Nat.mod_upper_bound; lia|].
    rewrite Nat.mul_comm. apply Nat.div_mod. lia. }
  destruct (@allocate_represents R 0%R pat Hgood) as (a & Ea & Hrep).
  assert (HE : env ph cfg N (q_mgr st) (q_ref st) pat).
  { constructor; try apply Q; auto.
    - intros r Hr. apply Hin. apply Hrows in Hr. destruct (Hown r Hr) as (n & e & H1 & H2 & H3). exists e, n, n. auto.
    - intros i j Hij. apply Hin in Hij as (e & n & n' & _ & _ & _ & _ & (l & d & Hn & Hd & ->)).
      pose proof (qo_range Q) as Hr. rewrite Forall_forall in Hr. specialize (Hr l (nth_error_In _ _ Hn)). fold dim. nia. }
  unfold q_start. destruct (Nat.ltb_spec 1 (qc_ranks cfg)) as [H1|_]; [pose proof (qo_serial Q); lia|].
  fold dim gids. rewrite Ep. cbn [obind fst snd]. rewrite Ea. cbn [obind].
  destruct (Rlt_dec (qc_final cfg) (qc_initial cfg)) as [H1|_]; [pose proof (qo_times Q); lra|].
  rewrite andb_false_r, (qo_uq Q).
  set (s0 := QState _ _ _ _ _ _ _ _ _ _ _ _ _).
  assert (Hls : ls_unknowns cfg st = N * dim).
  { unfold ls_unknowns, ls_nodes. rewrite (proj1 (ls_map_ok (qo_nodup Q))), (qo_len Q). reflexivity. }
  assert (Hi0 : q_inv0 N (q_mgr st) (q_ref st) pat s0).
  { constructor; cbn; auto; try apply Q.
    - apply same_refl.
    - rewrite (qo_off Q). constructor.
    - now rewrite repeat_length.
    - now rewrite repeat_length.
    - eexists. exact Hrep. }
  destruct (kinematic_ok HE (qo_scheme Q) (qc_initial cfg) (qc_initial cfg) Hi0) as (s1 & E1 & Hi1 & _ & K1 & K2 & K3 & K4 & K5 & K6).
  rewrite E1. cbn [obind]. exists pat, (q_write s1). split; [reflexivity|]. split; auto. split.
  { destruct (qi_inv0 Hi1). constructor; cbn; auto. }
  split; [exact K4|]. split; [exact K2|]. split.
  { intros n c. specialize (K6 n c). apply (f_equal fst) in K6. simpl fst at 1 in K6. cbn. rewrite K6.
    replace (qc_initial cfg - qc_initial cfg)%R with 0%R by ring. now apply zero_motion, (qo_scheme Q). }
  split; [apply (qi_disp (qi_inv0 Hi1))|].
  cbn. rewrite K5. cbn. rewrite (qo_out Q). cbn. rewrite K4, K1, K3. reflexivity.
Qed.
