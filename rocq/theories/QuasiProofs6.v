(** The quasistatic solver on linear problems: load steps and the whole run. *)
From Coq Require Import Reals Lra.
From Verif Require Import Base ListLemmas Loops LinModel LinSpec CrsProofs CgProofs CgSpd PatternProofs BcModel BcSpec BcProofs IntegratorModel IntegratorSpec QuasiModel QuasiSpec QuasiProofs QuasiProofs2 QuasiProofs3 QuasiProofs4 QuasiProofs5.
Local Open Scope nat_scope.
Set Implicit Arguments.

Section Env.
  Context {S : Type} (ph : qphysics S) (cfg : qconfig) (N : nat) (mg0 : manager) (ref : view) (pat : list (nat * nat)).
  Let dim := mg_dim mg0.
  Let gids := qc_gids cfg.
  Hypothesis E : env ph cfg N mg0 ref pat.
  Hypothesis Hscheme : mg_scheme mg0 = QUASISTATIC.
  Hypothesis Hmax : (2 <= qc_max_iter cfg)%Z.
  Variables (f0 : S -> R -> R -> nat -> nat -> R) (K : nat -> nat -> R) (lo hi : R).
  Hypothesis Hlin : linear_physics N dim gids ph f0 K.
  Hypothesis Hst : stiffness_ok N mg0 gids K lo hi.
  Hypothesis Hsize : N * mg_dim mg0 < cg_default_max.
  Hypothesis Htol : (0 <= qc_rel_tol cfg)%R.
  Notation qinv0 := (@q_inv0 S N mg0 ref pat).

  Section Step.
  Variables (tprev t : R) (e0 : S) (start : view).
  Notation settled' := (@settled S ph cfg N mg0 ref pat tprev t e0 start).

  Lemma linear_loop tol : (0 <= tol)%R -> forall fuel it st m, settled' st m ->
    exists st' m' it', newton_loop ph cfg fuel it tol tprev t st m = Ok (Done (st', m', it')) /\
      ((attainable lo hi (q_residual st) <= tol)%R -> 1 <= fuel -> it' <= 1 + it).
  Proof.
    intros Ht. induction fuel as [|fuel IH]; intros it st m Hs; simpl.
    - exists st, m, it. split; auto.
    - destruct (Rlt_dec tol m) as [Hlt|Hge].
      + destruct (@linear_pass S ph cfg N mg0 ref pat E f0 K lo hi Hlin Hst tprev t e0 start st m Hs) as (s1 & m1 & E1 & H1 & _ & Hle); [lra|exact Hsize|].
        rewrite E1. cbn [obind]. destruct (IH (Datatypes.S it) s1 m1 H1) as (s2 & m2 & it2 & E2 & H2). exists s2, m2, it2. split; [exact E2|].
        intros Ha _. destruct fuel as [|fuel]; simpl in E2.
        * injection E2 as <- <- <-. lia.
        * destruct (Rlt_dec tol m1); [lra|]. injection E2 as <- <- <-. lia.
      + exists st, m, it. split; auto.
  Qed.
  End Step.

  Lemma linear_load_step st k : qinv0 st ->
    exists r, load_step ph cfg k st = Ok r /\
      ((exists st', r = Done st') \/
       r = Failed /\ too_tight ph mg0 ref gids N lo hi (qc_rel_tol cfg) (q_time st) (q_time st + q_step_length cfg) (k_disp (q_kin st)) (q_old st)).
  Proof.
    intros Hi. unfold load_step. set (t := (q_time st + q_user_step cfg)%R).
    assert (Hi' : qinv0 (q_set_time t st)) by (destruct Hi; constructor; auto).
    destruct (@kinematic_ok S ph cfg N mg0 ref pat E Hscheme _ t (q_time st) Hi') as (s1 & E1 & Hi1 & Hp & _ & Ho1 & _). rewrite E1. cbn [obind].
    change (k_disp (q_kin (q_set_time t st))) with (k_disp (q_kin st)) in Hp.
    destruct (@evaluate_current_ok _ ph cfg N mg0 ref pat E (q_time st) t (q_old st) (k_disp (q_kin s1)) s1 Hi1 Ho1)
      as (s2 & m0 & E2 & Hset & _ & _ & _ & _ & _ & _ & Hint0).
    { intros n c _ _ _. reflexivity. }
    rewrite E2. cbn [obind fst snd].
    pose proof (se_meas Hset) as Hm0.
    assert (Hpos : (0 <= qc_rel_tol cfg * m0)%R).
    { apply Rmult_le_pos; auto. rewrite Hm0. unfold measured.
      assert (0 <= largest N (fun i => Rabs (nth i (q_residual s2) 0)))%R.
      { clear. induction N as [|n IH]; simpl; [lra|]. eapply Rle_trans; [exact IH|apply Rmax_l]. }
      pose proof (sqrt_pos (Rsum N (fun i => nth i (q_residual s2) 0 * nth i (q_residual s2) 0)%R)). lra. }
    destruct (@linear_loop (q_time st) t (q_old st) (k_disp (q_kin s1)) (qc_rel_tol cfg * m0)%R Hpos
      (Z.to_nat (qc_max_iter cfg)) 0 s2 m0 Hset) as (s3 & m3 & it & E3 & H3). rewrite E3. cbn [obind].
    destruct (Z.eqb_spec (Z.of_nat it) (qc_max_iter cfg)) as [He|Hne]; [|eexists; split; [reflexivity|left; eauto]].
    exists Failed. split; auto. right. split; auto.
    destruct (Rle_dec (attainable lo hi (q_residual s2)) (qc_rel_tol cfg * m0)) as [Hle|Hgt].
    - exfalso. specialize (H3 Hle). lia.
    - exists (k_disp (q_kin s1)), (v_at (q_int s2)), (q_residual s2), (q_new s1), (q_new s2). split; [exact Hp|]. split; [exact Hint0|].
      split; [apply (se_oob Hset)|]. rewrite <- Hm0. lra.
  Qed.

  (** how far a run over the steps a .. a+n-1 got before it failed *)
  Definition stuck (a n : nat) (st : qstate S) : Prop :=
    exists m (d : nat -> view) (e : nat -> S) (f : nat -> nat -> nat -> R), m < n /\
      d a = k_disp (q_kin st) /\ e a = q_old st /\
      (forall k, a <= k < a + m ->
         solved_step ph mg0 ref gids N (qc_rel_tol cfg) (q_time_after cfg k) (q_time_after cfg (k + 1)) (d k) (e k) (d (k + 1)) (f (k + 1)) (e (k + 1))) /\
      too_tight ph mg0 ref gids N lo hi (qc_rel_tol cfg) (q_time_after cfg (a + m)) (q_time_after cfg (a + m + 1)) (d (a + m)) (e (a + m)).

  Lemma linear_load_steps : forall n a st, qinv0 st -> q_time st = q_time_after cfg a ->
    exists r, load_steps ph cfg (seq a n) st = Ok r /\ ((exists st', r = Done st') \/ r = Failed /\ stuck a n st).
  Proof.
    induction n as [|n IH]; intros a st Hi Ht; simpl; [eexists; split; [reflexivity|left; eauto]|].
    destruct (linear_load_step a Hi) as (r & E1 & H1). rewrite E1. cbn [obind].
    assert (Hnext : (q_time st + q_step_length cfg = q_time_after cfg (a + 1))%R).
    { rewrite Ht. unfold q_time_after. rewrite plus_INR. simpl (INR 1). ring. }
    destruct H1 as [[s1 ->]|[-> H1]].
    - destruct (@load_step_ok S ph cfg N mg0 ref pat E Hscheme) with (st := st) (k := a) as (r' & E1' & H1'); [lia|auto|].
      rewrite E1 in E1'. injection E1' as <-. destruct (H1' s1 eq_refl) as (Hi1 & Ht1 & Hsol & Hout).
      assert (Htime : q_time s1 = q_time_after cfg (Datatypes.S a)) by (rewrite Ht1, Hnext; f_equal; lia).
      destruct (IH (Datatypes.S a) s1 Hi1 Htime) as (r & E2 & H2). exists r. split; auto. destruct H2 as [H2|[-> H2]]; [now left|right; split; auto].
      destruct H2 as (m & d & e & f & Hm & D0 & E0 & Hk & Hl).
      exists (1 + m), (fun k => if k =? a then k_disp (q_kin st) else d k), (fun k => if k =? a then q_old st else e k),
        (fun k => if k =? Datatypes.S a then v_at (q_int s1) else f k).
      assert (Hna : forall k, a < k -> (k =? a) = false) by (intros k H; apply Nat.eqb_neq; lia).
      rewrite Nat.eqb_refl. split; [lia|]. split; auto. split; auto. split.
      + intros k Hkk. rewrite !(Hna (k + 1)) by lia. destruct (Nat.eqb_spec k a) as [->|Hne].
        * replace (a + 1) with (Datatypes.S a) by lia. rewrite Nat.eqb_refl. rewrite D0, E0, <- Htime, <- Ht. exact Hsol.
        * replace (k + 1 =? Datatypes.S a) with false by (symmetry; apply Nat.eqb_neq; lia). apply Hk. lia.
      + rewrite !(Hna (a + (1 + m))) by lia. replace (a + (1 + m)) with (Datatypes.S a + m) by lia. exact Hl.
    - exists Failed. split; auto. right. split; auto.
      exists 0, (fun _ => k_disp (q_kin st)), (fun _ => q_old st), (fun _ _ _ => 0%R). split; [lia|]. split; auto. split; auto.
      split; [intros; lia|]. rewrite Nat.add_0_r, <- Hnext, <- Ht. exact H1.
  Qed.
End Env.
