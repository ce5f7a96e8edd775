(** Starting a run, the schedule, the equation of motion entry by entry. *)
From Verif Require Import Base ListLemmas Loops BcModel BcSpec BcProofs IntegratorModel IntegratorSpec IntegratorProofs.
From Coq Require Import Reals Lra FunctionalExtensionality.
Local Open Scope nat_scope.
Set Implicit Arguments.

Lemma step_length_user cfg : user_step cfg = step_length cfg.
Proof. reflexivity. Qed.

Lemma is_output_wanted cfg k : k < steps cfg -> is_output cfg k = wanted cfg k.
Proof.
  intros Hk. unfold is_output, wanted, steps in *. destruct (Z.eqb_spec (rc_frequency cfg) 0) as [|Hf]; auto. simpl. f_equal.
  - apply eq_true_iff_eq. rewrite !Z.eqb_eq. rewrite Z.rem_divide, Z.mod_divide; tauto.
  - destruct (Z.eqb_spec (Z.of_nat k) (rc_load_steps cfg - 1)); destruct (Nat.eqb_spec (k + 1) (Z.to_nat (rc_load_steps cfg))); lia.
Qed.

(** entries without driver *)
Lemma free_fold mg dt t ref n c l x : free mg n c -> (forall b, In b l -> In b (mg_bcs mg)) ->
  fold_left (entry_effect mg dt t ref n c) l x = x.
Proof.
  intros Hf. revert x; induction l as [|b l IH]; intros [d v] Hl; simpl; auto.
  rewrite IH by (intros; apply Hl; now right). pose proof (Hf b (Hl b (or_introl eq_refl))) as Hb.
  destruct (covers mg b n c) eqn:Ec; auto. destruct (bc_kind b); auto; discriminate Hb; auto.
Qed.
Lemma bcv_free N mg ref dt t d v n c : free mg n c -> v_at (bcv N mg ref dt t d v) n c = v_at v n c.
Proof. intros H. simpl. now rewrite free_fold. Qed.

(** the last driver decides *)
Lemma fold_undriven mg dt t ref n c l x :
  (forall b, In b l -> (bc_kind b = PRESCRIBED_VELOCITY \/ bc_kind b = PRESCRIBED_DISPLACEMENT) -> covers mg b n c = false) ->
  fold_left (entry_effect mg dt t ref n c) l x = x.
Proof.
  revert x; induction l as [|b l IH]; intros [d v] Hl; simpl; auto.
  rewrite IH by (intros; apply Hl; auto; now right). pose proof (Hl b (or_introl eq_refl)) as Hb.
  destruct (covers mg b n c) eqn:Ec; auto. destruct (bc_kind b); auto; discriminate Hb; auto.
Qed.
Lemma bcv_velocity N mg ref dt t d v n c b : last_driver mg n c b -> bc_kind b = PRESCRIBED_VELOCITY ->
  v_at (bcv N mg ref dt t d v) n c = value_at mg ref t n b.
Proof.
  intros (l1 & l2 & El & Hc & Hl2) Hk. simpl. rewrite El, fold_left_app. simpl. rewrite (@fold_undriven mg dt t ref n c l2 _ Hl2).
  unfold entry_effect. destruct (fold_left _ l1 _) as [d1 v1]. now rewrite Hc, Hk.
Qed.
Lemma bcv_displacement N mg ref dt t d v n c b : mg_scheme mg = EXPLICIT -> last_driver mg n c b ->
  bc_kind b = PRESCRIBED_DISPLACEMENT -> (0 < dt)%R ->
  v_at (bcv N mg ref dt t d v) n c = ((value_at mg ref t n b - v_at d n c) / dt)%R.
Proof.
  intros Hs (l1 & l2 & El & Hc & Hl2) Hk Hdt. simpl. rewrite El, fold_left_app. simpl. rewrite (@fold_undriven mg dt t ref n c l2 _ Hl2).
  pose proof (@fold_fst mg ref Hs dt t n c l1 (v_at d n c, v_at v n c)) as Hf.
  unfold entry_effect at 1. destruct (fold_left _ l1 _) as [d1 v1]. simpl in Hf. subst d1.
  rewrite Hc, Hk. destruct (Rlt_dec 0 dt); [reflexivity|contradiction].
Qed.

(** velocities that agree where nothing drives give the same velocity after the boundary conditions *)
Definition undriven (mg : manager) (dt : R) (n c : nat) : Prop :=
  forall b, In b (mg_bcs mg) -> covers mg b n c = true ->
    bc_kind b <> PRESCRIBED_VELOCITY /\ (bc_kind b = PRESCRIBED_DISPLACEMENT -> ~ (0 < dt)%R).
Lemma fold_agree mg dt t ref n c l d v w : mg_scheme mg = EXPLICIT ->
  ((forall b, In b l -> covers mg b n c = true ->
    bc_kind b <> PRESCRIBED_VELOCITY /\ (bc_kind b = PRESCRIBED_DISPLACEMENT -> ~ (0 < dt)%R)) -> v = w) ->
  fold_left (entry_effect mg dt t ref n c) l (d, v) = fold_left (entry_effect mg dt t ref n c) l (d, w).
Proof.
  intros Hs. revert v w; induction l as [|b l IH]; intros v w H.
  - simpl. rewrite H; [reflexivity|intros b Hb; destruct Hb].
  - simpl. rewrite Hs. simpl. destruct (covers mg b n c) eqn:Ec.
    2: { apply IH. intros Hl. apply H. intros b' [<-|Hb']; [congruence|auto]. }
    destruct (bc_kind b) eqn:Ek; auto.
    + apply IH. intros Hl. apply H. intros b' [<-|Hb'] Hcc; [split; congruence|now apply Hl].
    + destruct (Rlt_dec 0 dt) as [Hdt|Hdt]; auto. apply IH. intros Hl. apply H. intros b' [<-|Hb'] Hcc; [split; congruence|now apply Hl].
    + apply IH. intros Hl. apply H. intros b' [<-|Hb'] Hcc; [split; congruence|now apply Hl].
Qed.
Lemma bcv_agree N mg ref dt t d v w : mg_scheme mg = EXPLICIT ->
  (forall n c, undriven mg dt n c -> v_at v n c = v_at w n c) -> bcv N mg ref dt t d v = bcv N mg ref dt t d w.
Proof.
  intros Hs H. apply (@view_ext N 3); [split; reflexivity|split; reflexivity|]. intros n c. simpl. f_equal.
  apply fold_agree; [exact Hs|]. intros Hu. apply H. exact Hu.
Qed.
Lemma fold_undriven2 mg dt t ref n c l x : 
  (forall b, In b l -> covers mg b n c = true ->
    bc_kind b <> PRESCRIBED_VELOCITY /\ (bc_kind b = PRESCRIBED_DISPLACEMENT -> ~ (0 < dt)%R)) ->
  fold_left (entry_effect mg dt t ref n c) l x = x.
Proof.
  revert x; induction l as [|b l IH]; intros [d v] Hl; simpl; auto.
  rewrite IH by (intros; apply Hl; auto; now right). pose proof (Hl b (or_introl eq_refl)) as Hb.
  destruct (covers mg b n c) eqn:Ec; auto. destruct (Hb eq_refl) as [H1 H2]. destruct (bc_kind b) eqn:Ek; auto; [congruence|].
  destruct (Rlt_dec 0 dt); auto. exfalso. now apply H2.
Qed.
Lemma bcv_undriven N mg ref dt t d v n c : undriven mg dt n c -> v_at (bcv N mg ref dt t d v) n c = v_at v n c.
Proof. intros H. simpl. now rewrite fold_undriven2. Qed.

Section Start.
  Context {S : Type} (ph : physics S) (cfg : run_config) (N : nat) (st : istate S).
  Hypothesis H0 : start_ok N cfg st.
  Local Notation mg0 := (i_mgr st).
  Local Notation ref := (i_ref st).
  Local Notation goodst := (@good S N mg0 ref).
  Local Notation traj := (@traj_of S ph cfg N mg0 ref).

  Record started (s : istate S) : Prop := {
    sd_good : goodst s;
    sd_time : i_time s = rc_initial cfg;
    sd_disp : k_disp (i_kin s) = k_disp (i_kin st);
    sd_vel : exists v, k_vel (i_kin s) = bcv N mg0 ref 0 0 (k_disp (i_kin st)) v /\
       forall n c, v_at v n c = fold_left (init_effect mg0 ref n c) (mg_bcs mg0) (v_at (k_vel (i_kin st)) n c);
    sd_rest : i_acc s = i_acc st /\ i_int s = i_int st /\ i_ext s = i_ext st /\ i_con s = i_con st /\ i_old s = i_old st /\ i_new s = i_new st;
    sd_out : i_out s = [written_of s] }.

  Lemma start_cases : exists s, started s /\ explicit_start cfg st =
    if (rc_rank cfg =? 0) && (if Rlt_dec (rc_final cfg) (rc_initial cfg) then true else false) then Throw else Ok s.
  Proof.
    pose proof (so_bc H0) as Hb. pose proof (so_dim H0) as Hd. pose proof (so_scheme H0) as Hsc. pose proof (so_ref H0) as Hr.
    assert (Hr' : shaped N (mg_dim mg0) ref) by now rewrite Hd.
    assert (Hk : kshaped N (mg_dim mg0) (i_kin st)).
    { rewrite Hd. split; [apply H0|]. split; [apply H0|]. rewrite (so_off H0). constructor. }
    destruct (@apply_initial_ok mg0 N ref Hb Hr' (i_kin st) Hk) as (mg' & s' & E & Hm & K).
    rewrite Hd in K. destruct K as (K1 & K2 & K3 & K4).
    destruct s' as [d' v' o']. cbn [k_disp k_vel k_off] in *. rewrite (so_off H0) in K4. inversion K4; subst o'.
    assert (Ed : d' = k_disp (i_kin st)).
    { apply (@view_ext N 3); auto; [apply H0|]. intros n c. specialize (K3 n c). now injection K3. }
    subst d'.
    set (s1 := IState mg' ref (Kin (k_disp (i_kin st)) v' []) (i_acc st) (i_int st) (i_ext st) (i_con st) (i_old st) (i_new st) (rc_initial cfg) (i_out st)).
    assert (G1 : goodst s1). { destruct H0; split; simpl; auto. }
    destruct (@kc_ok S N mg0 ref Hb Hd Hsc Hr s1 0%R 0%R G1) as (mg2 & M2 & E2).
    replace (0 - 0)%R with 0%R in E2 by ring.
    eexists. split; [|unfold explicit_start; destruct (_ && _); [reflexivity|]].
    2: { unfold initial_conditions. cbn [set_time i_mgr i_ref i_kin]. rewrite E. cbn [obind fst snd i_acc i_int i_ext i_con i_old i_new i_time i_out].
      match goal with |- context [kinematic_conditions _ _ ?s] => change s with s1 end. rewrite E2. cbn [obind]. reflexivity. }
    split; cbn [write_output i_kin i_acc k_disp k_vel i_int i_ext i_con i_old i_new i_time i_out i_mgr i_ref k_off s1]; auto.
    - destruct G1. split; simpl in *; auto. split; reflexivity.
    - exists v'. split; auto. intros n c. specialize (K3 n c). now injection K3.
    - repeat split; auto.
    - rewrite (so_out H0). reflexivity.
  Qed.

  Lemma integrate_traj s : integrate ph cfg N st = Ok s ->
    ((rc_rank cfg = 0)%nat -> (rc_initial cfg <= rc_final cfg)%R) /\
    exists tr, started (tr 0) /\ tr (steps cfg) = s /\ traj tr (steps cfg).
  Proof.
    destruct start_cases as (s0 & Hs & E). unfold integrate. rewrite E. intros Hi. split.
    - intros Hr. destruct (Rlt_dec (rc_final cfg) (rc_initial cfg)) as [Hlt|Hge]; [|lra].
      rewrite Hr in Hi. simpl in Hi. discriminate.
    - destruct (_ && _); [discriminate|]. cbn [obind] in Hi.
      destruct (@run_traj S ph cfg N mg0 ref (so_bc H0) (so_dim H0) (so_scheme H0) (so_ref H0) (so_mass H0) _ s0 s (sd_good Hs) Hi)
        as (tr & T0 & Tn & T). exists tr. split; [now rewrite T0|]. split; auto.
  Qed.

  Lemma out_list tr : started (tr 0) -> traj tr (steps cfg) ->
    i_out (tr (steps cfg)) = written_of (tr 0) :: map (fun j => written_of (tr (j + 1))) (filter (wanted cfg) (seq 0 (steps cfg))).
  Proof.
    intros Hs T. rewrite (@traj_out S ph cfg N mg0 ref (so_dim H0) (so_mass H0) tr _ (steps cfg) T) by lia. rewrite (sd_out Hs). simpl. f_equal. f_equal.
    apply filter_ext_in. intros k Hk. apply in_seq in Hk. apply is_output_wanted. lia.
  Qed.
  Lemma all_wanted k : writes_all cfg -> wanted cfg k = true.
  Proof. unfold writes_all, wanted. intros ->. simpl. rewrite Z.mod_1_r. reflexivity. Qed.
  Lemma out_all tr : writes_all cfg -> started (tr 0) -> traj tr (steps cfg) ->
    i_out (tr (steps cfg)) = map (fun k => written_of (tr k)) (seq 0 (steps cfg + 1)).
  Proof.
    intros Hw Hs T. rewrite (out_list Hs T). replace (steps cfg + 1) with (Datatypes.S (steps cfg)) by lia. simpl. f_equal.
    replace (filter (wanted cfg) (seq 0 (steps cfg))) with (seq 0 (steps cfg)).
    2: { generalize (seq 0 (steps cfg)). induction l as [|a l IH]; simpl; auto. now rewrite all_wanted, <- IH. }
    rewrite <- seq_shift, map_map. apply map_ext. intros a. now rewrite Nat.add_1_r.
  Qed.
  Lemma out_nth tr k w : writes_all cfg -> started (tr 0) -> traj tr (steps cfg) ->
    nth_error (i_out (tr (steps cfg))) k = Some w -> k <= steps cfg /\ w = written_of (tr k).
  Proof.
    intros Hw Hs T. rewrite (out_all Hw Hs T). intros E. rewrite nth_error_map in E.
    destruct (nth_error (seq 0 (steps cfg + 1)) k) as [j|] eqn:Ej; [|discriminate]. injection E as <-.
    assert (Hk : k < steps cfg + 1).
    { rewrite <- (seq_length (steps cfg + 1) 0). apply nth_error_Some. congruence. }
    split; [lia|]. apply (fun E => @nth_error_nth _ _ _ _ 0 E) in Ej. rewrite seq_nth in Ej by auto. now subst.
  Qed.

  (** a step on an entry nothing drives *)
  Lemma step_free k s s' n c : @step_effect S ph cfg N mg0 ref k s s' -> free mg0 n c -> n < N -> c < 3 ->
    let h := step_length cfg in
    v_at (k_disp (i_kin s')) n c = (v_at (k_disp (i_kin s)) n c + h * (v_at (k_vel (i_kin s)) n c + h / 2 * v_at (i_acc s) n c))%R /\
    v_at (k_vel (i_kin s')) n c = (v_at (k_vel (i_kin s)) n c + h / 2 * v_at (i_acc s) n c + h / 2 * v_at (i_acc s') n c)%R /\
    v_at (i_acc s') n c = acc_entry ph cfg s' n c.
  Proof.
    intros E Hf Hn Hc h. split; [|split].
    - rewrite (se_disp E). unfold axv at 1. cbn [v_at]. rewrite bcv_free by auto. reflexivity.
    - rewrite (se_vel E). cbv zeta.
      set (u := user_step cfg).
      set (v2 := bcv N mg0 ref u (i_time s + u) (k_disp (i_kin s)) (axv N (k_vel (i_kin s)) (u / 2) (i_acc s))).
      set (v4 := axv N (bcv N mg0 ref u (i_time s + u) (k_disp (i_kin s')) v2) (u / 2) (i_acc s')).
      assert (H4 : v_at v4 n c = (v_at (k_vel (i_kin s)) n c + h / 2 * v_at (i_acc s) n c + h / 2 * v_at (i_acc s') n c)%R).
      { unfold v4, axv. cbn [v_at]. rewrite bcv_free by auto. unfold v2. rewrite bcv_free by auto. reflexivity. }
      destruct (is_output cfg k); auto. rewrite bcv_free; auto.
    - rewrite (se_acc E) at 1. cbn [v_at]. apply Nat.ltb_lt in Hn, Hc. now rewrite Hn, Hc.
  Qed.
End Start.
