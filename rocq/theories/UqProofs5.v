(** Every sample, exact or approximate, moves by its own force. *)
From Coq Require Import NArith Reals Lra.
From Verif Require Import Base Strings InputModel InputSpec InputProofs InputProofs2 MeshTextModel Loops ListLemmas BcModel BcSpec BcProofs IntegratorModel IntegratorProofs UqModel UqSpec UqProofs UqProofs2 UqProofs3.
Set Implicit Arguments.
Local Open Scope nat_scope.
Local Open Scope list_scope.
Local Notation length := List.length.

Lemma kick_sample_ok' N mass h ext f v : length mass = N -> shaped N 3 ext -> shaped N 3 f -> shaped N 3 v ->
  exists v', kick_sample N mass h ext f v = Ok v' /\ shaped N 3 v' /\
    forall n c, n < N -> c < 3 -> v_at v' n c = (v_at v n c + h * ((1 / nth n mass 0) * (v_at f n c + v_at ext n c)))%R.
Proof.
  intros Hmass S1 S2 S3. unfold kick_sample.
  apply (@grid_loop N (fun n c v =>
    do m <- vget mass n;
    do x <- view_get f n c;
    do e <- view_get ext n c;
    do cur <- view_get v n c;
    view_set v n c (cur + h * ((1 / m) * (x + e)))%R)
    (fun n c old => (old + h * ((1 / nth n mass 0) * (v_at f n c + v_at ext n c)))%R) v); auto.
  intros n c w Hn Hc Sw Ew. rewrite (@vget_nth _ 0%R) by lia. cbn [obind]. rewrite (view_get_ok S2) by auto. cbn [obind].
  rewrite (view_get_ok S1) by auto. cbn [obind]. rewrite (view_get_ok Sw) by auto. cbn [obind]. rewrite Ew.
  apply set_point; auto.
Qed.
Lemma acceleration_ok' N mass force ext acc : length mass = N -> shaped N 3 force -> shaped N 3 ext -> shaped N 3 acc ->
  exists acc', uq_acceleration N mass force ext acc = Ok acc' /\ shaped N 3 acc' /\
    forall n c, n < N -> c < 3 -> v_at acc' n c = ((1 / nth n mass 0) * (v_at force n c + v_at ext n c))%R.
Proof.
  intros Hmass S1 S2 S3. unfold uq_acceleration.
  apply (@grid_loop N (fun n c acc =>
    do m <- vget mass n; do x <- view_get force n c; do e <- view_get ext n c;
    view_set acc n c ((1 / m) * (x + e))%R)
    (fun n c _ => ((1 / nth n mass 0) * (v_at force n c + v_at ext n c))%R) acc); auto.
  intros n c w Hn Hc Sw _. rewrite (@vget_nth _ 0%R) by lia. cbn [obind]. rewrite (view_get_ok S1) by auto. cbn [obind].
  rewrite (view_get_ok S2) by auto. cbn [obind]. apply set_point; auto.
Qed.
Lemma sample_loop' ns (op : nat -> view -> outcome view) (R : nat -> view -> view -> Prop) l0 body :
  (forall i l, body i l = do v <- vget l i; do v' <- op i v; vset l i v') ->
  length l0 = ns -> (forall i v, i < ns -> v = field l0 i -> exists v', op i v = Ok v' /\ R i v v') ->
  exists l', oloop 0 ns body l0 = Ok l' /\ length l' = ns /\ forall i, i < ns -> R i (field l0 i) (field l' i).
Proof.
  intros Hb Hl Hop.
  destruct (@oloop_ind _ (fun k l => length l = ns /\ (forall i, i < k -> R i (field l0 i) (field l i)) /\ forall i, k <= i -> field l i = field l0 i)
    0 ns body l0) as (l' & E & H1 & H2 & _); [lia| | |eauto].
  - split; auto. split; auto. intros; lia.
  - intros k l Hk (L & A & B). rewrite Hb. rewrite (@vget_nth _ no_view) by lia. cbn [obind].
    fold (field l k). rewrite B by lia. destruct (Hop k _ (proj2 Hk) eq_refl) as (v' & Ev & Hv). rewrite Ev. cbn [obind].
    rewrite vset_ok by lia. eexists. split; [reflexivity|]. split; [now rewrite list_set_length|]. unfold field in *. split.
    + intros i Hi. rewrite nth_list_set by lia. destruct (Nat.eqb_spec i k) as [->|Hne]; auto. apply A. lia.
    + intros i Hi. rewrite nth_list_set by lia. destruct (Nat.eqb_spec i k) as [->|Hne]; [lia|]. apply B. lia.
Qed.
Lemma Forall2_field' {P : view -> view -> Prop} l l' j : Forall2 P l l' -> j < length l -> P (field l j) (field l' j).
Proof.
  intros H. revert j. induction H; intros j Hj; simpl in Hj; [lia|]. destruct j; simpl; auto. apply IHForall2. lia.
Qed.

Section Moves.
  Variables (block_force : block_force_t) (reduce : view -> view) (N : nat) (mass : list R) (ref : view).
  Variables (q : uq_samples) (p : sample_params) (blocks : list Z) (mg0 : manager) (nparameters : nat).
  Let ns := uq_nexact q + uq_napprox q.
  Hypothesis Hq : samples_ok nparameters q.
  Hypothesis Hap : 0 < uq_napprox q.
  Hypothesis Hparams : forall b k, In b blocks -> k < uq_nexact q -> succeeds (sample_parameters p b k).
  Hypothesis Hmass : length mass = N.
  Hypothesis Hbc : bc_input_ok mg0 N.
  Hypothesis Hdim : mg_dim mg0 = 3.
  Hypothesis Href : shaped N 3 ref.
  Hypothesis Hforce : forall b m v, In b blocks -> shaped N 3 v -> succeeds (block_force b m v).
  Hypothesis Hreduce : forall v, shaped N 3 v -> shaped N 3 (reduce v).

  Lemma kick_all h acc ext forces vel vels :
    shaped N 3 acc -> shaped N 3 ext -> shaped N 3 vel ->
    length forces = ns -> Forall (shaped N 3) forces -> length vels = ns -> Forall (shaped N 3) vels ->
    exists vel' vels', view_axpy vel h acc = Ok vel' /\ update_with_new_velocity N mass q h ext forces vels = Ok vels' /\
      shaped N 3 vel' /\ length vels' = ns /\ Forall (shaped N 3) vels' /\
      (forall n c, v_at vel' n c = (v_at vel n c + h * v_at acc n c)%R) /\
      forall j n c, j < ns -> n < N -> c < 3 ->
        v_at (field vels' j) n c = (v_at (field vels j) n c + h * ((1 / nth n mass 0) * (v_at (field forces j) n c + v_at ext n c)))%R.
  Proof.
    intros S1 S2 S4 L1 S5 L2 S6.
    destruct (axpy_shaped h S4 S1) as (vel' & E1 & T1 & V1).
    destruct (@sample_loop' ns (fun s v => do f <- vget forces s; kick_sample N mass h ext f v)
      (fun s v v' => shaped N 3 v' /\ forall n c, n < N -> c < 3 -> v_at v' n c = (v_at v n c + h * ((1 / nth n mass 0) * (v_at (field forces s) n c + v_at ext n c)))%R)
      vels (fun s vels => do f <- vget forces s; do v <- vget vels s; do v' <- kick_sample N mass h ext f v; vset vels s v')) as (vels' & E2 & L3 & V2); auto.
    - intros i l. unfold vget at 1 3. unfold vget. destruct (nth_error forces i), (nth_error l i); reflexivity.
    - intros i v Hi ->. rewrite (@vget_nth _ no_view) by (unfold ns in *; lia). cbn [obind]. apply (@kick_sample_ok' N mass); auto; apply field_shaped; auto; unfold ns in *; lia.
    - exists vel', vels'. split; auto. split; auto. split; auto. split; auto. split.
      + apply (Forall_nth_intro _ no_view). intros i Hi. apply V2. unfold ns in *; lia.
      + split; auto. intros j n c Hj Hn Hc. now apply V2.
  Qed.
  Lemma drift_all h disp disps vel vels :
    shaped N 3 disp -> shaped N 3 vel -> length disps = ns -> Forall (shaped N 3) disps -> length vels = ns -> Forall (shaped N 3) vels ->
    exists disp' disps', view_axpy disp h vel = Ok disp' /\ update_with_new_displacement q h vels disps = Ok disps' /\
      shaped N 3 disp' /\ length disps' = ns /\ Forall (shaped N 3) disps' /\
      (forall n c, v_at disp' n c = (v_at disp n c + h * v_at vel n c)%R) /\
      forall j n c, j < ns -> v_at (field disps' j) n c = (v_at (field disps j) n c + h * v_at (field vels j) n c)%R.
  Proof.
    intros S1 S2 L1 S3 L2 S4. destruct (axpy_shaped h S1 S2) as (d' & E1 & T1 & V1).
    destruct (@sample_loop' ns (fun s u => do v <- vget vels s; view_axpy u h v)
      (fun s u u' => shaped N 3 u' /\ forall n c, v_at u' n c = (v_at u n c + h * v_at (field vels s) n c)%R)
      disps (fun s disps => do u <- vget disps s; do v <- vget vels s; do u' <- view_axpy u h v; vset disps s u')) as (ds' & E2 & L3 & V2); auto.
    - intros i l. destruct (vget l i); cbn [obind]; auto. destruct (vget vels i); reflexivity.
    - intros i v Hi ->. rewrite (@vget_nth _ no_view) by (unfold ns in *; lia). cbn [obind].
      apply axpy_shaped; apply field_shaped; auto; unfold ns in *; lia.
    - exists d', ds'. split; auto. split; auto. split; auto. split; auto. split.
      + apply (Forall_nth_intro _ no_view). intros i Hi. apply V2. unfold ns in *; lia.
      + split; auto. intros j n c Hj. now apply V2.
  Qed.
  (** what the prescribed velocities make of a sample's velocity *)
  Definition driven (t : R) (n c : nat) (v : R) : R := fold_left (off_effect mg0 t ref n c) (mg_bcs mg0) v.
  Definition moved (h t : R) (n c : nat) (dv : R * R) : R * R := fold_left (entry_effect mg0 h t ref n c) (mg_bcs mg0) dv.
  Lemma kinematic_all mg t t0 k : same_mgr mg0 mg -> kshaped N 3 k -> length (k_off k) = ns ->
    exists mg' k', apply_kinematic mg t t0 ref k = Ok (mg', k') /\ same_mgr mg0 mg' /\ kshaped N 3 k' /\ length (k_off k') = ns /\
      (forall n c, (v_at (k_disp k') n c, v_at (k_vel k') n c) = moved (t - t0)%R t n c (v_at (k_disp k) n c, v_at (k_vel k) n c)) /\
      forall j n c, j < ns -> v_at (field (k_off k') j) n c = driven t n c (v_at (field (k_off k) j) n c).
  Proof.
    intros Hm Hk Hl. pose proof Hm as (B1 & B2 & B3 & B4 & _).
    assert (Hd : mg_dim mg = 3) by congruence.
    destruct (@apply_kinematic_ok mg N ref (t - t0)%R t (input_same Hm Hbc)) with (s := k) (t0 := t0) as (mg' & k' & E & M & _ & K);
      try rewrite Hd; auto. rewrite Hd in K.
    exists mg', k'. split; auto. split; [eapply same_trans; eauto|]. split; [eapply krel_kshaped; eauto|].
    destruct K as (K1 & K2 & K3 & K4). destruct Hk as (Hk1 & Hk2 & Hk3).
    split; [rewrite <- Hl; symmetry; eapply Forall2_len; eauto|]. split.
    { intros n c. rewrite K3. unfold moved. rewrite B1.
      assert (Ho : forall l x, fold_left (entry_effect mg (t - t0)%R t ref n c) l x = fold_left (entry_effect mg0 (t - t0)%R t ref n c) l x).
      { induction l as [|b l IH]; intros x; cbn [fold_left]; auto. rewrite IH. f_equal. now apply entry_effect_same. }
      apply Ho. }
    intros j n c Hj. destruct (@Forall2_field' _ (k_off k) (k_off k') j K4) as (_ & V); [unfold ns in *; lia|]. rewrite V. unfold driven. rewrite B1.
    assert (Ho : forall l x, fold_left (off_effect mg t ref n c) l x = fold_left (off_effect mg0 t ref n c) l x).
    { induction l as [|b l IH]; intros x; cbn [fold_left]; auto. rewrite IH. f_equal. unfold off_effect, covers. rewrite B4. now rewrite (value_same ref n b t Hm). }
    apply Ho.
  Qed.

  Record shapes (st : uq_state) : Prop := {
    sh_mgr : same_mgr mg0 (us_mgr st);
    sh_kin : kshaped N 3 (us_kin st);
    sh_vels : length (k_off (us_kin st)) = ns;
    sh_disps : length (us_disps st) = ns; sh_disps' : Forall (shaped N 3) (us_disps st);
    sh_acc : shaped N 3 (us_acc st); sh_force : shaped N 3 (us_force st); sh_ext : blank_field N (us_ext st);
    sh_forces : length (us_forces st) = ns; sh_forces' : Forall (shaped N 3) (us_forces st) }.

  Lemma step_all dt st : shapes st -> exists st', uq_step block_force reduce N mass q p blocks ref dt st = Ok st' /\ shapes st' /\
    us_time st' = (us_time st + dt)%R /\
    (forall n c, n < N -> c < 3 ->
      let t := (us_time st + dt)%R in
      let dw := moved (t - us_time st)%R t n c (v_at (k_disp (us_kin st)) n c, v_at (k_vel (us_kin st)) n c + dt / 2 * v_at (us_acc st) n c)%R in
      let dv := moved (t - us_time st)%R t n c (fst dw + dt * snd dw, snd dw)%R in
      v_at (k_disp (us_kin st')) n c = fst dv /\ v_at (us_acc st') n c = (v_at (us_force st') n c / nth n mass 0)%R /\
      v_at (k_vel (us_kin st')) n c = (snd dv + dt / 2 * v_at (us_acc st') n c)%R) /\
    (forall j n c, j < ns -> n < N -> c < 3 ->
      let w := driven (us_time st + dt) n c (v_at (field (k_off (us_kin st)) j) n c + dt / 2 * (v_at (field (us_forces st) j) n c / nth n mass 0))%R in
      v_at (field (us_disps st') j) n c = (v_at (field (us_disps st) j) n c + dt * w)%R /\
      v_at (field (k_off (us_kin st')) j) n c =
        (driven (us_time st + dt) n c w + dt / 2 * (v_at (field (us_forces st') j) n c / nth n mass 0))%R) /\
    (exists totals, (forall k, k < uq_nexact q -> field (us_forces st') k = reduce (totals k) /\ shaped N 3 (totals k) /\
       forall n c, v_at (totals k) n c = sum_over blocks (fun b => entry_of (block_force b (moduli p b k) (field (us_disps st') k)) n c))) /\
    (forall s n c, s < uq_napprox q -> n < N -> c < 3 -> v_at (field (us_forces st') (uq_nexact q + s)) n c =
       combination (row (uq_coeffs q) s) (v_at (us_force st') n c) (fun k => v_at (field (us_forces st') k) n c) (uq_nexact q)).
  Proof.
    intros [I1 (K1 & K2 & K3) I3 I4 I5 I6 I7 (I8 & I8') I9 I10]. unfold uq_step.
    destruct (@kick_all (1 / 2 * dt) (us_acc st) (us_ext st) (us_forces st) (k_vel (us_kin st)) (k_off (us_kin st)))
      as (v & vs & E1 & E2 & A1 & A2 & A3 & A5 & A4); auto.
    rewrite E1. cbn [obind]. rewrite E2. cbn [obind].
    destruct (@kinematic_all (us_mgr st) (us_time st + dt) (us_time st) (Kin (k_disp (us_kin st)) v vs)) as (mg1 & k1 & E3 & B1 & B2 & B3 & B5 & B4); auto.
    { split; auto. }
    rewrite E3. cbn [obind fst snd]. destruct B2 as (B2a & B2b & B2c). cbn [k_off] in B4.
    destruct (@drift_all dt (k_disp k1) (us_disps st) (k_vel k1) (k_off k1)) as (d & ds & E4 & E5 & C1 & C2 & C3 & C5 & C4); auto.
    rewrite E4. cbn [obind]. rewrite E5. cbn [obind].
    destruct (@kinematic_all mg1 (us_time st + dt) (us_time st) (Kin d (k_vel k1) (k_off k1))) as (mg2 & k2 & E6 & D1 & D2 & D3 & D5 & D4); auto.
    { split; auto. }
    rewrite E6. cbn [obind fst snd]. destruct D2 as (D2a & D2b & D2c). cbn [k_off] in D4.
    destruct (@force_ok block_force reduce N Hreduce q p nparameters Hq blocks (k_disp k2) ds C2) with (force := us_force st) (forces := us_forces st)
      as (total & totals & f & fs & E7 & T1 & T2 & T3 & F1 & F2 & F3 & F4 & F5 & F6); auto.
    { intros b k Hb Hk. apply Hforce; auto. apply field_shaped; auto. rewrite C2. unfold ns. lia. }
    rewrite E7. cbn [obind fst snd].
    destruct (@acceleration_ok' N mass f (view_zero (us_ext st)) (us_acc st)) as (acc & E8 & G1 & G2); auto.
    rewrite E8. cbn [obind].
    destruct (@kick_all (1 / 2 * dt) acc (view_zero (us_ext st)) fs (k_vel k2) (k_off k2))
      as (v2 & vs2 & E9 & E10 & H1 & H2 & H3 & H5 & H4); auto.
    rewrite E9. cbn [obind]. rewrite E10. cbn [obind]. eexists. split; [reflexivity|].
    cbn [us_mgr us_kin us_disps us_acc us_force us_ext us_forces us_time k_disp k_vel k_off]. split; [|split; [reflexivity|split; [|split; [|split]]]].
    - split; cbn [us_mgr us_kin us_disps us_acc us_force us_ext us_forces k_disp k_vel k_off]; auto; split; auto.
    - intros n c Hn Hc. cbv zeta.
      assert (W : moved (us_time st + dt - us_time st) (us_time st + dt) n c (v_at (k_disp (us_kin st)) n c, v_at (k_vel (us_kin st)) n c + dt / 2 * v_at (us_acc st) n c)%R =
        (v_at (k_disp k1) n c, v_at (k_vel k1) n c)).
      { rewrite B5. cbn [k_disp k_vel]. rewrite A5. f_equal. f_equal. lra. }
      rewrite W. cbn [fst snd]. specialize (D5 n c). cbn [k_disp k_vel] in D5. rewrite C5 in D5. rewrite <- D5. cbn [fst snd]. split; [reflexivity|]. split.
      + rewrite G2 by auto. cbn [view_zero v_at]. unfold Rdiv. ring.
      + rewrite H5. f_equal. f_equal. lra.
    - intros j n c Hj Hn Hc. cbv zeta. 
      assert (W : v_at (field (k_off k1) j) n c = driven (us_time st + dt) n c (v_at (field (k_off (us_kin st)) j) n c + dt / 2 * (v_at (field (us_forces st) j) n c / nth n mass 0))%R).
      { rewrite B4 by auto. f_equal. rewrite A4 by auto. rewrite I8' by auto. unfold Rdiv. ring. }
      split.
      + rewrite C4 by auto. now rewrite W.
      + rewrite H4 by auto. rewrite D4 by auto. rewrite W. f_equal. cbn [view_zero v_at]. unfold Rdiv. ring.
    - exists totals. intros k Hk. destruct (T3 k Hk). split; auto.
    - auto.
  Qed.

  Lemma start_all st : us_mgr st = mg0 -> fresh N ns st -> exists st', uq_start ref st = Ok st' /\ shapes st' /\ us_time st' = us_time st /\
    (forall n c, n < N -> c < 3 -> v_at (us_acc st') n c = 0%R /\
       (v_at (k_disp (us_kin st')) n c, v_at (k_vel (us_kin st')) n c) =
         moved (0 - 0)%R 0%R n c (0%R, fold_left (init_effect mg0 ref n c) (mg_bcs mg0) 0%R)) /\
    forall j n c, j < ns -> n < N -> c < 3 -> v_at (field (us_disps st') j) n c = 0%R /\ v_at (field (us_forces st') j) n c = 0%R /\
      v_at (field (k_off (us_kin st')) j) n c = driven 0%R n c (fold_left (init_effect mg0 ref n c) (mg_bcs mg0) 0%R).
  Proof.
    intros Em [(F1 & F1') (F2 & F2') (F3 & F3') (F4 & F4') (F5 & F5') (L6 & F6) (L7 & F7) (L8 & F8)]. unfold uq_start. rewrite Em.
    assert (Sh : forall l, Forall (blank_field N) l -> Forall (shaped N 3) l) by (intros l Hl; eapply Forall_impl; [|exact Hl]; intros v (H & _); auto).
    assert (Fz : forall l j n c, j < ns -> n < N -> c < 3 -> length l = ns -> Forall (blank_field N) l -> v_at (field l j) n c = 0%R).
    { intros l j n c Hj Hn Hc Hl Hf. assert (blank_field N (field l j)) as (_ & H4) by (unfold field; apply (@nth_in_forall view (blank_field N) no_view l j Hf); lia). auto. }
    destruct (@apply_initial_ok mg0 N ref Hbc) with (s := us_kin st) as (mg1 & k1 & E1 & M1 & K); try rewrite Hdim; auto.
    { split; auto. }
    rewrite Hdim in K. rewrite E1. cbn [obind fst snd].
    assert (Hk1 : kshaped N 3 k1) by (eapply krel_kshaped; eauto).
    destruct K as (K1 & K2 & K3 & K4).
    assert (L : length (k_off k1) = ns) by (rewrite <- L7; symmetry; eapply Forall2_len; eauto).
    destruct (@kinematic_all mg1 0 0 k1) as (mg2 & k2 & E2 & B1 & B2 & B3 & B5 & B4); auto.
    rewrite E2. cbn [obind fst snd]. eexists. split; [reflexivity|].
    cbn [us_mgr us_kin us_disps us_acc us_force us_ext us_forces us_time]. split; [|split; [auto|split]].
    - split; cbn [us_mgr us_kin us_disps us_acc us_force us_ext us_forces]; auto. split; auto.
    - intros n c Hn Hc. split; [now apply F3'|]. rewrite B5, K3. f_equal. cbn [fst snd]. now rewrite F1', F2' by auto.
    - intros j n c Hj Hn Hc. split; [now apply Fz|]. split; [now apply Fz|]. rewrite B4 by auto. f_equal.
      destruct (@Forall2_field' _ (k_off (us_kin st)) (k_off k1) j K4) as (_ & V); [unfold ns in *; lia|]. rewrite V. f_equal. now apply Fz.
  Qed.
End Moves.
