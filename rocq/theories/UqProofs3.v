(** Proofs about the trajectories of the samples. *)
From Coq Require Import NArith Reals Lra.
From Verif Require Import Base Strings InputModel InputSpec InputProofs InputProofs2 MeshTextModel Loops ListLemmas BcModel BcSpec BcProofs IntegratorModel IntegratorProofs UqModel UqSpec UqProofs UqProofs2.
Set Implicit Arguments.
Local Open Scope nat_scope.
Local Open Scope list_scope.
Local Notation length := List.length.

Lemma agree_sym N v w : agree N v w -> agree N w v.
Proof. intros (A & B & C). split; auto. split; auto. intros. symmetry. auto. Qed.
Lemma agree_trans N u v w : agree N u v -> agree N v w -> agree N u w.
Proof. intros (A & B & C) (_ & E & F). split; auto. split; auto. intros. now rewrite C, F. Qed.

Lemma axpy_shaped N v a w : shaped N 3 v -> shaped N 3 w ->
  exists x, view_axpy v a w = Ok x /\ shaped N 3 x /\ forall n c, v_at x n c = (v_at v n c + a * v_at w n c)%R.
Proof.
  intros (A1 & A2) (B1 & B2). unfold view_axpy. rewrite A1, A2, B1, B2, !Nat.eqb_refl. simpl.
  eexists. split; [reflexivity|]. split; [split; auto|]. intros n c. simpl. ring.
Qed.

Lemma Forall2_len {A B} (P : A -> B -> Prop) l l' : Forall2 P l l' -> length l = length l'.
Proof. induction 1; simpl; auto. Qed.

Section Follow.
  Variables (block_force : block_force_t) (reduce : view -> view) (N : nat) (mass : list R) (ref : view).
  Variables (u : uq_input) (q : uq_samples) (p : sample_params) (blocks : list Z) (mg0 : manager).
  Let ns := uq_nexact q + uq_napprox q.
  Hypothesis Hq : samples_ok (length (uq_order u)) q.
  Hypothesis Horder : forall b name, In (b, name) (uq_order u) -> assoc Z.eqb b (uq_nominal u) <> None.
  Hypothesis Hp : scale_parameters u q = Ok p.
  Hypothesis Hap : 0 < uq_napprox q.
  Hypothesis Hblocks : forall b, In b blocks -> assoc Z.eqb b (uq_nominal u) <> None.
  Hypothesis Hmass : length mass = N.
  Hypothesis Hbc : bc_input_ok mg0 N.
  Hypothesis Hdim : mg_dim mg0 = 3.
  Hypothesis Hsch : mg_scheme mg0 = EXPLICIT.
  Hypothesis Href : shaped N 3 ref.
  Hypothesis Hnodisp : forall b, In b (mg_bcs mg0) -> bc_kind b <> PRESCRIBED_DISPLACEMENT.
  Hypothesis Hforce : forall b m v, In b blocks -> shaped N 3 v -> succeeds (block_force b m v).
  Hypothesis Hsame : forall b nom v w n c, In b blocks -> assoc Z.eqb b (uq_nominal u) = Some nom -> agree N v w -> n < N -> c < 3 ->
    entry_of (block_force b None v) n c =
    entry_of (block_force b (Some (param nom (lit "bulk_modulus"), param nom (lit "shear_modulus"))) w) n c.
  Hypothesis Hreduce : forall v w, agree N v w -> agree N (reduce v) (reduce w).

  Lemma reduce_shaped v : shaped N 3 v -> shaped N 3 (reduce v).
  Proof. intros H. apply (@Hreduce v v). split; auto. Qed.

  Lemma params_ok b k : In b blocks -> k < ns -> succeeds (sample_parameters p b k).
  Proof.
    intros Hb Hk. destruct (@scale_ok u q Hq Horder) as (p' & E & Hs). rewrite Hp in E. injection E as <-.
    specialize (Hs b). pose proof (@Hblocks b Hb). destruct (assoc Z.eqb b (uq_nominal u)); [|congruence].
    destruct Hs as (rows & E1 & E2 & _). unfold sample_parameters. rewrite E1. fold ns in E2.
    exists (nth k rows []). apply (@vget_nth params). lia.
  Qed.
  Lemma moduli_nominal b k nom : In b blocks -> assoc Z.eqb b (uq_nominal u) = Some nom -> unperturbed_exact q k ->
    moduli p b k = Some (param nom (lit "bulk_modulus"), param nom (lit "shear_modulus")).
  Proof.
    intros Hb Hn (Hk & H0). destruct (@scale_ok u q Hq Horder) as (p' & E & Hs). rewrite Hp in E. injection E as <-.
    specialize (Hs b). rewrite Hn in Hs. destruct Hs as (rows & E1 & E2 & E3). fold ns in E2, E3.
    assert (Hkn : k < ns) by (unfold ns; lia).
    unfold moduli, sample_parameters. rewrite E1. rewrite (@vget_nth params [] rows k) by lia.
    assert (Hz : forall name, param (nth k rows []) name = param nom name).
    { intros name. rewrite E3 by auto. unfold partial_sum. rewrite Rsum_zero; [lra|]. intros i Hi. rewrite H0. destruct (names u i b name); ring. }
    now rewrite !Hz.
  Qed.

  (** agreement of the unperturbed samples with the nominal run *)
  Definition follows (f : view) (fs : list view) : Prop := forall j, unperturbed q j -> agree N (field fs j) f.
  Lemma unperturbed_lt j : unperturbed q j -> j < ns.
  Proof. unfold ns. intros [(H & _)|(s & -> & H & _)]; lia. Qed.

  Lemma force_follow disp disps force forces :
    shaped N 3 disp -> length disps = ns -> Forall (shaped N 3) disps -> shaped N 3 force -> length forces = ns -> Forall (shaped N 3) forces ->
    follows disp disps ->
    exists force' forces', uq_internal_force block_force reduce N q p blocks disp disps force forces = Ok (force', forces') /\
      shaped N 3 force' /\ length forces' = ns /\ Forall (shaped N 3) forces' /\ follows force' forces'.
  Proof.
    intros S1 L1 S2 S3 L2 S4 F.
    destruct (@force_ok block_force reduce N reduce_shaped q p (length (uq_order u)) Hq blocks disp disps L1) with (force := force) (forces := forces)
      as (total & totals & force' & forces' & E & T1 & T2 & T3 & A1 & A2 & A3 & A4 & A5 & A6); auto.
    - intros b k Hb Hk. apply params_ok; auto. unfold ns. lia.
    - intros b k Hb Hk. apply Hforce; auto. apply field_shaped; auto. rewrite L1. unfold ns. lia.
    - exists force', forces'. split; auto. split; auto. split; auto. split; auto.
      assert (Hex : forall k, unperturbed_exact q k -> agree N (field forces' k) force').
      { intros k Hk. pose proof Hk as (Hk1 & _). rewrite A5, A1 by auto. apply Hreduce. destruct (T3 k Hk1) as (T4 & T5). split; auto. split; auto.
        intros n c Hn Hc. rewrite T5, T2. unfold sum_over.
        assert (Hall : forall b, In b blocks -> entry_of (block_force b (moduli p b k) (field disps k)) n c = entry_of (block_force b None disp) n c).
        { intros b Hb. destruct (assoc Z.eqb b (uq_nominal u)) as [nom|] eqn:En; [|exfalso; now apply (@Hblocks b Hb)].
          rewrite (@moduli_nominal b k nom Hb En Hk). symmetry. apply Hsame; auto. apply agree_sym. apply F. now left. }
        clear - Hall. induction blocks as [|b l IH]; simpl; auto. rewrite Hall by now left. f_equal. apply IH. intros b' Hb'. apply Hall. now right. }
      intros j [Hj|(s & -> & Hs & Hw & Hk)]; auto.
      split; [apply field_shaped; auto; rewrite A3; unfold ns; lia|]. split; auto. intros n c Hn Hc.
      rewrite A6 by auto. unfold combination. set (x := v_at force' n c). set (w := row (uq_coeffs q) s) in *.
      rewrite (@Rsum_ext _ _ (fun k => x * at_ w (k + 1))%R).
      + rewrite Rsum_scal. transitivity (x * (at_ w 0 + Rsum (uq_nexact q) (fun k => at_ w (k + 1))))%R; [ring|]. rewrite Hw. ring.
      + intros k Hkn. destruct (Hk k Hkn) as [Hz|Hz].
        * rewrite Hz. ring.
        * destruct (Hex k Hz) as (_ & _ & Hv). rewrite Hv by auto. reflexivity.
  Qed.

  (** kicks *)
  Lemma kick_sample_ok h ext f v : shaped N 3 ext -> shaped N 3 f -> shaped N 3 v ->
    exists v', kick_sample N mass h ext f v = Ok v' /\ shaped N 3 v' /\
      forall n c, n < N -> c < 3 -> v_at v' n c = (v_at v n c + h * ((1 / nth n mass 0) * (v_at f n c + v_at ext n c)))%R.
  Proof.
    intros S1 S2 S3. unfold kick_sample.
    apply (@grid_loop N (fun n c v =>
      do m <- vget mass n;
      do x <- view_get f n c;
      do e <- view_get ext n c;
      do cur <- view_get v n c;
      view_set v n c (cur + h * ((1 / m) * (x + e)))%R)
      (fun n c old => (old + h * ((1 / nth n mass 0) * (v_at f n c + v_at ext n c)))%R) v); auto.
    intros n c w Hn Hc Sw Ew. rewrite (@vget_nth _ 0%R) by lia. cbn [obind]. rewrite (view_get_ok S2) by auto. cbn [obind].
    rewrite (view_get_ok S1) by auto. cbn [obind]. rewrite (view_get_ok Sw) by auto. cbn [obind]. rewrite Ew.
    apply set_point; auto.
  Qed.
  Lemma acceleration_ok force ext acc : shaped N 3 force -> shaped N 3 ext -> shaped N 3 acc ->
    exists acc', uq_acceleration N mass force ext acc = Ok acc' /\ shaped N 3 acc' /\
      forall n c, n < N -> c < 3 -> v_at acc' n c = ((1 / nth n mass 0) * (v_at force n c + v_at ext n c))%R.
  Proof.
    intros S1 S2 S3. unfold uq_acceleration.
    apply (@grid_loop N (fun n c acc =>
      do m <- vget mass n; do x <- view_get force n c; do e <- view_get ext n c;
      view_set acc n c ((1 / m) * (x + e))%R)
      (fun n c _ => ((1 / nth n mass 0) * (v_at force n c + v_at ext n c))%R) acc); auto.
    intros n c w Hn Hc Sw _. rewrite (@vget_nth _ 0%R) by lia. cbn [obind]. rewrite (view_get_ok S1) by auto. cbn [obind].
    rewrite (view_get_ok S2) by auto. cbn [obind]. apply set_point; auto.
  Qed.

  (** a loop over the samples that works on each one by itself *)
  Lemma sample_loop (op : nat -> view -> outcome view) (R : nat -> view -> view -> Prop) l0 body :
    (forall i l, body i l = do v <- vget l i; do v' <- op i v; vset l i v') ->
    length l0 = ns -> (forall i v, i < ns -> v = field l0 i -> exists v', op i v = Ok v' /\ R i v v') ->
    exists l', oloop 0 ns body l0 = Ok l' /\ length l' = ns /\ forall i, i < ns -> R i (field l0 i) (field l' i).
  Proof.
    intros Hb Hl Hop.
    destruct (@oloop_ind _ (fun k l => length l = ns /\ (forall i, i < k -> R i (field l0 i) (field l i)) /\ forall i, k <= i -> field l i = field l0 i)
      0 ns body l0) as (l' & E & H1 & H2 & _); [lia| | |eauto].
    - split; auto. split; auto. intros; lia.
    - intros k l Hk (L & A & B). rewrite Hb. rewrite (@vget_nth _ no_view) by lia. cbn [obind].
      fold (field l k). rewrite B by lia. destruct (Hop k _ (proj2 Hk) eq_refl) as (v' & Ev & Hv). rewrite Ev. cbn [obind].
      rewrite vset_ok by lia. eexists. split; [reflexivity|]. split; [now rewrite list_set_length|]. unfold field in *. split.
      + intros i Hi. rewrite nth_list_set by lia. destruct (Nat.eqb_spec i k) as [->|Hne]; auto. apply A. lia.
      + intros i Hi. rewrite nth_list_set by lia. destruct (Nat.eqb_spec i k) as [->|Hne]; [lia|]. apply B. lia.
  Qed.

  (** velocities after a kick *)
  Lemma kick_follow h acc ext force forces vel vels :
    shaped N 3 acc -> shaped N 3 ext -> shaped N 3 force -> shaped N 3 vel ->
    length forces = ns -> Forall (shaped N 3) forces -> length vels = ns -> Forall (shaped N 3) vels ->
    (forall n c, n < N -> c < 3 -> v_at acc n c = ((1 / nth n mass 0) * (v_at force n c + v_at ext n c))%R) ->
    follows force forces -> follows vel vels ->
    exists vel' vels', view_axpy vel h acc = Ok vel' /\ update_with_new_velocity N mass q h ext forces vels = Ok vels' /\
      shaped N 3 vel' /\ length vels' = ns /\ Forall (shaped N 3) vels' /\ follows vel' vels'.
  Proof.
    intros S1 S2 S3 S4 L1 S5 L2 S6 Hacc Ff Fv.
    destruct (axpy_shaped h S4 S1) as (vel' & E1 & T1 & V1).
    destruct (@sample_loop (fun s v => do f <- vget forces s; kick_sample N mass h ext f v)
      (fun s v v' => shaped N 3 v' /\ forall n c, n < N -> c < 3 -> v_at v' n c = (v_at v n c + h * ((1 / nth n mass 0) * (v_at (field forces s) n c + v_at ext n c)))%R)
      vels (fun s vels => do f <- vget forces s; do v <- vget vels s; do v' <- kick_sample N mass h ext f v; vset vels s v')) as (vels' & E2 & L3 & V2); auto.
    - intros i l. unfold vget at 1 3. unfold vget. destruct (nth_error forces i), (nth_error l i); reflexivity.
    - intros i v Hi ->. rewrite (@vget_nth _ no_view) by lia. cbn [obind]. apply kick_sample_ok; auto; apply field_shaped; auto; lia.
    - exists vel', vels'. split; auto. split; auto. split; auto. split; auto. split.
      + apply (Forall_nth_intro _ no_view). intros i Hi. apply V2. lia.
      + intros j Hj. pose proof (unperturbed_lt Hj) as Hlt. destruct (V2 j Hlt) as (T2 & V3). split; auto. split; auto. intros n c Hn Hc.
        rewrite V3, V1, Hacc by auto. destruct (Ff j Hj) as (_ & _ & Hf). destruct (Fv j Hj) as (_ & _ & Hv). now rewrite Hf, Hv.
  Qed.
  Lemma drift_follow h disp disps vel vels :
    shaped N 3 disp -> shaped N 3 vel -> length disps = ns -> Forall (shaped N 3) disps -> length vels = ns -> Forall (shaped N 3) vels ->
    follows disp disps -> follows vel vels ->
    exists disp' disps', view_axpy disp h vel = Ok disp' /\ update_with_new_displacement q h vels disps = Ok disps' /\
      shaped N 3 disp' /\ length disps' = ns /\ Forall (shaped N 3) disps' /\ follows disp' disps'.
  Proof.
    intros S1 S2 L1 S3 L2 S4 Fd Fv. destruct (axpy_shaped h S1 S2) as (d' & E1 & T1 & V1).
    destruct (@sample_loop (fun s u => do v <- vget vels s; view_axpy u h v)
      (fun s u u' => shaped N 3 u' /\ forall n c, v_at u' n c = (v_at u n c + h * v_at (field vels s) n c)%R)
      disps (fun s disps => do u <- vget disps s; do v <- vget vels s; do u' <- view_axpy u h v; vset disps s u')) as (ds' & E2 & L3 & V2); auto.
    - intros i l. destruct (vget l i); cbn [obind]; auto. destruct (vget vels i); reflexivity.
    - intros i v Hi ->. rewrite (@vget_nth _ no_view) by lia. cbn [obind].
      apply axpy_shaped; apply field_shaped; auto; lia.
    - exists d', ds'. split; auto. split; auto. split; auto. split; auto. split.
      + apply (Forall_nth_intro _ no_view). intros i Hi. apply V2. lia.
      + intros j Hj. pose proof (unperturbed_lt Hj) as Hlt. destruct (V2 j Hlt) as (T2 & V3). split; auto. split; auto. intros n c Hn Hc.
        rewrite V3, V1. destruct (Fd j Hj) as (_ & _ & Hf). destruct (Fv j Hj) as (_ & _ & Hv). now rewrite Hf, Hv.
  Qed.

  (** boundary conditions *)
  Lemma effects_agree mg dt t n c l d v : mg_scheme mg = EXPLICIT -> (forall b, In b l -> bc_kind b <> PRESCRIBED_DISPLACEMENT) ->
    fold_left (entry_effect mg dt t ref n c) l (d, v) = (d, fold_left (off_effect mg t ref n c) l v).
  Proof.
    intros Hs. revert v. induction l as [|b l IH]; intros v Hl; cbn [fold_left]; auto.
    assert (E : entry_effect mg dt t ref n c (d, v) b = (d, off_effect mg t ref n c v b)).
    { unfold entry_effect, off_effect. destruct (covers mg b n c); auto. pose proof (Hl b (or_introl eq_refl)).
      destruct (bc_kind b); auto; try congruence. now rewrite Hs. }
    rewrite E. apply IH. intros b' Hb'. apply Hl. now right.
  Qed.
  Lemma Forall2_field {P : view -> view -> Prop} l l' j : Forall2 P l l' -> j < length l -> P (field l j) (field l' j).
  Proof.
    intros H. revert j. induction H; intros j Hj; simpl in Hj; [lia|]. destruct j; simpl; auto. apply IHForall2. lia.
  Qed.
  Lemma follow_map (F : nat -> nat -> R -> R) v v' vs vs' : vrel N 3 F v v' -> Forall2 (vrel N 3 F) vs vs' -> length vs = ns ->
    follows v vs -> follows v' vs'.
  Proof.
    intros (S1 & V1) H2 Hl F0 j Hj. pose proof (unperturbed_lt Hj) as Hlt.
    destruct (@Forall2_field _ vs vs' j H2) as (S2 & V2); [lia|]. split; auto. split; auto. intros n c Hn Hc.
    rewrite V1, V2. destruct (F0 j Hj) as (_ & _ & E). now rewrite E.
  Qed.
  Lemma kinematic_follow mg t t0 k : same_mgr mg0 mg -> kshaped N 3 k -> length (k_off k) = ns -> follows (k_vel k) (k_off k) ->
    exists mg' k', apply_kinematic mg t t0 ref k = Ok (mg', k') /\ same_mgr mg0 mg' /\ kshaped N 3 k' /\ length (k_off k') = ns /\
      follows (k_vel k') (k_off k') /\ agree N (k_disp k') (k_disp k).
  Proof.
    intros Hm Hk Hl F. pose proof Hm as (B1 & B2 & B3 & _).
    assert (Hd : mg_dim mg = 3) by congruence.
    destruct (@apply_kinematic_ok mg N ref (t - t0)%R t (input_same Hm Hbc)) with (s := k) (t0 := t0) as (mg' & k' & E & M & _ & K);
      try rewrite Hd; auto. rewrite Hd in K.
    exists mg', k'. split; auto. split; [eapply same_trans; eauto|]. split; [eapply krel_kshaped; eauto|].
    destruct K as (K1 & K2 & K3 & K4). destruct Hk as (Hk1 & Hk2 & Hk3).
    assert (Hbcs : forall b, In b (mg_bcs mg) -> bc_kind b <> PRESCRIBED_DISPLACEMENT) by (rewrite B1; auto).
    assert (Hs : mg_scheme mg = EXPLICIT) by congruence.
    split; [rewrite <- Hl; symmetry; eapply Forall2_len; eauto|]. split.
    - eapply follow_map; [|exact K4|auto|exact F]. split; auto. intros n c. specialize (K3 n c).
      rewrite (@effects_agree mg (t - t0)%R t n c _ _ _ Hs Hbcs) in K3. now injection K3.
    - split; auto. split; auto. intros n c Hn Hc. specialize (K3 n c).
      rewrite (@effects_agree mg (t - t0)%R t n c _ _ _ Hs Hbcs) in K3. now injection K3.
  Qed.

  Record inv (st : uq_state) : Prop := {
    in_mgr : same_mgr mg0 (us_mgr st);
    in_kin : kshaped N 3 (us_kin st);
    in_vels : length (k_off (us_kin st)) = ns;
    in_disps : length (us_disps st) = ns; in_disps' : Forall (shaped N 3) (us_disps st);
    in_acc : shaped N 3 (us_acc st); in_force : shaped N 3 (us_force st); in_ext : shaped N 3 (us_ext st);
    in_forces : length (us_forces st) = ns; in_forces' : Forall (shaped N 3) (us_forces st);
    in_newton : forall n c, n < N -> c < 3 -> v_at (us_acc st) n c = ((1 / nth n mass 0) * (v_at (us_force st) n c + v_at (us_ext st) n c))%R;
    in_d : follows (k_disp (us_kin st)) (us_disps st);
    in_v : follows (k_vel (us_kin st)) (k_off (us_kin st));
    in_f : follows (us_force st) (us_forces st) }.

  Lemma follows_agree f g fs : follows f fs -> agree N g f -> follows g fs.
  Proof. intros F A j Hj. eapply agree_trans; [apply F; auto|now apply agree_sym]. Qed.

  Lemma step_follow dt st : inv st -> exists st', uq_step block_force reduce N mass q p blocks ref dt st = Ok st' /\ inv st'.
  Proof.
    intros [I1 (K1 & K2 & K3) I3 I4 I5 I6 I7 I8 I9 I10 I11 I12 I13 I14]. unfold uq_step.
    destruct (@kick_follow (1 / 2 * dt) (us_acc st) (us_ext st) (us_force st) (us_forces st) (k_vel (us_kin st)) (k_off (us_kin st)))
      as (v & vs & E1 & E2 & A1 & A2 & A3 & A4); auto.
    rewrite E1. cbn [obind]. rewrite E2. cbn [obind].
    destruct (@kinematic_follow (us_mgr st) (us_time st + dt) (us_time st) (Kin (k_disp (us_kin st)) v vs)) as (mg1 & k1 & E3 & B1 & B2 & B3 & B4 & B5); auto.
    { split; auto. }
    rewrite E3. cbn [obind fst snd]. destruct B2 as (B2a & B2b & B2c).
    assert (Fd : follows (k_disp k1) (us_disps st)) by (eapply follows_agree; eauto).
    destruct (@drift_follow dt (k_disp k1) (us_disps st) (k_vel k1) (k_off k1)) as (d & ds & E4 & E5 & C1 & C2 & C3 & C4); auto.
    rewrite E4. cbn [obind]. rewrite E5. cbn [obind].
    destruct (@kinematic_follow mg1 (us_time st + dt) (us_time st) (Kin d (k_vel k1) (k_off k1))) as (mg2 & k2 & E6 & D1 & D2 & D3 & D4 & D5); auto.
    { split; auto. }
    rewrite E6. cbn [obind fst snd]. destruct D2 as (D2a & D2b & D2c). cbn [k_disp] in D5.
    assert (Fd2 : follows (k_disp k2) ds) by (eapply follows_agree; eauto).
    destruct (@force_follow (k_disp k2) ds (us_force st) (us_forces st)) as (f & fs & E7 & F1 & F2 & F3 & F4); auto.
    rewrite E7. cbn [obind fst snd].
    destruct (@acceleration_ok f (view_zero (us_ext st)) (us_acc st)) as (acc & E8 & G1 & G2); auto.
    rewrite E8. cbn [obind].
    destruct (@kick_follow (1 / 2 * dt) acc (view_zero (us_ext st)) f fs (k_vel k2) (k_off k2))
      as (v2 & vs2 & E9 & E10 & H1 & H2 & H3 & H4); auto.
    rewrite E9. cbn [obind]. rewrite E10. cbn [obind]. eexists. split; [reflexivity|].
    split; cbn [us_mgr us_kin us_disps us_acc us_force us_ext us_forces k_disp k_vel k_off]; auto.
    split; auto.
  Qed.

  Lemma start_follow st : us_mgr st = mg0 -> fresh N ns st -> exists st', uq_start ref st = Ok st' /\ inv st'.
  Proof.
    intros Em [(F1 & F1') (F2 & F2') (F3 & F3') (F4 & F4') (F5 & F5') (L6 & F6) (L7 & F7) (L8 & F8)]. unfold uq_start. rewrite Em.
    assert (Sh : forall l, Forall (blank_field N) l -> Forall (shaped N 3) l) by (intros l Hl; eapply Forall_impl; [|exact Hl]; intros v (H & _); auto).
    assert (Fo : forall v l, blank_field N v -> length l = ns -> Forall (blank_field N) l -> follows v l).
    { intros v l (H1 & H2) Hl Hf j Hj. pose proof (unperturbed_lt Hj). assert (blank_field N (field l j)) as (H3 & H4) by (unfold field; apply (@nth_in_forall view (blank_field N) no_view l j Hf); lia).
      split; auto. split; auto. intros. now rewrite H2, H4. }
    destruct (@apply_initial_ok mg0 N ref Hbc) with (s := us_kin st) as (mg1 & k1 & E1 & M1 & K); try rewrite Hdim; auto.
    { split; auto. }
    rewrite Hdim in K. rewrite E1. cbn [obind fst snd].
    assert (Hk1 : kshaped N 3 k1) by (eapply krel_kshaped; eauto).
    destruct K as (K1 & K2 & K3 & K4).
    destruct (@kinematic_follow mg1 0 0 k1) as (mg2 & k2 & E2 & B1 & B2 & B3 & B4 & B5); auto.
    { rewrite <- L7. symmetry. eapply Forall2_len; eauto. }
    { apply (@follow_map _ (k_vel (us_kin st)) (k_vel k1) (k_off (us_kin st)) (k_off k1)) with (2 := K4); auto.
      - split; auto. intros n c. specialize (K3 n c). now injection K3.
      - apply Fo; auto. split; auto. }
    rewrite E2. cbn [obind fst snd]. eexists. split; [reflexivity|].
    split; cbn [us_mgr us_kin us_disps us_acc us_force us_ext us_forces]; auto.
    - intros n c Hn Hc. rewrite F3', F4', F5' by auto. ring.
    - apply follows_agree with (f := k_disp k1); auto. apply follows_agree with (f := k_disp (us_kin st)).
      + apply Fo; auto. split; auto.
      + split; auto. split; auto. intros n c Hn Hc. specialize (K3 n c). now injection K3.
    - apply Fo; auto. split; auto.
  Qed.

  Lemma run_follow n dt st : us_mgr st = mg0 -> fresh N ns st ->
    exists st', uq_run block_force reduce N mass q p blocks ref n dt st = Ok st' /\ inv st'.
  Proof.
    intros Em Hf. unfold uq_run. destruct (start_follow Em Hf) as (s & E & Hs). rewrite E. cbn [obind].
    apply (@oloop_ind _ (fun _ s => inv s) 0 n (fun _ s => uq_step block_force reduce N mass q p blocks ref dt s)); auto; [lia|].
    intros k s1 _ Hi. apply step_follow; auto.
  Qed.
End Follow.
