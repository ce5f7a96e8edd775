(** C83: an explicit run gives the same motion on every distribution of the mesh. *)
From Coq Require Import Reals Lra Permutation.
From Verif Require Import Base Loops ListLemmas TensorModel TensorSpec ElementSpec TensorProofs PolarProofs ElementProofs ElementProofs2 ElementProofs3 ElementProofs4 ElementProofs5.
From Verif Require Import BcModel BcSpec BcProofs IntegratorModel IntegratorSpec IntegratorProofs IntegratorProofs2.
From Verif Require Import MpiModel MpiSpec MpiFinal PropElement ParModel PropPar ParRunModel.
Set Implicit Arguments.
Local Open Scope R_scope.

(** * The motion of the undistributed mesh *)
(** displacement, velocity, acceleration and internal force by global node id and component *)
Record fields := Fields { fd : Z -> nat -> R; fv : Z -> nat -> R; fa : Z -> nat -> R; ff : Z -> nat -> R }.
Section Motion.
  Variable X : Z -> nat -> R.            (* reference positions *)
  Variable es : list gelem.              (* elements *)
  Variable dk : deck.
  Variable bcs : list bc.                (* boundary and initial conditions, in the order of the input *)
  Variable sets : Z -> Z -> bool.        (* node set id, node id *)
  Definition node_mass (g : Z) : R := Sum es (fun E => share E g (nodal_mass (ge_density E) (pos X E))).
  Definition dt : R := (dk_final dk - dk_initial dk) / IZR (dk_load_steps dk).
  Definition time_of (k : nat) : R := dk_initial dk + INR k * dt.
  Definition value_of (t : R) (g : Z) (b : bc) : R :=
    match bc_val b with Magnitude m => m | Expression f => f (X g 0%nat) (X g 1%nat) (X g 2%nat) t end.
  Definition hits (b : bc) (g : Z) (c : nat) : bool := (bc_coord b =? c)%nat && sets (bc_node_set b) g.
  (** the velocity v of a node with displacement d after the boundary conditions at time t, step h *)
  Definition prescribed (h t : R) (g : Z) (c : nat) (d v : R) : R :=
    fold_left (fun v b => if hits b g c then
        match bc_kind b with
        | PRESCRIBED_VELOCITY => value_of t g b
        | PRESCRIBED_DISPLACEMENT => if Rlt_dec 0 h then (value_of t g b - d) / h else v
        | _ => v end else v) bcs v.
  Definition initial (g : Z) (c : nat) (v : R) : R :=
    fold_left (fun v b => if hits b g c then match bc_kind b with INITIAL_VELOCITY => value_of 0 g b | _ => v end else v) bcs v.
  Definition recorded (k : nat) : bool :=
    negb (Z.eqb (dk_frequency dk) 0) && (Z.eqb (Z.of_nat k mod dk_frequency dk) 0 || (k + 1 =? Z.to_nat (dk_load_steps dk))%nat).
  (** [V0]: the velocities when the run is started *)
  Record motion (V0 : Z -> nat -> R) (T : nat -> fields) : Prop := {
    mo_start : forall g c, fv (T 0%nat) g c = prescribed 0 0 g c (fd (T 0%nat) g c) (initial g c (V0 g c));
    mo_rest : forall g c, fa (T 0%nat) g c = 0;
    mo_step : forall k, (k < Z.to_nat (dk_load_steps dk))%nat ->
      let s := T k in let s' := T (k + 1)%nat in let t := time_of (k + 1) in
      let v2 := fun g c => prescribed dt t g c (fd s g c) (fv s g c + dt / 2 * fa s g c) in
      let v4 := fun g c => prescribed dt t g c (fd s' g c) (v2 g c) + dt / 2 * fa s' g c in
      (forall g c, fd s' g c = fd s g c + dt * v2 g c) /\
      (forall E, In E es -> well_shaped (pos (fun g i => X g i + fd s' g i) E)) /\
      (exists fo, (forall E, In E es -> is_force X (fd s') E (fo E)) /\
         forall g c, ff s' g c = Sum es (fun E => share E g (fun n => fo E n c))) /\
      (forall g c, fa s' g c = ff s' g c / node_mass g) /\
      (forall g c, fv s' g c = if recorded k then prescribed dt t g c (fd s' g c) (v4 g c) else v4 g c) }.

  (** * A rank at the start of the run *)
  Record starts_from (V0 : Z -> nat -> R) (s0 : fields) (rk : hrank) (st : istate unit) : Prop := {
    sf_ok : forall cfg, length (rc_mass cfg) = length (hr_ids rk) -> start_ok (length (hr_ids rk)) cfg st;
    sf_bcs : mg_bcs (i_mgr st) = bcs;
    sf_sets : forall id i g, nth_error (hr_ids rk) i = Some g -> (In i (node_set (i_mgr st) id) <-> sets id g = true);
    sf_ref : forall i g c, nth_error (hr_ids rk) i = Some g -> (c < 3)%nat -> v_at (i_ref st) i c = X g c;
    sf_disp : forall i g c, nth_error (hr_ids rk) i = Some g -> (c < 3)%nat -> v_at (k_disp (i_kin st)) i c = fd s0 g c;
    sf_vel : forall i g c, nth_error (hr_ids rk) i = Some g -> (c < 3)%nat -> v_at (k_vel (i_kin st)) i c = V0 g c;
    sf_int : forall i g c, nth_error (hr_ids rk) i = Some g -> (c < 3)%nat -> v_at (i_int st) i c = ff s0 g c }.

  (** * A record of a rank shows the motion after k steps at all its nodes *)
  Definition shows (T : nat -> fields) (rk : hrank) (k : nat) (w : written) : Prop :=
    w_time w = time_of k /\
    forall i g c, nth_error (hr_ids rk) i = Some g -> (c < 3)%nat ->
      v_at (w_disp w) i c = fd (T k) g c /\ v_at (w_vel w) i c = fv (T k) g c /\ v_at (w_acc w) i c = fa (T k) g c /\ v_at (w_int w) i c = ff (T k) g c.
  (** the steps after which results are written *)
  Definition when_written (n : nat) : list nat := 0%nat :: map (fun k => (k + 1)%nat) (filter recorded (seq 0 n)).
End Motion.

(** * Proofs *)
Lemma explicit_split cfg N k st f : explicit_step (received f) cfg N k st = (do s4 <- step_head cfg st; step_tail cfg N k st f s4).
Proof.
  unfold explicit_step, step_head, step_tail. destruct (kick _ _) as [s1| | |]; cbn [obind]; auto.
  destruct (kinematic_conditions _ _ s1) as [s2| | |]; cbn [obind]; auto. destruct (drift _ s2) as [s3| | |]; cbn [obind]; auto.
Qed.
Lemma head_ok cfg N mg0 ref : bc_input_ok mg0 N -> mg_dim mg0 = 3%nat -> mg_scheme mg0 = EXPLICIT -> shaped N 3 ref -> forall st, good N mg0 ref st ->
  exists s4, step_head cfg st = Ok s4 /\
   k_disp (i_kin s4) = axv N (k_disp (i_kin st)) (user_step cfg) (bcv N mg0 ref (user_step cfg) (i_time st + user_step cfg) (k_disp (i_kin st)) (axv N (k_vel (i_kin st)) (user_step cfg / 2) (i_acc st))).
Proof.
  intros Hbc Hdim Hsch Href st G. unfold step_head.
  replace (i_time st + user_step cfg - i_time st)%R with (user_step cfg) by ring.
  replace (1 / 2 * user_step cfg)%R with (user_step cfg / 2)%R by field.
  unfold kick at 1. cbn [set_time i_kin i_acc]. rewrite (@axpy_ok N _ (user_step cfg / 2) _ (g_vel G) (g_acc G)). cbn [obind].
  match goal with |- context [kinematic_conditions ?t ?t0 ?s] => assert (G1 : good N mg0 ref s) by (destruct G; split; simpl; auto; split; reflexivity);
    destruct (@kc_ok _ N mg0 ref Hbc Hdim Hsch Href s t t0 G1) as (mg2 & M2 & E2) end.
  rewrite E2. cbn [obind]. clear E2 G1.
  replace (i_time st + user_step cfg - i_time st)%R with (user_step cfg) by ring.
  unfold drift at 1. cbn [i_kin i_acc k_disp k_vel set_time i_int i_ext i_con i_old i_new i_time i_out].
  rewrite (@axpy_ok N (k_disp (i_kin st)) (user_step cfg) _ (g_disp G)) by (split; reflexivity). cbn [obind k_off].
  match goal with |- context [kinematic_conditions ?t ?t0 ?s] => assert (G1 : good N mg0 ref s) by (destruct G; split; simpl; auto; split; reflexivity);
    destruct (@kc_ok _ N mg0 ref Hbc Hdim Hsch Href s t t0 G1) as (mg3 & M3 & E2) end.
  rewrite E2. eexists. split; reflexivity.
Qed.

Section Run.
  Variable X : Z -> nat -> R.
  Variable es : list gelem.
  Variable dk : deck.
  Variable bcs : list bc.
  Variable sets : Z -> Z -> bool.
  Variable V0 : Z -> nat -> R.
  Variable T : nat -> fields.
  Hypothesis HM : motion X es dk bcs sets V0 T.
  Hypothesis HE : forall E, In E es -> law E /\ well_shaped (pos X E).
  Notation h := (dt dk).
  Notation tm := (time_of dk).

  Lemma covers_hits rk st b i g c : starts_from X bcs sets V0 (T 0) rk st -> nth_error (hr_ids rk) i = Some g -> covers (i_mgr st) b i c = hits sets b g c.
  Proof.
    intros SF Hi. unfold covers, hits. f_equal. apply eq_true_iff_eq. rewrite existsb_exists. rewrite <- (sf_sets SF (bc_node_set b) i Hi). split.
    - intros (x & Hx & E). apply Nat.eqb_eq in E. now subst.
    - intros H. exists i. split; auto. apply Nat.eqb_refl.
  Qed.
  Lemma value_same rk st t b i g : starts_from X bcs sets V0 (T 0) rk st -> nth_error (hr_ids rk) i = Some g -> value_at (i_mgr st) (i_ref st) t i b = value_of X t g b.
  Proof.
    intros SF Hi. unfold value_at, value_of. destruct (bc_val b) as [m|f]; auto.
    rewrite (so_dim (sf_ok SF (Config 0 0 0 0%Z 0%Z (map (fun _ => 0) (hr_ids rk))) (map_length _ _))). cbn [Nat.eqb].
    now rewrite !(sf_ref SF i Hi) by lia.
  Qed.
  Lemma bcv_same rk st N d t (dv vv : view) i g c : starts_from X bcs sets V0 (T 0) rk st -> nth_error (hr_ids rk) i = Some g ->
    v_at (bcv N (i_mgr st) (i_ref st) d t dv vv) i c = prescribed X bcs sets d t g c (v_at dv i c) (v_at vv i c).
  Proof.
    intros SF Hi. unfold bcv. cbn [v_at]. rewrite (sf_bcs SF). unfold prescribed.
    pose proof (so_scheme (sf_ok SF (Config 0 0 0 0%Z 0%Z (map (fun _ => 0) (hr_ids rk))) (map_length _ _))) as Hs.
    generalize (v_at vv i c) as v. generalize (v_at dv i c) as d0.
    assert (G : forall l d0 v, snd (fold_left (entry_effect (i_mgr st) d t (i_ref st) i c) l (d0, v)) =
      fold_left (fun v b => if hits sets b g c then match bc_kind b with PRESCRIBED_VELOCITY => value_of X t g b
        | PRESCRIBED_DISPLACEMENT => if Rlt_dec 0 d then (value_of X t g b - d0) / d else v | _ => v end else v) l v).
    { induction l as [|b l IH]; intros d0 v; cbn [fold_left]; auto. unfold entry_effect at 2. rewrite Hs. cbn [quasistatic_scheme].
      rewrite (@covers_hits rk st b i g c SF Hi), (@value_same rk st t b i g SF Hi).
      destruct (hits sets b g c); [|apply IH]. destruct (bc_kind b); try apply IH. destruct (Rlt_dec 0 d); apply IH. }
    intros d0 v. apply G.
  Qed.
  Lemma init_same rk st i g c v : starts_from X bcs sets V0 (T 0) rk st -> nth_error (hr_ids rk) i = Some g ->
    fold_left (init_effect (i_mgr st) (i_ref st) i c) (mg_bcs (i_mgr st)) v = initial X bcs sets g c v.
  Proof.
    intros SF Hi. rewrite (sf_bcs SF). unfold initial. apply fold_left_ext. intros x b. unfold init_effect.
    now rewrite (@covers_hits rk st b i g c SF Hi), (@value_same rk st 0 b i g SF Hi).
  Qed.

  (** a rank after k steps *)
  Definition agrees (k : nat) (rk : hrank) (s : istate unit) : Prop :=
    forall i g c, nth_error (hr_ids rk) i = Some g -> (c < 3)%nat ->
      v_at (k_disp (i_kin s)) i c = fd (T k) g c /\ v_at (k_vel (i_kin s)) i c = fv (T k) g c /\ v_at (i_acc s) i c = fa (T k) g c /\ v_at (i_int s) i c = ff (T k) g c.
  Definition cfg_ok (rk : hrank) (cfg : run_config) : Prop :=
    rc_initial cfg = dk_initial dk /\ rc_final cfg = dk_final dk /\ rc_load_steps cfg = dk_load_steps dk /\ rc_frequency cfg = dk_frequency dk /\
    length (rc_mass cfg) = length (hr_ids rk) /\ forall i g, nth_error (hr_ids rk) i = Some g -> mass_of cfg i = node_mass X es g.
  Definition inv (k : nat) (p : proc) : Prop :=
    exists st0, starts_from X bcs sets V0 (T 0) (p_rank p) st0 /\ cfg_ok (p_rank p) (p_cfg p) /\
      good (length (hr_ids (p_rank p))) (i_mgr st0) (i_ref st0) (p_state p) /\
      i_time (p_state p) = tm k /\ agrees k (p_rank p) (p_state p) /\
      Forall2 (shows dk T (p_rank p)) (when_written dk k) (i_out (p_state p)).
  Lemma user_dt rk cfg : cfg_ok rk cfg -> user_step cfg = h.
  Proof. intros (E1 & E2 & E3 & _). unfold user_step, dt. now rewrite E1, E2, E3. Qed.
  Lemma written_same rk cfg k : cfg_ok rk cfg -> (k < Z.to_nat (dk_load_steps dk))%nat -> is_output cfg k = recorded dk k.
  Proof. intros (E1 & E2 & E3 & E4 & _) Hk. rewrite is_output_wanted; unfold wanted, recorded, steps; rewrite ?E3, ?E4; auto. Qed.
  Lemma time_next k : tm k + h = tm (k + 1).
  Proof. unfold time_of. rewrite plus_INR. cbn [INR]. ring. Qed.
  Lemma start_of p st0 : starts_from X bcs sets V0 (T 0) (p_rank p) st0 -> cfg_ok (p_rank p) (p_cfg p) -> start_ok (length (hr_ids (p_rank p))) (p_cfg p) st0.
  Proof. intros SF (_ & _ & _ & _ & L & _). exact (sf_ok SF (p_cfg p) L). Qed.
  Lemma head_inv k p : inv k p -> (k < Z.to_nat (dk_load_steps dk))%nat ->
    exists s4, step_head (p_cfg p) (p_state p) = Ok s4 /\
      (forall i g c, nth_error (hr_ids (p_rank p)) i = Some g -> (c < 3)%nat -> v_at (k_disp (i_kin s4)) i c = fd (T (k + 1)) g c) /\
      forall f, (forall i g c, nth_error (hr_ids (p_rank p)) i = Some g -> (c < 3)%nat -> f i c = ff (T (k + 1)) g c) ->
        exists st', step_tail (p_cfg p) (length (hr_ids (p_rank p))) k (p_state p) f s4 = Ok st' /\ inv (k + 1) (Proc (p_rank p) (p_cfg p) st').
  Proof.
    intros (st0 & SF & C & G & Ht & A & W) Hk. pose proof (start_of _ SF C) as S0. pose proof (user_dt C) as Eh.
    destruct (mo_step HM Hk) as (Md & _ & _ & Ma & Mv). cbv zeta in Md, Ma, Mv.
    destruct (@head_ok (p_cfg p) _ _ _ (so_bc S0) (so_dim S0) (so_scheme S0) (so_ref S0) _ G) as (s4 & E4 & D4).
    assert (Dn : forall i g c, nth_error (hr_ids (p_rank p)) i = Some g -> (c < 3)%nat -> v_at (k_disp (i_kin s4)) i c = fd (T (k + 1)) g c).
    { intros i g c Hi Hc. destruct (A i g c Hi Hc) as (A1 & A2 & A3 & A4). rewrite D4. unfold axv. cbn [v_at]. rewrite (@bcv_same (p_rank p) st0 _ _ _ _ _ i g c SF Hi). cbn [v_at].
      rewrite Eh, Ht, time_next, A1, A2, A3, Md. reflexivity. }
    exists s4. split; [exact E4|]. split; [exact Dn|]. intros f Hf.
    destruct C as (C1 & C2 & C3 & C4 & C5 & C6). pose proof (conj C1 (conj C2 (conj C3 (conj C4 (conj C5 C6))))) as C.
    destruct (@step_ok unit (received f) (p_cfg p) _ _ _ (so_bc S0) (so_dim S0) (so_scheme S0) (so_ref S0) C5 k (p_state p) tt f None G) as (st' & E' & SE); [reflexivity|exact I|].
    rewrite explicit_split, E4 in E'. cbn [obind] in E'. exists st'. split; [exact E'|].
    assert (Di : forall i g c, nth_error (hr_ids (p_rank p)) i = Some g -> (c < 3)%nat -> v_at (k_disp (i_kin st')) i c = fd (T (k + 1)) g c).
    { intros i g c Hi Hc. rewrite (se_disp SE), <- D4. now apply Dn. }
    assert (Ag : agrees (k + 1) (p_rank p) st').
    { intros i g c Hi Hc. destruct (A i g c Hi Hc) as (A1 & A2 & A3 & A4). pose proof (Di i g c Hi Hc) as Dc.
      assert (Fi : v_at (i_int st') i c = ff (T (k + 1)) g c).
      { destruct (se_int SE) as (f' & Ef & ->). cbn in Ef. injection Ef as _ <-. cbn [v_at]. exact (Hf i g c Hi Hc). }
      assert (Fa : v_at (i_acc st') i c = fa (T (k + 1)) g c).
      { rewrite (se_acc SE). cbn [v_at]. assert (Li : (i < length (hr_ids (p_rank p)))%nat) by (apply nth_error_Some; congruence).
        apply Nat.ltb_lt in Li. rewrite Li. pose proof Hc as Hc'. apply Nat.ltb_lt in Hc'. rewrite Hc'. cbn [andb]. unfold acc_entry. cbn [received ph_contact].
        rewrite Fi, (se_ext SE). cbn [v_at]. rewrite (C6 i g Hi), Ma. unfold Rdiv. ring. }
      split; [exact Dc|]. split; [|split; assumption].
      rewrite (se_vel SE). cbv zeta. rewrite (written_same C Hk), Eh, Ht, time_next, Mv.
      assert (V4 : v_at (axv (length (hr_ids (p_rank p))) (bcv (length (hr_ids (p_rank p))) (i_mgr st0) (i_ref st0) h (tm (k + 1)) (k_disp (i_kin st'))
                  (bcv (length (hr_ids (p_rank p))) (i_mgr st0) (i_ref st0) h (tm (k + 1)) (k_disp (i_kin (p_state p))) (axv (length (hr_ids (p_rank p))) (k_vel (i_kin (p_state p))) (h / 2) (i_acc (p_state p))))) (h / 2) (i_acc st')) i c =
              prescribed X bcs sets h (tm (k + 1)) g c (fd (T (k + 1)) g c) (prescribed X bcs sets h (tm (k + 1)) g c (fd (T k) g c) (fv (T k) g c + h / 2 * fa (T k) g c)) + h / 2 * fa (T (k + 1)) g c).
      { unfold axv at 1. cbn [v_at]. rewrite !(@bcv_same (p_rank p) st0 _ _ _ _ _ i g c SF Hi). unfold axv. cbn [v_at]. now rewrite Dc, Fa, A1, A2, A3. }
      destruct (recorded dk k); [|exact V4]. rewrite (@bcv_same (p_rank p) st0 _ _ _ _ _ i g c SF Hi), V4, Dc. reflexivity. }
    assert (Tn : i_time st' = tm (k + 1)) by (rewrite (se_time SE), Ht, Eh; apply time_next).
    exists st0. cbn [p_rank p_cfg p_state]. split; [exact SF|]. split; [exact C|]. split; [exact (se_good SE)|]. split; [exact Tn|]. split; [exact Ag|].
    rewrite (se_out SE), (written_same C Hk). unfold when_written in *. replace (k + 1)%nat with (S k) by lia. rewrite seq_S, filter_app, map_app, app_comm_cons. cbn [filter plus].
    apply Forall2_app; auto. destruct (recorded dk k); cbn [map]; constructor; [|constructor]. split; [cbn; exact Tn|]. intros i g c Hi Hc. exact (Ag i g c Hi Hc).
  Qed.

  (** all ranks *)
  Lemma nth_combine A B (l : list A) (l' : list B) r a b : nth_error (combine l l') r = Some (a, b) -> nth_error l r = Some a /\ nth_error l' r = Some b.
  Proof. revert l' r. induction l as [|x l IH]; intros [|y l'] [|r] H; cbn in H; try discriminate; [injection H as <- <-; auto|]. exact (IH l' r H). Qed.
  Lemma map_fst_combine A B (l : list A) (l' : list B) : length l' = length l -> map fst (combine l l') = l.
  Proof. revert l'. induction l as [|x l IH]; intros [|y l'] H; cbn in *; try discriminate; auto. f_equal. apply IH. lia. Qed.
  Lemma map_snd_combine A B (l : list A) (l' : list B) : length l = length l' -> map snd (combine l l') = l'.
  Proof. revert l'. induction l as [|x l IH]; intros [|y l'] H; cbn in *; try discriminate; auto. f_equal. apply IH. lia. Qed.
  Lemma done_all g : forallb is_done g = true -> forall r s, nth_error g r = Some s -> rs_pc s = PDone.
  Proof. intros H r s Hs. rewrite forallb_forall in H. specialize (H s (nth_error_In _ _ Hs)). unfold is_done in H. destruct (rs_pc s); congruence. Qed.
  Lemma all_done g : (forall r s, nth_error g r = Some s -> rs_pc s = PDone) -> forallb is_done g = true.
  Proof. intros H. apply forallb_forall. intros s Hs. apply In_nth_error in Hs. destruct Hs as (r & Hr). unfold is_done. now rewrite (H r s Hr). Qed.
  Lemma disp_rank U U' rk bs d : rank_of X U rk bs -> (forall i g c, nth_error (hr_ids rk) i = Some g -> (c < 3)%nat -> v_at d i c = U' g c) ->
    rank_of X U' (with_disp rk d) bs.
  Proof.
    intros RO H. constructor; [exact (ro_nodup RO)|exact (ro_blocks RO)|exact (ro_ref RO)|]. intros i g c Hi Hc. cbn [with_disp hr_disp hr_ids] in *.
    destruct (@div3 i c Hc) as (-> & ->). exact (H i g c Hi Hc).
  Qed.
  Lemma step_all U k ps : (k < Z.to_nat (dk_load_steps dk))%nat -> Forall (inv k) ps -> distributed X U (map p_rank ps) es ->
    (forall sched, exists o, all_step k sched ps = Ok o /\ forall ps', o = Some ps' -> Forall (inv (k + 1)) ps' /\ map p_rank ps' = map p_rank ps) /\
    exists sched ps', all_step k sched ps = Ok (Some ps').
  Proof.
    intros Hk Hi (parts & FP & PE).
    set (Q := fun (p : proc) (s4 : istate unit) =>
      (forall i g c, nth_error (hr_ids (p_rank p)) i = Some g -> (c < 3)%nat -> v_at (k_disp (i_kin s4)) i c = fd (T (k + 1)) g c) /\
      forall f, (forall i g c, nth_error (hr_ids (p_rank p)) i = Some g -> (c < 3)%nat -> f i c = ff (T (k + 1)) g c) ->
        exists st', step_tail (p_cfg p) (length (hr_ids (p_rank p))) k (p_state p) f s4 = Ok st' /\ inv (k + 1) (Proc (p_rank p) (p_cfg p) st')).
    destruct (@omapM_list _ _ (fun p => step_head (p_cfg p) (p_state p)) Q ps) as (heads & Eh & FH).
    { intros p Hp. rewrite Forall_forall in Hi. destruct (@head_inv k p (Hi p Hp) Hk) as (s4 & E4 & H4). eauto. }
    set (ranks := map (fun q => with_disp (p_rank (fst q)) (k_disp (i_kin (snd q)))) (combine ps heads)).
    assert (LH : length heads = length ps) by (symmetry; exact (F2_len FH)).
    assert (DD : distributed X (fd (T (k + 1))) ranks es).
    { exists parts. split; auto. subst ranks. clear Eh Hi PE LH. revert parts FP. induction FH as [|p s4 ps heads H F IH]; intros parts FP; inversion FP as [|? bs ? parts' R1 F1]; subst; cbn [combine map]; constructor.
      - cbn [fst snd]. apply (@disp_rank U); auto. exact (proj1 H).
      - now apply IH. }
    destruct (mo_step HM Hk) as (_ & Mw & (fo & Mf & Ms) & _ & _). cbv zeta in Mw, Mf, Ms.
    assert (AG : all_get 3 ranks (all_internal_force ranks) (fun g c => Sum es (fun E => share E g (fun n => fo E n c)))).
    { apply (@force_gets X (fd (T (k + 1))) es fo ranks); auto. intros E Ein. destruct (HE E Ein) as (Hl & W1). repeat (split; auto). }
    assert (LR : length ranks = length ps) by (subst ranks; rewrite map_length, combine_length; lia).
    assert (IDS : forall r p, nth_error ps r = Some p -> exists rk, nth_error ranks r = Some rk /\ hr_ids rk = hr_ids (p_rank p)).
    { intros r p Hp. assert (exists s4, nth_error heads r = Some s4) as (s4 & H4).
      { destruct (nth_error heads r) eqn:E; eauto. apply nth_error_None in E. assert (r < length ps)%nat by (apply nth_error_Some; congruence). lia. }
      exists (with_disp (p_rank p) (k_disp (i_kin s4))). split; auto. subst ranks.
      assert (Nc : nth_error (combine ps heads) r = Some (p, s4)).
      { clear - Hp H4. revert heads r Hp H4. induction ps as [|x l IH]; intros [|y l'] [|r] H H'; cbn in *; try discriminate; [congruence|]. now apply IH. }
      exact (map_nth_error _ _ _ Nc). }
    assert (Main : forall sched g, all_internal_force ranks sched = Ok g -> forallb is_done g = true ->
      exists ps', all_step k sched ps = Ok (Some ps') /\ Forall (inv (k + 1)) ps' /\ map p_rank ps' = map p_rank ps).
    { intros sched g Eg Dn. destruct (AG sched) as (g' & Eg' & Lg & Hg & _). assert (g' = g) by (rewrite Eg in Eg'; now apply ok_inj in Eg'). subst g'.
      unfold all_step. rewrite Eh. cbn [obind]. fold ranks. rewrite Eg. cbn [obind]. rewrite Dn.
      destruct (@omapM_list _ _ (fun q : proc * (istate unit * rstate R) => let '(p, (s4, m)) := q in
        do s <- step_tail (p_cfg p) (length (hr_ids (p_rank p))) k (p_state p) (fun n c => rs_mem m (n * 3 + c)%nat) s4; Ok (Proc (p_rank p) (p_cfg p) s))
        (fun q p' => p_rank p' = p_rank (fst q) /\ inv (k + 1) p') (combine ps (combine heads g))) as (ps' & Ep & Fp).
      { intros (p & s4 & m) Hq. apply In_nth_error in Hq. destruct Hq as (r & Hr). apply nth_combine in Hr. destruct Hr as (Hp & Hr). apply nth_combine in Hr. destruct Hr as (H4 & Hm).
        destruct (@Forall2_nth _ _ _ _ _ r p FH Hp) as (s4' & H4' & HQ). rewrite H4 in H4'. injection H4' as <-.
        destruct (IDS r p Hp) as (rk & Hrk & Eid). destruct (Hg r m Hm) as (_ & Hv).
        destruct (proj2 HQ (fun n c => rs_mem m (n * 3 + c)%nat)) as (st' & Et & Hinv).
        { intros i g0 c Hi' Hc. rewrite Ms. rewrite <- Eid in Hi'. exact (Hv (@done_all g Dn r m Hm) rk i g0 c Hrk Hi' Hc). }
        exists (Proc (p_rank p) (p_cfg p) st'). rewrite Et. cbn [obind fst]. auto. }
      rewrite Ep. cbn [obind]. exists ps'. split; [reflexivity|]. split.
      - apply Forall_forall. intros p' Hp'. apply In_nth_error in Hp'. destruct Hp' as (r & Hr). apply F2_flip in Fp. destruct (@Forall2_nth _ _ _ _ _ r p' Fp Hr) as (q & _ & Hq). apply Hq.
      - transitivity (map p_rank (map fst (combine ps (combine heads g)))).
        + rewrite map_map. clear - Fp. induction Fp as [|q p' l l' H F IH]; cbn; auto. rewrite IH. f_equal. apply H.
        + rewrite map_fst_combine; auto. rewrite combine_length. lia. }
    split.
    - intros sched. destruct (AG sched) as (g & Eg & _). destruct (forallb is_done g) eqn:Dn.
      + destruct (Main sched g Eg Dn) as (ps' & E' & H'). exists (Some ps'). split; auto. intros ps'' E''. injection E'' as <-. exact H'.
      + exists None. split; [|discriminate]. unfold all_step. rewrite Eh. cbn [obind]. fold ranks. rewrite Eg. cbn [obind]. now rewrite Dn.
    - destruct (AG []) as (_ & _ & _ & _ & more & g & Eg & _ & Hd). destruct (Main _ g Eg (all_done g Hd)) as (ps' & E' & _). eauto.
  Qed.

  Lemma oloop_S A (f : nat -> A -> outcome A) n s : oloop 0 (S n) f s = (do s' <- oloop 0 n f s; f n s').
  Proof. unfold oloop. rewrite !Nat.sub_0_r, seq_S, ofold_app. cbn [plus]. destruct (ofold _ (seq 0 n) s); cbn; auto. now destruct (f n a). Qed.
  Lemma oloop_ext A (f g : nat -> A -> outcome A) n : forall s, (forall k s, (0 <= k < n)%nat -> f k s = g k s) -> oloop 0 n f s = oloop 0 n g s.
  Proof. induction n as [|n IH]; intros s H; auto. rewrite !oloop_S, IH by (intros; apply H; lia). destruct (oloop 0 n g s); cbn; auto. apply H. lia. Qed.
  Lemma loop_all U ps n : (n <= Z.to_nat (dk_load_steps dk))%nat -> Forall (inv 0) ps -> distributed X U (map p_rank ps) es ->
    (forall scheds, exists o, all_loop n scheds ps = Ok o /\ forall ps', o = Some ps' -> Forall (inv n) ps' /\ map p_rank ps' = map p_rank ps) /\
    exists scheds ps', all_loop n scheds ps = Ok (Some ps').
  Proof.
    intros Hn Hi HD. induction n as [|n IH].
    - split; [intros scheds|exists (fun _ => [])]; unfold all_loop; cbn; eexists; split; [reflexivity|]. intros ps' E. injection E as <-. auto.
    - destruct (IH ltac:(lia)) as (IH1 & scheds0 & ps0 & IH2). unfold all_loop in *. split.
      + intros scheds. rewrite oloop_S. destruct (IH1 scheds) as (o & Eo & Ho). rewrite Eo. cbn [obind]. destruct o as [ps1|]; [|exists None; split; [reflexivity|discriminate]].
        destruct (Ho ps1 eq_refl) as (Hp & Em). rewrite <- Em in HD |- *. destruct (@step_all U n ps1 ltac:(lia) Hp HD) as (S1 & _).
        destruct (S1 (scheds n)) as (o' & Eo' & Ho'). exists o'. split; auto. now rewrite <- Nat.add_1_r.
      + destruct (IH1 scheds0) as (o & Eo & Ho). rewrite IH2 in Eo. apply ok_inj in Eo. subst o. destruct (Ho ps0 eq_refl) as (Hp & Em). rewrite <- Em in HD.
        destruct (@step_all U n ps0 ltac:(lia) Hp HD) as (_ & sched & ps' & E').
        exists (fun k => if (k <? n)%nat then scheds0 k else sched), ps'. rewrite oloop_S.
        replace (oloop 0 n _ (Some ps)) with (oloop 0 n (fun k o => match o with Some ps => all_step k (scheds0 k) ps | None => Ok None end) (Some ps)).
        * rewrite IH2. cbn [obind]. rewrite Nat.ltb_irrefl. exact E'.
        * apply oloop_ext. intros k o Hk. destruct o; auto. assert (k < n)%nat as Hl by lia. apply Nat.ltb_lt in Hl. now rewrite Hl.
  Qed.
  Lemma run_all ranks starts : dk_initial dk <= dk_final dk -> distributed X (fd (T 0)) ranks es -> Forall2 (starts_from X bcs sets V0 (T 0)) ranks starts ->
    (forall msched scheds, exists o, all_integrate dk ranks starts msched scheds = Ok o /\
       forall ps, o = Some ps -> map p_rank ps = ranks /\ Forall (inv (Z.to_nat (dk_load_steps dk))) ps) /\
    exists msched scheds ps, all_integrate dk ranks starts msched scheds = Ok (Some ps).
  Proof.
    intros Hle HD FS. assert (LS : length starts = length ranks) by (symmetry; exact (F2_len FS)).
    assert (AG := @C82_mass_of_the_whole_mesh X (fd (T 0)) ranks es HD (fun E Ein => proj2 (HE E Ein))).
    assert (Main : forall msched g, all_lumped_mass ranks msched = Ok g -> forallb is_done g = true ->
      exists ps, (forall scheds, all_integrate dk ranks starts msched scheds = all_loop (Z.to_nat (dk_load_steps dk)) scheds ps) /\ Forall (inv 0) ps /\ map p_rank ps = ranks).
    { intros msched g Eg Dn. destruct (AG msched) as (g' & Eg' & Lg & Hg & _). assert (g' = g) by (rewrite Eg in Eg'; now apply ok_inj in Eg'). subst g'.
      unfold all_integrate. rewrite Eg. cbn [obind]. rewrite Dn.
      destruct (@omapM_list _ _ (fun q : nat * (hrank * (istate unit * rstate R)) =>
        let '(r, (rk, (st, m))) := q in
        let cfg := Config r (dk_initial dk) (dk_final dk) (dk_load_steps dk) (dk_frequency dk) (map (rs_mem m) (seq 0 (length (hr_ids rk)))) in
        do s <- explicit_start cfg st; Ok (Proc rk cfg s))
        (fun q p => p_rank p = fst (snd q) /\ inv 0 p) (combine (seq 0 (length ranks)) (combine ranks (combine starts g)))) as (ps & Ep & Fp).
      { intros (r & rk & st & m) Hq. apply In_nth_error in Hq. destruct Hq as (j & Hj). apply nth_combine in Hj. destruct Hj as (_ & Hj). apply nth_combine in Hj. destruct Hj as (Hrk & Hj). apply nth_combine in Hj. destruct Hj as (Hst & Hm).
        destruct (@Forall2_nth _ _ _ _ _ j rk FS Hrk) as (st' & Hst' & SF). rewrite Hst in Hst'. injection Hst' as <-.
        set (cfg := Config r (dk_initial dk) (dk_final dk) (dk_load_steps dk) (dk_frequency dk) (map (rs_mem m) (seq 0 (length (hr_ids rk))))).
        assert (C : cfg_ok rk cfg).
        { unfold cfg_ok. cbn [cfg rc_initial rc_final rc_load_steps rc_frequency rc_mass]. rewrite map_length, seq_length. repeat (split; auto).
          intros i g0 Hi. unfold mass_of. cbn [cfg rc_mass]. assert (Li : (i < length (hr_ids rk))%nat) by (apply nth_error_Some; congruence).
          rewrite (nth_indep _ 0 (rs_mem m 0%nat)) by (rewrite map_length, seq_length; exact Li). rewrite map_nth, seq_nth by exact Li.
          destruct (Hg j m Hm) as (_ & Hv). specialize (Hv (@done_all g Dn j m Hm) rk i g0 0%nat Hrk Hi ltac:(lia)).
          replace (i * 1 + 0)%nat with i in Hv by lia. exact Hv. }
        pose proof (sf_ok SF cfg ltac:(apply C)) as S0. destruct (start_cases S0) as (s & SD & Es).
        assert (Es' : explicit_start cfg st = Ok s).
        { rewrite Es. destruct (rc_rank cfg =? 0)%nat; auto. cbn [andb cfg rc_final rc_initial]. destruct (Rlt_dec (dk_final dk) (dk_initial dk)); auto. lra. }
        exists (Proc rk cfg s). cbv zeta. rewrite Es'. split; [reflexivity|]. split; [reflexivity|]. exists st. cbn [p_rank p_cfg p_state].
        assert (Ag : agrees 0 rk s).
        { intros i g0 c Hi Hc. rewrite (sd_disp SD). destruct (sd_rest SD) as (-> & -> & _). rewrite (so_acc0 S0), (mo_rest HM), (sf_disp SF i Hi Hc), (sf_int SF i Hi Hc).
          repeat (split; auto). destruct (sd_vel SD) as (v & -> & Hv). rewrite (@bcv_same rk st _ _ _ _ _ i g0 c SF Hi), Hv, (@init_same rk st i g0 c _ SF Hi), (sf_disp SF i Hi Hc), (sf_vel SF i Hi Hc).
          symmetry. apply (mo_start HM). }
        assert (Ti : i_time s = tm 0) by (rewrite (sd_time SD); unfold time_of; cbn; ring).
        split; [exact SF|]. split; [exact C|]. split; [exact (sd_good SD)|]. split; [exact Ti|]. split; [exact Ag|].
        rewrite (sd_out SD). unfold when_written. cbn. constructor; [|constructor]. split; [exact Ti|]. exact Ag. }
      exists ps. split; [intros scheds; match goal with |- obind ?a _ = _ => replace a with (Ok ps) by (symmetry; exact Ep) end; reflexivity|]. split.
      - apply Forall_forall. intros p' Hp'. apply In_nth_error in Hp'. destruct Hp' as (r & Hr). apply F2_flip in Fp. destruct (@Forall2_nth _ _ _ _ _ r p' Fp Hr) as (q & _ & Hq). apply Hq.
      - transitivity (map (fun q : nat * (hrank * (istate unit * rstate R)) => fst (snd q)) (combine (seq 0 (length ranks)) (combine ranks (combine starts g)))).
        + clear - Fp. induction Fp as [|q p' l l' H F IH]; cbn; auto. rewrite IH. f_equal. apply H.
        + rewrite <- (map_map snd fst). rewrite map_snd_combine by (rewrite !combine_length, seq_length; lia). apply map_fst_combine. rewrite combine_length. lia. }
    split.
    - intros msched scheds. destruct (AG msched) as (g & Eg & _). destruct (forallb is_done g) eqn:Dn.
      + destruct (Main msched g Eg Dn) as (ps & Er & Hp & Em). rewrite Er. rewrite <- Em in HD. destruct (@loop_all _ ps _ (le_n _) Hp HD) as (L1 & _).
        destruct (L1 scheds) as (o & Eo & Ho). exists o. split; auto. intros ps' E. destruct (Ho ps' E) as (H1 & H2). split; congruence.
      + exists None. split; [|discriminate]. unfold all_integrate. rewrite Eg. cbn [obind]. now rewrite Dn.
    - destruct (AG []) as (_ & _ & _ & _ & more & g & Eg & _ & Hd). destruct (Main _ g Eg (all_done g Hd)) as (ps & Er & Hp & Em). rewrite <- Em in HD.
      destruct (@loop_all _ ps _ (le_n _) Hp HD) as (_ & scheds & ps' & El). exists ([] ++ more), scheds, ps'. now rewrite Er.
  Qed.
End Run.

(** * Theorem *)
(** However the mesh is distributed, no rank fails under any schedule; every run that finishes has written on
    every rank, after exactly the requested steps, the motion of the undistributed mesh at all nodes of
    the rank; and some schedule finishes. *)
Theorem C83_same_motion_on_every_distribution X es dk bcs sets V0 T :
  (forall E, In E es -> law E /\ well_shaped (pos X E)) -> dk_initial dk <= dk_final dk ->
  motion X es dk bcs sets V0 T ->
  forall ranks starts, distributed X (fd (T 0%nat)) ranks es -> Forall2 (starts_from X bcs sets V0 (T 0%nat)) ranks starts ->
    (forall msched scheds, exists o, all_integrate dk ranks starts msched scheds = Ok o /\
       forall ps, o = Some ps -> map p_rank ps = ranks /\
         forall p, In p ps -> Forall2 (shows dk T (p_rank p)) (when_written dk (Z.to_nat (dk_load_steps dk))) (i_out (p_state p))) /\
    exists msched scheds ps, all_integrate dk ranks starts msched scheds = Ok (Some ps).
Proof.
  intros HE Hle HM ranks starts HD FS. destruct (@run_all X es dk bcs sets V0 T HM HE ranks starts Hle HD FS) as (H1 & H2). split; [|exact H2].
  intros msched scheds. destruct (H1 msched scheds) as (o & Eo & Ho). exists o. split; auto. intros ps E. destruct (Ho ps E) as (Em & Hi). split; auto.
  intros p Hp. rewrite Forall_forall in Hi. destruct (Hi p Hp) as (st0 & _ & _ & _ & _ & _ & W). exact W.
Qed.
Print Assumptions C83_same_motion_on_every_distribution.

(** Two stacked cubes without stress on two ranks, set in motion along the first axis by an initial condition, held in
    the third direction at the nodes of a second set: two steps of 1/2. *)
Definition z_elem (k : nat) : gelem := GElem (fun n => Z.of_nat (4 * k + n)) 3 (fun _ _ _ => 0).
Definition z_block : hblock := HBlock 3 1 (fun k => k) (fun _ _ => Ok (fun _ => 0)) [0%nat].
Definition z_rank (k : nat) : hrank :=
  HRank (map (fun n => Z.of_nat (4 * k + n)) (seq 0 8)) [z_block] (fun j => ex_X (Z.of_nat (4 * k + j / 3)) (j mod 3)) (fun _ => 0) (fun _ => 0).
Definition z_deck : deck := Deck 0 1 2 1.
Definition z_bcs : list bc := [BC INITIAL_VELOCITY 1 (-1) 0 (Magnitude 2); BC PRESCRIBED_VELOCITY 2 (-1) 2 (Magnitude 0)].
Definition z_sets (id g : Z) : bool := (id =? 1)%Z || ((id =? 2)%Z && (g <=? 5)%Z).
Definition z_fields (k : nat) : fields := Fields (fun _ c => if (c =? 0)%nat then INR k else 0) (fun _ c => if (c =? 0)%nat then 2 else 0) (fun _ _ => 0) (fun _ _ => 0).
Definition z_view (f : nat -> nat -> R) : view := View 8 3 f.
Definition z_start (k : nat) : istate unit :=
  IState (Mgr [(1%Z, seq 0 8); (2%Z, if (k =? 0)%nat then seq 0 6 else seq 0 2)] z_bcs 3 EXPLICIT)
    (z_view (fun i c => ex_X (Z.of_nat (4 * k + i)) c)) (Kin (z_view (fun _ _ => 0)) (z_view (fun _ _ => 0)) [])
    (z_view (fun _ _ => 0)) (z_view (fun _ _ => 0)) (z_view (fun _ _ => 0)) (z_view (fun _ _ => 0)) tt tt 0 [].
Lemma z_ids k i g : nth_error (hr_ids (z_rank k)) i = Some g -> g = Z.of_nat (4 * k + i) /\ (i < 8)%nat.
Proof.
  intros H. assert (L : (i < 8)%nat) by (change 8%nat with (length (hr_ids (z_rank k))); apply nth_error_Some; congruence).
  split; auto. cbn [hr_ids z_rank] in H. idx8 i; cbn [seq map nth_error] in H; congruence.
Qed.
Lemma z_rank_of k : (k < 2)%nat -> rank_of ex_X (fd (z_fields 0)) (z_rank k) [[z_elem k]].
Proof.
  intros Hk. constructor.
  - cbn [hr_ids z_rank]. apply FinFun.Injective_map_NoDup; [|apply seq_NoDup]. intros a b E. lia.
  - cbn [hr_blocks z_rank]. constructor; [|constructor]. constructor; auto.
    + intros E [<-|[]]. reflexivity.
    + intros j E Ej n Hn. destruct j as [|[|j]]; try discriminate. injection Ej as <-. idx8 n; reflexivity.
    + intros j E Ej F. destruct j as [|[|j]]; try discriminate. injection Ej as <-. eexists. split; [reflexivity|]. intros q c Hq Hc. reflexivity.
  - intros i g c Hi Hc. apply z_ids in Hi. destruct Hi as (-> & Hi). cbn [hr_ref z_rank]. destruct (@div3 i c Hc) as (-> & ->). reflexivity.
  - intros i g c Hi Hc. cbn. destruct (c =? 0)%nat; reflexivity.
Qed.
Lemma z_shaped k v : (k < 2)%nat -> well_shaped (pos (fun g i => ex_X g i + v i) (z_elem k)).
Proof.
  intros Hk q Hq. pose proof (ex_shaped Hk Hq) as H.
  assert (E : meq (jac (pos (fun g i => ex_X g i + v i) (z_elem k)) q) (jac (pos ex_X (ex_elem k)) q)).
  { intros i j Hi Hj. rewrite (@jac_affine (pos ex_X (ex_elem k)) (pos (fun g i => ex_X g i + v i) (z_elem k)) mone v q); auto.
    - unfold mmul, mone. rewrite (@Rsum_single 3 _ i Hi); [rewrite Nat.eqb_refl; ring|]. intros m Hm Ne. destruct (Nat.eqb_spec i m); [congruence|ring].
    - intros n m Hn Hm. unfold pos, mvec, mone. rewrite (@Rsum_single 3 _ m Hm); [rewrite Nat.eqb_refl; cbn [ge_nodes z_elem ex_elem]; ring|].
      intros m' Hm' Ne. destruct (Nat.eqb_spec m m'); [congruence|ring]. }
  now rewrite (mdet_proper E).
Qed.
Lemma z_force U k : (k < 2)%nat -> well_shaped (pos (fun g i => ex_X g i + U g i) (z_elem k)) -> is_force ex_X U (z_elem k) (fun _ _ => 0).
Proof.
  intros Hk W. destruct (@own_force_ok ex_X U (z_elem k) (@ex_shaped k Hk) W) as (G & HG & _). exists G. split; auto. intros v H _. cbn [ge_stress z_elem].
  rewrite (@Rsum_zero 8 (fun n => Rsum 3 (fun i => v n i * 0))) by (intros; apply Rsum_zero; intros; ring).
  rewrite Rsum_zero; [ring|]. intros q Hq. replace (contract _ (H q)) with 0; [ring|]. unfold contract, sym. symmetry. apply Rsum_zero. intros i Hi. apply Rsum_zero. intros j Hj. ring.
Qed.
Lemma z_prescribed h t g c d v : (c = 2%nat -> v = 0) -> prescribed ex_X z_bcs z_sets h t g c d v = v.
Proof. intros Hv. unfold prescribed, z_bcs, hits. cbn [fold_left bc_coord bc_node_set bc_kind]. destruct (Nat.eqb_spec 2 c) as [<-|]; cbn [Nat.eqb andb]; [|destruct (_ && _); auto]. rewrite Hv by reflexivity. now destruct (z_sets 2 g). Qed.
Example C83_example : let es := [z_elem 1; z_elem 0] in
  (forall E, In E es -> law E /\ well_shaped (pos ex_X E)) /\
  motion ex_X es z_deck z_bcs z_sets (fun _ _ => 0) z_fields /\
  distributed ex_X (fd (z_fields 0)) [z_rank 0; z_rank 1] es /\
  Forall2 (starts_from ex_X z_bcs z_sets (fun _ _ => 0) (z_fields 0)) [z_rank 0; z_rank 1] [z_start 0; z_start 1].
Proof.
  intros es. assert (HK : forall E, In E es -> exists k, (k < 2)%nat /\ E = z_elem k) by (intros E [<-|[<-|[]]]; [exists 1%nat|exists 0%nat]; auto).
  split; [|split; [|split]].
  - intros E Ein. destruct (HK E Ein) as (k & Hk & ->). split; [intros G G' _ q c _ _; reflexivity|exact (@ex_shaped k Hk)].
  - constructor.
    + intros g c. rewrite z_prescribed.
      * unfold initial, z_bcs, hits. cbn [fold_left bc_coord bc_node_set bc_kind bc_val]. destruct c as [|c]; cbn; auto. destruct (_ && _); auto.
      * intros ->. unfold initial, z_bcs, hits. cbn [fold_left bc_coord bc_node_set bc_kind bc_val Nat.eqb andb]. now destruct (z_sets 2 g).
    + reflexivity.
    + intros k _ s s' t v2 v4.
      assert (Ed : dt z_deck = 1 / 2) by (unfold dt; cbn; field).
      assert (V2 : forall g c, v2 g c = if (c =? 0)%nat then 2 else 0).
      { intros g c. unfold v2. rewrite z_prescribed; cbn [s z_fields fv fa]; [destruct (c =? 0)%nat; ring|intros ->; cbn; ring]. }
      assert (D : forall g c, fd s' g c = fd s g c + dt z_deck * v2 g c).
      { intros g c. rewrite V2, Ed. cbn [s s' z_fields fd]. destruct (c =? 0)%nat; [|ring]. rewrite plus_INR. cbn. field. }
      assert (Ws : forall E, In E es -> well_shaped (pos (fun g i => ex_X g i + fd s' g i) E)).
      { intros E Ein. destruct (HK E Ein) as (j & Hj & ->). exact (@z_shaped j (fun i => fd s' 0%Z i) Hj). }
      split; [exact D|]. split; [exact Ws|]. split; [|split].
      * exists (fun _ _ _ => 0). split.
        -- intros E Ein. pose proof (Ws E Ein) as W. destruct (HK E Ein) as (j & Hj & ->). now apply z_force.
        -- intros g c. symmetry. apply Sum_zero. intros E _. apply Rsum_zero. intros n _. now destruct (_ =? _)%Z.
      * intros g c. cbn. unfold Rdiv. ring.
      * intros g c. assert (V4 : v4 g c = fv s' g c).
        { unfold v4. rewrite z_prescribed by (intros ->; rewrite V2; reflexivity). rewrite V2. cbn. destruct (c =? 0)%nat; ring. }
        rewrite z_prescribed; rewrite V4; [now destruct (recorded _ _)|intros ->; reflexivity].
  - exists [[[z_elem 0]]; [[z_elem 1]]]. split; [apply Forall2_cons; [apply z_rank_of; lia|apply Forall2_cons; [apply z_rank_of; lia|apply Forall2_nil]]|]. cbn. apply perm_swap.
  - assert (G : forall k, (k < 2)%nat -> starts_from ex_X z_bcs z_sets (fun _ _ => 0) (z_fields 0) (z_rank k) (z_start k)).
    { intros k Hk. constructor; auto.
      - intros cfg L. constructor; try reflexivity; try (split; reflexivity); [|exact L]. constructor; auto.
        + intros b [<-|[<-|[]]]; cbn; lia.
        + intros id n. unfold node_set. cbn [z_start i_mgr mg_node_sets assoc]. destruct (Z.eqb _ _); [intros Hi; apply in_seq in Hi; cbn in *; lia|].
          destruct (Z.eqb _ _); [|intros []]. destruct (k =? 0)%nat; intros Hi; apply in_seq in Hi; cbn; lia.
        + intros id. unfold node_set. cbn [z_start i_mgr mg_node_sets assoc]. destruct (Z.eqb _ _); [apply seq_NoDup|]. destruct (Z.eqb _ _); [|constructor]. destruct (k =? 0)%nat; apply seq_NoDup.
      - intros id i g Hi. apply z_ids in Hi. destruct Hi as (-> & Hi). unfold node_set, z_sets. cbn [z_start i_mgr mg_node_sets assoc].
        destruct (Z.eqb_spec id 1) as [->|N1]; cbn [orb]; [rewrite in_seq; split; auto; lia|].
        destruct (Z.eqb_spec id 2) as [->|N2]; cbn [andb].
        + rewrite Z.leb_le. assert (k = 0 \/ k = 1)%nat as [-> | ->] by lia; cbn [Nat.eqb]; rewrite in_seq; lia.
        + split; [intros []|discriminate].
      - intros i g c Hi Hc. apply z_ids in Hi. destruct Hi as (-> & Hi). reflexivity.
      - intros i g c Hi Hc. cbn. now destruct (c =? 0)%nat. }
    apply Forall2_cons; [apply G; lia|apply Forall2_cons; [apply G; lia|apply Forall2_nil]].
Qed.
