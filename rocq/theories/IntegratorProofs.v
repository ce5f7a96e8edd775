(** One step and whole runs of the explicit integrator. *)
From Verif Require Import Base ListLemmas Loops BcModel BcSpec BcProofs IntegratorModel IntegratorSpec.
From Coq Require Import Reals Lra FunctionalExtensionality.
Local Open Scope nat_scope.
Set Implicit Arguments.

Lemma view_ext N D v w : shaped N D v -> shaped N D w -> (forall n c, v_at v n c = v_at w n c) -> v = w.
Proof.
  intros [H1 H2] [H3 H4] H. destruct v as [a b f], w as [a' b' f']. simpl in *. subst. f_equal.
  apply functional_extensionality. intros n. apply functional_extensionality. intros c. apply H.
Qed.

(** the entry effects seen through equivalent managers *)
Lemma entry_effect_same mg0 mg dt t ref n c x b : same_mgr mg0 mg ->
  entry_effect mg dt t ref n c x b = entry_effect mg0 dt t ref n c x b.
Proof.
  intros (_ & H2 & H3 & H4 & _). unfold entry_effect, covers, value_at. now rewrite H2, H3, H4.
Qed.
Lemma init_effect_same mg0 mg ref n c x b : same_mgr mg0 mg -> init_effect mg ref n c x b = init_effect mg0 ref n c x b.
Proof. intros (_ & H2 & H3 & H4 & _). unfold init_effect, covers, value_at. now rewrite H2, H4. Qed.
Lemma fold_left_ext {A B} (f g : A -> B -> A) l x : (forall x b, f x b = g x b) -> fold_left f l x = fold_left g l x.
Proof. intros H. revert x; induction l as [|b l IH]; intros x; simpl; auto. now rewrite H, IH. Qed.
Lemma same_trans mg0 mg1 mg2 : same_mgr mg0 mg1 -> same_mgr mg1 mg2 -> same_mgr mg0 mg2.
Proof.
  intros (A1 & A2 & A3 & A4 & A5) (B1 & B2 & B3 & B4 & B5). split; [congruence|]. split; [congruence|]. split; [congruence|].
  split; [intros; now rewrite B4|auto].
Qed.
Lemma input_same mg0 mg N : same_mgr mg0 mg -> bc_input_ok mg0 N -> bc_input_ok mg N.
Proof.
  intros (A1 & A2 & A3 & A4 & A5) [B1 B2 B3 B4]. split; [now rewrite A2| | |].
  - intros b Hb. rewrite A2. apply B2. now rewrite <- A1.
  - intros id n. rewrite A4. apply B3.
  - intros id. rewrite A4. apply B4.
Qed.

Section Traj.
  Context {S : Type} (ph : physics S) (cfg : run_config) (N : nat) (mg0 : manager) (ref : view).
  Hypothesis Hbc : bc_input_ok mg0 N.
  Hypothesis Hdim : mg_dim mg0 = 3.
  Hypothesis Hsch : mg_scheme mg0 = EXPLICIT.
  Hypothesis Href : shaped N 3 ref.
  Hypothesis Hmass : length (rc_mass cfg) = N.
  Local Notation h := (user_step cfg).

  (** what the boundary conditions make of the velocity *)
  Definition bcv (dt t : R) (d v : view) : view :=
    View N 3 (fun n c => snd (fold_left (entry_effect mg0 dt t ref n c) (mg_bcs mg0) (v_at d n c, v_at v n c))).
  Definition axv (v : view) (a : R) (w : view) : view := View N 3 (fun n c => v_at v n c + a * v_at w n c)%R.

  Record good (st : istate S) : Prop := {
    g_mgr : same_mgr mg0 (i_mgr st); g_ref : i_ref st = ref;
    g_disp : shaped N 3 (k_disp (i_kin st)); g_vel : shaped N 3 (k_vel (i_kin st)); g_off : k_off (i_kin st) = [];
    g_acc : shaped N 3 (i_acc st); g_int : shaped N 3 (i_int st); g_ext : shaped N 3 (i_ext st); g_con : shaped N 3 (i_con st) }.

  Lemma fold_fst dt t n c l x : fst (fold_left (entry_effect mg0 dt t ref n c) l x) = fst x.
  Proof.
    revert x; induction l as [|b l IH]; intros [d v]; simpl; auto. rewrite IH, Hsch. simpl.
    destruct (covers mg0 b n c); auto. destruct (bc_kind b); auto. destruct (Rlt_dec 0 dt); auto.
  Qed.

  Lemma kc_ok st t t0 : good st ->
    exists mg', same_mgr mg0 mg' /\ kinematic_conditions t t0 st =
      Ok (IState mg' ref (Kin (k_disp (i_kin st)) (bcv (t - t0) t (k_disp (i_kin st)) (k_vel (i_kin st))) [])
        (i_acc st) (i_int st) (i_ext st) (i_con st) (i_old st) (i_new st) (i_time st) (i_out st)).
  Proof.
    intros G. pose proof (g_mgr G) as Gm. pose proof Gm as (E1 & E2 & E3 & _).
    assert (Hin : bc_input_ok (i_mgr st) N) by (eapply input_same; eauto).
    assert (Hr : shaped N (mg_dim (i_mgr st)) (i_ref st)) by (rewrite E2, Hdim, (g_ref G); auto).
    assert (Hs : kshaped N (mg_dim (i_mgr st)) (i_kin st)).
    { rewrite E2, Hdim. split; [apply G|]. split; [apply G|]. rewrite (g_off G). constructor. }
    destruct (@apply_kinematic_ok (i_mgr st) N (i_ref st) (t - t0)%R t Hin Hr (i_kin st) t0 eq_refl Hs)
      as (mg' & s' & E & Hm & _ & K).
    exists mg'. split; [eapply same_trans; eauto|]. unfold kinematic_conditions. rewrite E. cbn [obind fst snd].
    rewrite (g_ref G). f_equal. rewrite E2, Hdim in K. destruct K as (K1 & K2 & K3 & K4). f_equal.
    destruct s' as [d' v' o']. cbn [k_disp k_vel k_off] in *. rewrite (g_off G) in K4. inversion K4; subst o'.
    assert (KK : forall n c, (v_at d' n c, v_at v' n c) =
       fold_left (entry_effect mg0 (t - t0) t ref n c) (mg_bcs mg0) (v_at (k_disp (i_kin st)) n c, v_at (k_vel (i_kin st)) n c)).
    { intros n c. rewrite K3, E1, (g_ref G). apply fold_left_ext. intros x b. now apply entry_effect_same. }
    f_equal.
    - apply (@view_ext N 3); auto; [apply G|]. intros n c. specialize (KK n c). apply (f_equal fst) in KK.
      rewrite fold_fst in KK. exact KK.
    - apply (@view_ext N 3); auto; [split; reflexivity|]. intros n c. specialize (KK n c). apply (f_equal snd) in KK. exact KK.
  Qed.

  Lemma axpy_ok v a w : shaped N 3 v -> shaped N 3 w -> view_axpy v a w = Ok (axv v a w).
  Proof.
    intros [E1 E2] [E3 E4]. unfold view_axpy, axv. rewrite E1, E2, E3, E4, !Nat.eqb_refl. simpl. do 2 f_equal.
    apply functional_extensionality. intros n. apply functional_extensionality. intros c. ring.
  Qed.

  (** the acceleration *)
  Definition acc_entry (st : istate S) (n c : nat) : R :=
    (1 / mass_of cfg n * (v_at (i_int st) n c + v_at (i_ext st) n c +
       match ph_contact ph with Some _ => v_at (i_con st) n c | None => 0 end))%R.
  Definition acc_view (st : istate S) : view :=
    View N 3 (fun n c => if (n <? N) && (c <? 3) then acc_entry st n c else v_at (i_acc st) n c).

  Lemma set_acc_ok st n c acc : good st -> shaped N 3 acc -> n < N -> c < 3 ->
    set_acceleration ph cfg st n c acc = Ok (View N 3 (upd2 (v_at acc) n c (acc_entry st n c))).
  Proof.
    intros G Ha Hn Hc. unfold set_acceleration, acc_entry, mass_of, vget.
    rewrite (nth_error_nth' (rc_mass cfg) 0%R) by lia. simpl obind.
    rewrite (view_get_ok (g_int G)), (view_get_ok (g_ext G)) by auto. simpl obind.
    destruct (ph_contact ph).
    - rewrite (view_get_ok (g_con G)) by auto. simpl obind. now apply view_set_ok.
    - rewrite (view_set_ok _ Ha) by auto. do 3 f_equal. ring.
  Qed.

  Lemma acc_ok st : good st -> accelerations ph cfg N st = Ok
    (IState (i_mgr st) (i_ref st) (i_kin st) (acc_view st) (i_int st) (i_ext st) (i_con st) (i_old st) (i_new st) (i_time st) (i_out st)).
  Proof.
    intros G. unfold accelerations.
    pose (P := fun (i : nat) (acc : view) => shaped N 3 acc /\ forall n c,
      v_at acc n c = if (n <? i) && (c <? 3) then acc_entry st n c else v_at (i_acc st) n c).
    destruct (@oloop_ind _ P 0 N (fun i acc => oloop 0 3 (fun c acc => set_acceleration ph cfg st i c acc) acc) (i_acc st))
      as (acc & E & Hs & Ha); [lia| | |].
    - split; [apply G|]. intros n c. reflexivity.
    - intros i acc Hi [Hs Ha].
      pose (Q := fun (j : nat) (acc : view) => shaped N 3 acc /\ forall n c,
        v_at acc n c = if ((n <? i) && (c <? 3)) || ((n =? i) && (c <? j)) then acc_entry st n c else v_at (i_acc st) n c).
      destruct (@oloop_ind _ Q 0 3 (fun c acc => set_acceleration ph cfg st i c acc) acc) as (acc' & E & Hs' & Ha'); [lia| | |].
      + split; auto. intros n c. rewrite Ha. replace (c <? 0) with false by (symmetry; apply Nat.ltb_ge; lia).
        now rewrite andb_false_r, orb_false_r.
      + intros j acc1 Hj [Hs1 Ha1]. exists (View N 3 (upd2 (v_at acc1) i j (acc_entry st i j))).
        split; [apply set_acc_ok; auto; lia|]. split; [split; reflexivity|]. intros n c. simpl. unfold upd2. rewrite Ha1.
        destruct (Nat.eqb_spec n i) as [->|]; destruct (Nat.eqb_spec c j) as [->|];
          repeat match goal with |- context [?a <? ?b] => destruct (Nat.ltb_spec a b) end; simpl; auto; lia.
      + exists acc'. split; auto. split; auto. intros n c. rewrite Ha'.
        destruct (Nat.eqb_spec n i) as [->|];
          repeat match goal with |- context [?a <? ?b] => destruct (Nat.ltb_spec a b) end; simpl; auto; lia.
    - rewrite E. simpl obind. do 2 f_equal. apply (@view_ext N 3); auto. split; reflexivity.
  Qed.

  Definition written_of (st : istate S) : written :=
    Written (i_time st) (k_disp (i_kin st)) (k_vel (i_kin st)) (i_acc st) (i_int st) (i_ext st) (i_con st).

  (** one step, given the forces *)
  Record step_effect (k : nat) (st st' : istate S) : Prop := {
    se_good : good st';
    se_time : i_time st' = (i_time st + h)%R;
    se_disp : k_disp (i_kin st') = axv (k_disp (i_kin st)) h
        (bcv h (i_time st + h) (k_disp (i_kin st)) (axv (k_vel (i_kin st)) (h / 2) (i_acc st)));
    se_int : exists f, ph_internal ph (i_old st) (i_new st) (i_time st) (i_time st + h)%R (k_disp (i_kin st')) =
               Ok (i_old st', f) /\ i_int st' = View N 3 f;
    se_ext : i_ext st' = View N 3 (fun _ _ => 0%R);
    se_con : match ph_contact ph with
             | Some g => exists f, g (k + 1) (k_disp (i_kin st')) = Ok f /\ i_con st' = View N 3 f
             | None => i_con st' = i_con st
             end;
    se_new : i_new st' = i_old st;
    se_acc : i_acc st' = View N 3 (fun n c => if (n <? N) && (c <? 3) then acc_entry st' n c else v_at (i_acc st) n c);
    se_vel : k_vel (i_kin st') =
      let v2 := bcv h (i_time st + h) (k_disp (i_kin st)) (axv (k_vel (i_kin st)) (h / 2) (i_acc st)) in
      let v4 := axv (bcv h (i_time st + h) (k_disp (i_kin st')) v2) (h / 2) (i_acc st') in
      if is_output cfg k then bcv h (i_time st + h) (k_disp (i_kin st')) v4 else v4;
    se_out : i_out st' = i_out st ++ (if is_output cfg k then [written_of st'] else []) }.

  (** up to the force evaluation *)
  Lemma step_pre k st : good st ->
    let v2 := bcv h (i_time st + h) (k_disp (i_kin st)) (axv (k_vel (i_kin st)) (h / 2) (i_acc st)) in
    let d' := axv (k_disp (i_kin st)) h v2 in
    exists mg3, same_mgr mg0 mg3 /\ explicit_step ph cfg N k st =
      (do s5 <- forces ph k (i_time st) (IState mg3 ref (Kin d' (bcv h (i_time st + h) d' v2) []) (i_acc st) (i_int st) (i_ext st)
          (i_con st) (i_old st) (i_new st) (i_time st + h)%R (i_out st));
       do s6 <- accelerations ph cfg N s5;
       do s7 <- kick (h / 2) s6;
       do s8 <- (if is_output cfg k
              then do s <- kinematic_conditions (i_time st + h)%R (i_time st) s7; Ok (write_output s)
              else Ok s7);
       Ok (update_states s8)).
  Proof.
    intros G v2 d'. unfold explicit_step.
    replace (i_time st + user_step cfg - i_time st)%R with h by ring.
    replace (1 / 2 * h)%R with (h / 2)%R by field.
    unfold kick at 1. cbn [set_time i_kin i_acc]. rewrite (axpy_ok (h / 2) (g_vel G) (g_acc G)). cbn [obind].
    set (v1 := axv (k_vel (i_kin st)) (h / 2) (i_acc st)) in *.
    match goal with |- context [kinematic_conditions ?t ?t0 ?s] => assert (G1 : good s) by (destruct G; split; simpl; auto; split; reflexivity);
      destruct (@kc_ok s t t0 G1) as (mg2 & M2 & E2) end.
    rewrite E2. cbn [obind]. clear E2 G1.
    replace (i_time st + user_step cfg - i_time st)%R with h by ring.
    unfold drift at 1. cbn [i_kin i_acc k_disp k_vel set_time i_int i_ext i_con i_old i_new i_time i_out].
    fold v2.
    rewrite (@axpy_ok (k_disp (i_kin st)) h v2 (g_disp G)) by (split; reflexivity). cbn [obind k_off].
    fold d'.
    match goal with |- context [kinematic_conditions ?t ?t0 ?s] => assert (G1 : good s) by (destruct G; split; simpl; auto; split; reflexivity);
      destruct (@kc_ok s t t0 G1) as (mg3 & M3 & E2) end.
    rewrite E2. cbn [obind]. clear E2 G1.
    replace (i_time st + user_step cfg - i_time st)%R with h by ring.
    exists mg3. split; auto.
  Qed.

  Lemma step_ok k st new' f (fc : option (nat -> nat -> R)) : good st ->
    let d' := axv (k_disp (i_kin st)) h
        (bcv h (i_time st + h) (k_disp (i_kin st)) (axv (k_vel (i_kin st)) (h / 2) (i_acc st))) in
    ph_internal ph (i_old st) (i_new st) (i_time st) (i_time st + h)%R d' = Ok (new', f) ->
    match ph_contact ph, fc with
    | Some g, Some fc => g (k + 1) d' = Ok fc
    | None, None => True
    | _, _ => False
    end ->
    exists st', explicit_step ph cfg N k st = Ok st' /\ step_effect k st st'.
  Proof.
    intros G d' Hf Hc. destruct (@step_pre k st G) as (mg3 & M3 & ->).
    set (v1 := axv (k_vel (i_kin st)) (h / 2) (i_acc st)) in *.
    set (v2 := bcv h (i_time st + h) (k_disp (i_kin st)) v1) in *. fold d'.
    unfold forces. cbn [i_kin i_acc k_disp k_vel set_time i_int i_ext i_con i_old i_new i_time i_out i_mgr i_ref].
    rewrite Hf. cbn [obind snd fst].
    set (con := View N 3 (match fc with Some fc => fc | None => v_at (i_con st) end)).
    match goal with |- context [obind (match ph_contact ph with Some _ => _ | None => _ end) ?kk] =>
      replace (match ph_contact ph with
       | Some f0 => do g <- f0 (k + 1) d'; Ok (View (v_nodes (i_con st)) (v_cols (i_con st)) g)
       | None => Ok (i_con st) end) with (Ok con) end.
    2: { destruct (g_con G) as [C1 C2]. destruct (ph_contact ph) as [g|], fc as [fc|]; try contradiction.
      - rewrite Hc. simpl. now rewrite C1, C2.
      - f_equal. apply (@view_ext N 3); [split; reflexivity|split; auto|reflexivity]. }
    cbn [obind].
    match goal with |- context [accelerations ph cfg N ?s] => set (s5 := s); assert (G5 : good s5) end.
    { destruct G as [? ? ? ? ? ? [Q1 Q2] [Q3 Q4] ?]. split; simpl; auto; split; reflexivity || auto. }
    rewrite (acc_ok G5). cbn [obind]. unfold kick. cbn [i_kin i_acc k_disp k_vel i_int i_ext i_con i_old i_new i_time i_out i_mgr i_ref k_off].
    rewrite (@axpy_ok (k_vel (i_kin s5)) (h/2) (acc_view s5)) by (split; reflexivity).
    cbn [obind]. set (v4 := axv (k_vel (i_kin s5)) (h / 2) (acc_view s5)).
    assert (Hext : i_ext s5 = View N 3 (fun _ _ => 0%R)).
    { simpl. unfold view_zero. destruct (g_ext G) as [-> ->]. reflexivity. }
    assert (Hint : i_int s5 = View N 3 f). { simpl. destruct (g_int G) as [-> ->]. reflexivity. }
    assert (Hcon : match ph_contact ph with
             | Some g => exists f, g (k + 1) d' = Ok f /\ con = View N 3 f
             | None => con = i_con st
             end).
    { destruct (ph_contact ph) as [g|], fc as [fc|]; try contradiction.
      - exists fc. split; auto.
      - apply (@view_ext N 3); [split; reflexivity|apply G|reflexivity]. }
    destruct (is_output cfg k) eqn:Eo.
    - match goal with |- context [kinematic_conditions ?t ?t0 ?s] => assert (G1 : good s) by (destruct G5; split; simpl; auto; split; reflexivity);
        destruct (@kc_ok s t t0 G1) as (mg4 & M4 & E2) end.
      rewrite E2. cbn [obind]. clear E2. eexists. split; [reflexivity|].
      replace (i_time st + user_step cfg - i_time st)%R with h by ring.
      split; cbn [update_states write_output i_kin i_acc k_disp k_vel i_int i_ext i_con i_old i_new i_time i_out i_mgr i_ref k_off]; auto.
      + destruct G5; split; simpl in *; auto; split; reflexivity || auto.
      + exists f. split; auto.
      + now rewrite Eo.
      + rewrite Eo. reflexivity.
    - eexists. split; [reflexivity|].
      split; cbn [update_states write_output i_kin i_acc k_disp k_vel i_int i_ext i_con i_old i_new i_time i_out i_mgr i_ref k_off]; auto.
      + destruct G5; split; simpl in *; auto; split; reflexivity || auto.
      + exists f. split; auto.
      + now rewrite Eo.
      + rewrite Eo. now rewrite app_nil_r.
  Qed.

  Lemma step_inv k st st' : good st -> explicit_step ph cfg N k st = Ok st' -> step_effect k st st'.
  Proof.
    intros G E.
    set (d' := axv (k_disp (i_kin st)) h
        (bcv h (i_time st + h) (k_disp (i_kin st)) (axv (k_vel (i_kin st)) (h / 2) (i_acc st)))).
    destruct (ph_internal ph (i_old st) (i_new st) (i_time st) (i_time st + h)%R d') as [[new' f]| | |] eqn:Ei.
    2, 3, 4: destruct (@step_pre k st G) as (mg3 & M3 & E3); rewrite E3 in E; unfold forces in E;
       cbn [i_old i_new i_time i_kin k_disp] in E; fold d' in E; rewrite Ei in E; discriminate.
    destruct (ph_contact ph) as [g|] eqn:Ec.
    - destruct (g (k + 1) d') as [fc| | |] eqn:Eg.
      2, 3, 4: destruct (@step_pre k st G) as (mg3 & M3 & E3); rewrite E3 in E; unfold forces in E;
         cbn [i_old i_new i_time i_kin k_disp] in E; fold d' in E; rewrite Ei in E; cbn [obind] in E; rewrite Ec, Eg in E; discriminate.
      destruct (@step_ok k st new' f (Some fc) G Ei) as (st2 & E2 & H2); [now rewrite Ec|]. congruence.
    - destruct (@step_ok k st new' f None G Ei) as (st2 & E2 & H2); [now rewrite Ec|]. congruence.
  Qed.

  Lemma oloop_traj {A} (f : nat -> A -> outcome A) n s s' : oloop 0 n f s = Ok s' ->
    exists tr : nat -> A, tr 0 = s /\ tr n = s' /\ forall k, k < n -> f k (tr k) = Ok (tr (k + 1)).
  Proof.
    revert s'. induction n as [|n IH]; intros s' E.
    - injection E as ->. exists (fun _ => s'). split; auto. split; auto. intros; lia.
    - unfold oloop in E. rewrite Nat.sub_0_r, seq_S, ofold_app in E. simpl plus in E.
      destruct (ofold (fun s k => f k s) (seq 0 n) s) as [s1| | |] eqn:E1; try discriminate. simpl in E.
      destruct (f n s1) as [s2| | |] eqn:E2; try discriminate. injection E as ->.
      destruct (IH s1) as (tr & T0 & Tn & Ts); [unfold oloop; now rewrite Nat.sub_0_r|].
      exists (fun k => if k =? Datatypes.S n then s' else tr k). split; [auto|]. split.
      + now rewrite Nat.eqb_refl.
      + intros k Hk. destruct (Nat.eqb_spec k (Datatypes.S n)); [lia|].
        destruct (Nat.eqb_spec (k + 1) (Datatypes.S n)).
        * replace k with n by lia. now rewrite Tn.
        * apply Ts. lia.
  Qed.
  Lemma traj_oloop {A} (f : nat -> A -> outcome A) n (tr : nat -> A) :
    (forall k, k < n -> f k (tr k) = Ok (tr (k + 1))) -> oloop 0 n f (tr 0) = Ok (tr n).
  Proof.
    induction n as [|n IH]; intros H; [reflexivity|].
    unfold oloop in *. rewrite Nat.sub_0_r in *. rewrite seq_S, ofold_app. simpl plus. rewrite IH by (intros; apply H; lia).
    simpl. rewrite H by lia. simpl. now rewrite Nat.add_1_r.
  Qed.

  (** a whole run *)
  Record traj_of (tr : nat -> istate S) (n : nat) : Prop := {
    tr_good : forall k, k <= n -> good (tr k);
    tr_step : forall k, k < n -> step_effect k (tr k) (tr (k + 1)) }.

  Lemma run_traj n st st' : good st -> oloop 0 n (explicit_step ph cfg N) st = Ok st' ->
    exists tr, tr 0 = st /\ tr n = st' /\ traj_of tr n.
  Proof.
    intros G E. destruct (oloop_traj _ _ _ E) as (tr & T0 & Tn & Ts). exists tr. split; auto. split; auto.
    assert (H : forall k, k <= n -> good (tr k)).
    { induction k as [|k IH]; intros Hk; [now rewrite T0|].
      assert (Gk : good (tr k)) by (apply IH; lia). pose proof (@step_inv k _ _ Gk (Ts k ltac:(lia))) as He.
      rewrite Nat.add_1_r in He. apply He. }
    split; auto. intros k Hk. apply step_inv; auto. apply H; lia.
  Qed.

  Lemma traj_time tr n k : traj_of tr n -> k <= n -> i_time (tr k) = (i_time (tr 0%nat) + INR k * h)%R.
  Proof.
    intros T. induction k as [|k IH]; intros Hk; [simpl; ring|].
    replace (Datatypes.S k) with (k + 1) by lia. rewrite (se_time (@tr_step tr n T k ltac:(lia))), IH by lia.
    rewrite plus_INR. simpl. ring.
  Qed.
  Lemma traj_out tr n k : traj_of tr n -> k <= n ->
    i_out (tr k) = i_out (tr 0) ++ map (fun j => written_of (tr (j + 1))) (filter (is_output cfg) (seq 0 k)).
  Proof.
    intros T. induction k as [|k IH]; intros Hk; [simpl; now rewrite app_nil_r|].
    replace (Datatypes.S k) with (k + 1) at 1 by lia. rewrite (se_out (@tr_step tr n T k ltac:(lia))), IH by lia.
    rewrite seq_S, filter_app, map_app, app_assoc. f_equal. simpl. destruct (is_output cfg k); reflexivity.
  Qed.
End Traj.
