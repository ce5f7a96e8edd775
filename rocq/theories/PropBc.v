(** Property theorems C16, C17 (boundary conditions) and C46 (quasistatic residual).
    Model: BcModel.v, LinModel.v; vocabulary: BcSpec.v, LinSpec.v. *)
From Verif Require Import Base ListLemmas Loops LinModel LinSpec CrsProofs DenseProofs BcModel BcSpec BcProofs.
From Coq Require Import Reals Lra.
Local Open Scope nat_scope.
Set Implicit Arguments.

(** b prescribes the motion of component c of node n in a step of length dt *)
Definition drives (mg : manager) (dt : R) (n c : nat) (b : bc) : Prop :=
  covers mg b n c = true /\
  (bc_kind b = PRESCRIBED_VELOCITY \/ (bc_kind b = PRESCRIBED_DISPLACEMENT /\ (0 < dt)%R)).

Lemma fold_idle mg dt t ref n c l x : (forall b, In b l -> ~ drives mg dt n c b) ->
  fold_left (entry_effect mg dt t ref n c) l x = x.
Proof.
  revert x; induction l as [|b l IH]; intros [d v] H; simpl; auto.
  assert (Hb : ~ drives mg dt n c b) by (apply H; now left).
  rewrite IH by (intros; apply H; now right).
  destruct (covers mg b n c) eqn:Ec; auto. destruct (bc_kind b) eqn:Ek; auto.
  - exfalso. apply Hb. split; auto.
  - destruct (Rlt_dec 0 dt) as [Hdt|Hdt]; auto. exfalso. apply Hb. split; auto.
Qed.
Lemma fold_explicit mg dt t ref n c l x : quasistatic_scheme (mg_scheme mg) = false ->
  fst (fold_left (entry_effect mg dt t ref n c) l x) = fst x.
Proof.
  intros Hq. revert x; induction l as [|b l IH]; intros [d v]; simpl; auto. rewrite IH, Hq.
  destruct (covers mg b n c); auto. destruct (bc_kind b); auto. destruct (Rlt_dec 0 dt); auto.
Qed.

(** C16: for every valid list of boundary conditions, node sets, times and fields the call
    succeeds, and for every node n and component c
    - if no boundary condition drives the entry, displacement and velocity keep their value;
    - if b is the last one driving it and prescribes a velocity, that is the velocity;
    - if b is the last one driving it and prescribes a displacement, then in a quasistatic run
      the displacement is the prescribed one, and in an explicit run the displacement is not
      touched and the velocity is the one that reaches the prescribed value in one step;
    - in an explicit run no displacement entry changes at all. *)
Theorem C16_kinematic_bc :
  forall mg N ref s t t0,
    bc_input_ok mg N -> shaped N (mg_dim mg) ref ->
    shaped N (mg_dim mg) (k_disp s) -> shaped N (mg_dim mg) (k_vel s) -> Forall (shaped N (mg_dim mg)) (k_off s) ->
    let dt := (t - t0)%R in
    exists mg' s', apply_kinematic mg t t0 ref s = Ok (mg', s') /\
    forall n c,
      let d := v_at (k_disp s) n c in let v := v_at (k_vel s) n c in
      let d' := v_at (k_disp s') n c in let v' := v_at (k_vel s') n c in
      ((forall b, In b (mg_bcs mg) -> ~ drives mg dt n c b) -> d' = d /\ v' = v) /\
      (quasistatic_scheme (mg_scheme mg) = false -> d' = d) /\
      (forall l1 b l2, mg_bcs mg = l1 ++ b :: l2 -> drives mg dt n c b ->
         (forall b', In b' l2 -> ~ drives mg dt n c b') ->
         let x := value_at mg ref t n b in
         match bc_kind b with
         | PRESCRIBED_VELOCITY => v' = x
         | PRESCRIBED_DISPLACEMENT =>
             if quasistatic_scheme (mg_scheme mg) then d' = x else (d' + dt * v' = x)%R
         | _ => True
         end).
Proof.
  intros mg N ref s t t0 Hin Href H1 H2 H3 dt.
  destruct (@apply_kinematic_ok mg N ref dt t Hin Href s t0 eq_refl) as (mg' & s' & E & _ & _ & K).
  { split; auto. }
  exists mg', s'. split; auto. intros n c d v d' v'.
  destruct K as (_ & _ & K & _). specialize (K n c). fold d v d' v' in K.
  assert (Hexp : quasistatic_scheme (mg_scheme mg) = false -> d' = d).
  { intros Hq. apply (f_equal fst) in K. simpl in K. rewrite K. now rewrite fold_explicit. }
  split; [|split]; auto.
  - intros Hb. rewrite fold_idle in K by auto. now injection K.
  - intros l1 b l2 El Hd Hl2 x. rewrite El, fold_left_app in K. simpl in K.
    rewrite (@fold_idle mg dt t ref n c l2) in K by auto.
    set (x1 := fold_left _ l1 (d, v)) in K. unfold entry_effect in K.
    pose proof (@fold_explicit mg dt t ref n c l1 (d, v)) as Hf. fold x1 in Hf.
    destruct x1 as [d1 v1]. destruct Hd as [Hc Hk]. rewrite Hc in K. fold x in K.
    destruct Hk as [Hk|[Hk Hdt]]; rewrite Hk in K |- *; simpl.
    + now injection K.
    + destruct (Rlt_dec 0 dt) as [_|]; [|contradiction].
      injection K as Ed Ev. destruct (quasistatic_scheme (mg_scheme mg)) eqn:Eq; [auto|].
      simpl in Hf. rewrite Ed, Ev. field. lra.
Qed.
Print Assumptions C16_kinematic_bc.

(** The off-nominal velocities of UQ runs follow the prescribed velocities (last one wins) and
    nothing else: a prescribed displacement leaves them alone. *)
Theorem C16_offnominal_velocities :
  forall mg N ref s t t0,
    bc_input_ok mg N -> shaped N (mg_dim mg) ref ->
    shaped N (mg_dim mg) (k_disp s) -> shaped N (mg_dim mg) (k_vel s) -> Forall (shaped N (mg_dim mg)) (k_off s) ->
    exists mg' s', apply_kinematic mg t t0 ref s = Ok (mg', s') /\
      Forall2 (fun u u' => forall n c,
        v_at u' n c = fold_left (fun v b =>
          if covers mg b n c then
            match bc_kind b with PRESCRIBED_VELOCITY => value_at mg ref t n b | _ => v end
          else v) (mg_bcs mg) (v_at u n c)) (k_off s) (k_off s').
Proof.
  intros mg N ref s t t0 Hin Href H1 H2 H3.
  destruct (@apply_kinematic_ok mg N ref _ t Hin Href s t0 eq_refl) as (mg' & s' & E & _ & _ & K).
  { split; auto. }
  exists mg', s'. split; auto. destruct K as (_ & _ & _ & K).
  clear - K. induction K as [|u u' l l' [_ Hu] _ IH]; constructor; auto.
Qed.
Print Assumptions C16_offnominal_velocities.

(** Initial conditions: exactly the entries named by an initial velocity are set, the last one
    listed winning, and the displacement is unchanged. *)
Theorem C16_initial_conditions :
  forall mg N ref s,
    bc_input_ok mg N -> shaped N (mg_dim mg) ref ->
    shaped N (mg_dim mg) (k_disp s) -> shaped N (mg_dim mg) (k_vel s) -> Forall (shaped N (mg_dim mg)) (k_off s) ->
    exists mg' s', apply_initial mg ref s = Ok (mg', s') /\
    forall n c,
      v_at (k_disp s') n c = v_at (k_disp s) n c /\
      ((forall b, In b (mg_bcs mg) -> bc_kind b = INITIAL_VELOCITY -> covers mg b n c = false) ->
         v_at (k_vel s') n c = v_at (k_vel s) n c) /\
      (forall l1 b l2, mg_bcs mg = l1 ++ b :: l2 -> bc_kind b = INITIAL_VELOCITY -> covers mg b n c = true ->
         (forall b', In b' l2 -> bc_kind b' = INITIAL_VELOCITY -> covers mg b' n c = false) ->
         v_at (k_vel s') n c = value_at mg ref 0%R n b).
Proof.
  intros mg N ref s Hin Href H1 H2 H3.
  destruct (@apply_initial_ok mg N ref Hin Href s) as (mg' & s' & E & _ & K); [split; auto|].
  exists mg', s'. split; auto. intros n c. destruct K as (_ & _ & K & _). specialize (K n c). simpl in K.
  injection K as Kd Kv. split; auto.
  assert (Hidle : forall l v, (forall b, In b l -> bc_kind b = INITIAL_VELOCITY -> covers mg b n c = false) ->
     fold_left (init_effect mg ref n c) l v = v).
  { induction l as [|b l IH]; intros v Hl; simpl; auto. rewrite IH by (intros; apply Hl; auto; now right).
    unfold init_effect. destruct (covers mg b n c) eqn:Ec; auto. destruct (bc_kind b) eqn:Ek; auto.
    rewrite (Hl b) in Ec; [discriminate|now left|auto]. }
  split.
  - intros Hb. rewrite Kv. now apply Hidle.
  - intros l1 b l2 El Hk Hc Hl2. rewrite Kv, El, fold_left_app. simpl. rewrite Hidle by auto.
    unfold init_effect. now rewrite Hc, Hk.
Qed.
Print Assumptions C16_initial_conditions.

(** A concrete case: two nodes, dimension 2, two overlapping node sets. *)
Definition ex_mgr : manager := Mgr [(1%Z, [0; 1]); (7%Z, [1])]
  [BC PRESCRIBED_VELOCITY 1 (-1) 0 (Magnitude 3); BC PRESCRIBED_DISPLACEMENT 7 (-1) 0 (Expression (fun x y z t => x + t)%R);
   BC PRESCRIBED_TRACTION (-1) 4 1 (Magnitude 1)] 2 EXPLICIT.
Example C16_ex_input : bc_input_ok ex_mgr 2.
Proof.
  split; simpl; auto.
  - intros b [<-|[<-|[<-|[]]]]; simpl; lia.
  - intros id n. unfold node_set. simpl. destruct (Z.eqb id 1); [simpl; intuition lia|].
    destruct (Z.eqb id 7); simpl; intuition lia.
  - intros id. unfold node_set. simpl. destruct (Z.eqb id 1).
    + repeat constructor; simpl; intuition lia.
    + destruct (Z.eqb id 7); repeat constructor; simpl; auto.
Qed.
Example C16_ex_drives : drives ex_mgr 1 1 0 (BC PRESCRIBED_DISPLACEMENT 7 (-1) 0 (Expression (fun x y z t => x + t)%R)).
Proof. split; [reflexivity|]. right. split; [reflexivity|lra]. Qed.

(** Refuted corner: the input reader accepts the z component in two dimensions
    (nimble_boundary_condition.cc 132-138); applying such a condition accesses data outside the
    views. *)
Theorem C16_z_in_2d_refuted :
  exists mg ref s, mg_dim mg = 2 /\ shaped 1 2 ref /\ shaped 1 2 (k_disp s) /\ shaped 1 2 (k_vel s) /\
    apply_kinematic mg 1 0 ref s = UB.
Proof.
  exists (Mgr [(1%Z, [0])] [BC PRESCRIBED_VELOCITY 1 (-1) 2 (Magnitude 3)] 2 EXPLICIT), (View 1 2 (fun _ _ => 0%R)),
    (Kin (View 1 2 (fun _ _ => 0%R)) (View 1 2 (fun _ _ => 0%R)) []).
  repeat split; reflexivity.
Qed.

(** C17.  Precondition [sets_known]: every boundary condition's node set id is a key of the node
    set table; C17_sets_known shows that this holds after any ApplyKinematicBC. *)
Definition sets_known (mg : manager) : Prop :=
  forall b, In b (mg_bcs mg) -> assoc Z.eqb (bc_node_set b) (mg_node_sets mg) <> None.

Theorem C17_sets_known :
  forall mg N ref s t t0 mg' s',
    bc_input_ok mg N -> shaped N (mg_dim mg) ref ->
    shaped N (mg_dim mg) (k_disp s) -> shaped N (mg_dim mg) (k_vel s) -> Forall (shaped N (mg_dim mg)) (k_off s) ->
    apply_kinematic mg t t0 ref s = Ok (mg', s') ->
    sets_known mg' /\ mg_bcs mg' = mg_bcs mg /\ mg_dim mg' = mg_dim mg /\ (forall id, node_set mg' id = node_set mg id).
Proof.
  intros mg N ref s t t0 mg' s' Hin Href H1 H2 H3 E.
  destruct (@apply_kinematic_ok mg N ref _ t Hin Href s t0 eq_refl) as (mg1 & s1 & E1 & Hs & Hk & _).
  { split; auto. }
  rewrite E1 in E. injection E as -> ->. destruct Hs as (A & B & _ & C & _).
  split; [|auto]. unfold sets_known. rewrite A. exact Hk.
Qed.
Print Assumptions C17_sets_known.

(** The sparse tangent: for a matrix obtained by any history of operations, constrained rows and
    columns end up with the requested diagonal and zeros, everything else is unchanged. *)
Theorem C17_tangent_sparse :
  forall mg gids diag pat ops a0 a,
    good_pattern pat -> Forall (op_valid pat) ops ->
    allocate_nonzeros 0%R crs_new (map fst pat) (map snd pat) = Ok a0 -> ofold op_call ops a0 = Ok a ->
    sets_known mg -> (forall id n, In n (node_set mg id) -> n < length gids) ->
    (forall k, constrained mg gids k -> In (k, k) pat) ->
    exists a', modify_tangent op_call mg gids diag a = Ok a' /\
      forall i j, In (i, j) pat ->
        (constrained mg gids i \/ constrained mg gids j -> crs_get a' i j = Ok (if i =? j then diag else 0%R)) /\
        (~ constrained mg gids i -> ~ constrained mg gids j -> crs_get a' i j = crs_get a i j).
Proof.
  intros mg gids diag pat ops a0 a Hp Ho E0 E Hk Hg Hd.
  destruct (history_refines 0%R Hp Ho) as (a0' & a1 & E0' & E' & H).
  assert (a0' = a0) by congruence. subst a0'. assert (a1 = a) by congruence. subst a1.
  set (D := fold_left op_meaning ops (fun _ _ => 0%R)) in *.
  destruct (@modify_tangent_ok _ op_call (represents pat) (op_valid pat)
     (fun a D o Ha Hv => op_refines Hp o Ha Hv) mg gids diag a D H Hk Hg) as (a' & E2 & H2).
  { intros k v Hc. specialize (Hd k Hc). split; [exists k; auto|]. split; simpl; auto. }
  exists a'. split; auto. intros i j Hij.
  destruct (get_represents Hp i j H2) as [G2 _]. destruct (get_represents Hp i j H) as [G _].
  rewrite (G Hij), (G2 Hij). rewrite constrain_all.
  pose proof (@all_dofs_constrained mg gids i Hg) as Ai. pose proof (@all_dofs_constrained mg gids j Hg) as Aj.
  split.
  - intros Hc. assert (Hb : existsb (Nat.eqb i) (all_dofs mg gids) || existsb (Nat.eqb j) (all_dofs mg gids) = true).
    { apply orb_true_iff. rewrite !existsb_eqb_In. tauto. }
    now rewrite Hb.
  - intros Hi Hj. replace (_ || _) with false; auto. symmetry. apply orb_false_iff. split;
      match goal with |- ?x = false => destruct x eqn:Ex end; auto; apply existsb_eqb_In in Ex; tauto.
Qed.
Print Assumptions C17_tangent_sparse.

(** The dense tangent. *)
Theorem C17_tangent_dense :
  forall mg gids diag n ii ops a,
    (forall i, In i ii -> i < n) -> (n = 1 \/ In (n - 1) ii) -> 0 < n ->
    Forall (dense_valid n) ops -> ofold dense_call ops (dense_allocate 0%R (dense_new (T:=R)) ii) = Ok a ->
    sets_known mg -> (forall id m, In m (node_set mg id) -> m < length gids) ->
    (forall k, constrained mg gids k -> k < n) ->
    exists a', modify_tangent dense_call mg gids diag a = Ok a' /\
      forall i j, i < n -> j < n ->
        (constrained mg gids i \/ constrained mg gids j -> dense_get a' i j = Ok (if i =? j then diag else 0%R)) /\
        (~ constrained mg gids i -> ~ constrained mg gids j -> dense_get a' i j = dense_get a i j).
Proof.
  intros mg gids diag n ii ops a Hi1 Hi2 Hn Ho E Hk Hg Hd.
  destruct (dense_history (dense_allocate_rep 0%R ii Hi1 Hi2 Hn) Ho) as (a1 & E' & H).
  assert (a1 = a) by congruence. subst a1.
  destruct (@modify_tangent_ok _ dense_call (drep n) (dense_valid n)
     (fun a D o Ha Hv => dense_op_refines o Ha Hv) mg gids diag a _ H Hk Hg) as (a' & E2 & H2).
  { intros k v Hc. specialize (Hd k Hc). simpl. auto. }
  exists a'. split; auto. intros i j Hi Hj.
  rewrite (dense_get_rep H2 Hi Hj), (dense_get_rep H Hi Hj). rewrite constrain_all.
  pose proof (@all_dofs_constrained mg gids i Hg) as Ai. pose proof (@all_dofs_constrained mg gids j Hg) as Aj.
  split.
  - intros Hc. assert (Hb : existsb (Nat.eqb i) (all_dofs mg gids) || existsb (Nat.eqb j) (all_dofs mg gids) = true).
    { apply orb_true_iff. rewrite !existsb_eqb_In. tauto. }
    now rewrite Hb.
  - intros Hi' Hj'. replace (_ || _) with false; auto. symmetry. apply orb_false_iff. split;
      match goal with |- ?x = false => destruct x eqn:Ex end; auto; apply existsb_eqb_In in Ex; tauto.
Qed.
Print Assumptions C17_tangent_dense.

(** Dense matrices behave like matrices over any history (dense counterpart of C12). *)
Theorem C12_dense_matrix_history :
  forall n ii ops, (forall i, In i ii -> i < n) -> (n = 1 \/ In (n - 1) ii) -> 0 < n ->
    Forall (dense_valid n) ops ->
    exists a, ofold dense_call ops (dense_allocate 0%R (dense_new (T:=R)) ii) = Ok a /\
      forall i j, i < n -> j < n -> dense_get a i j = Ok (fold_left op_meaning ops (fun _ _ => 0%R) i j).
Proof.
  intros n ii ops H1 H2 H3 Ho. destruct (dense_history (dense_allocate_rep 0%R ii H1 H2 H3) Ho) as (a & E & H).
  exists a. split; auto. intros i j Hi Hj. apply (dense_get_rep H Hi Hj).
Qed.
Print Assumptions C12_dense_matrix_history.

(** The right-hand side: exactly the constrained entries become zero. *)
Theorem C17_rhs :
  forall mg gids rhs, sets_known mg ->
    (forall id n, In n (node_set mg id) -> n < length gids) ->
    (forall k, constrained mg gids k -> k < length rhs) ->
    exists rhs', modify_rhs mg gids rhs = Ok rhs' /\ length rhs' = length rhs /\
      (forall k, constrained mg gids k -> nth_error rhs' k = Some 0%R) /\
      (forall k, ~ constrained mg gids k -> nth_error rhs' k = nth_error rhs k).
Proof. exact modify_rhs_ok. Qed.
Print Assumptions C17_rhs.

(** Refuted: with a traction boundary condition, before any ApplyKinematicBC, both calls throw
    (they look up the node set -1 of a condition that has a side set). *)
Theorem C17_traction_refuted :
  modify_rhs ex_mgr [0; 1] [1%R; 1%R; 1%R; 1%R] = Throw /\
  forall (a : crs R), modify_tangent (fun a _ => Ok a) ex_mgr [0; 1] 1%R a = Throw.
Proof. split; [reflexivity|]. intros a. reflexivity. Qed.
Print Assumptions C17_traction_refuted.

(** C46: the residual vector of the quasistatic solver is minus the internal force gathered per
    linear-system row, with the constrained entries zeroed; the returned measure vanishes exactly
    when the first num_nodes entries of that vector vanish. *)
Theorem C46_residual_partial :
  forall mg ls_ids force residual,
    sets_known mg -> (forall id n, In n (node_set mg id) -> n < length ls_ids) ->
    v_cols force = mg_dim mg -> length ls_ids = v_nodes force ->
    (forall l, In l ls_ids -> l * mg_dim mg + mg_dim mg <= length residual) ->
    (forall k, constrained mg ls_ids k -> k < length residual) ->
    exists r m, quasistatic_residual mg ls_ids force residual = Ok (r, m) /\
      length r = length residual /\
      (forall k, constrained mg ls_ids k -> nth k r 0%R = 0%R) /\
      (forall k, k < length residual -> ~ constrained mg ls_ids k ->
         nth k r 0%R = (- Rsum (v_nodes force) (fun n => Rsum (mg_dim mg) (fun d =>
            if (nth n ls_ids 0 * mg_dim mg + d =? k)%nat then v_at force n d else 0)))%R) /\
      (m = 0%R <-> forall k, k < v_nodes force -> nth k r 0%R = 0%R).
Proof.
  intros mg ls_ids force residual Hk Hg Hc Hl Hb Hd. unfold quasistatic_residual.
  destruct (@assemble_ok (mg_dim mg) ls_ids force residual Hc Hl Hb) as (r & E & Hlen & H). rewrite E. simpl obind.
  destruct (@modify_rhs_ok mg ls_ids r Hk Hg) as (r' & E' & Hl' & H1 & H2).
  { intros k Hkk. rewrite Hlen. auto. }
  rewrite E'. simpl. do 2 eexists. split; [reflexivity|]. split; [lia|]. split; [|split].
  - intros k Hkk. apply nth_error_nth_eq. auto.
  - intros k Hkk Hn. specialize (H k Hkk). unfold gathered in H. etransitivity; [|exact H]. specialize (H2 k Hn).
    destruct (nth_error r k) eqn:Er.
    + rewrite (@nth_error_nth_eq _ r' k 0%R _ H2). symmetry. now apply nth_error_nth_eq.
    + apply nth_error_None in Er. lia.
  - apply residual_measure_zero.
Qed.
Print Assumptions C46_residual_partial.

(** Refuted: the measure is zero although the residual is not (one node in three dimensions,
    force along y): only the first num_nodes of the dim*num_nodes entries are measured. *)
Theorem C46_measure_ignores_entries_refuted :
  exists mg force r, quasistatic_residual mg [0] force [0%R; 0%R; 0%R] = Ok (r, 0%R) /\
    bc_input_ok mg 1 /\ sets_known mg /\ nth 1 r 0%R <> 0%R.
Proof.
  set (mg := Mgr [] [] 3 QUASISTATIC). set (f := View 1 3 (fun n c => if (c =? 1)%nat then 1%R else 0%R)).
  destruct (@assemble_ok 3 [0] f [0%R; 0%R; 0%R]) as (r & E & Hl & H); [reflexivity|reflexivity| |].
  { intros l [<-|[]]. simpl. lia. }
  exists mg, f, r. split; [|split; [|split]].
  - unfold quasistatic_residual. change (mg_dim mg) with 3. rewrite E.
    cbn [obind modify_rhs ofold mg_bcs mg]. f_equal. f_equal. apply (proj2 (residual_measure_zero (v_nodes f) r)).
    intros i Hi. assert (i = 0) by (simpl in Hi; lia). subst i. rewrite H by (simpl; lia).
    unfold gathered. simpl. ring.
  - split; simpl; auto; intros; try contradiction. constructor.
  - intros b [].
  - rewrite H by (simpl; lia). unfold gathered. simpl. lra.
Qed.
Print Assumptions C46_measure_ignores_entries_refuted.
