(** From the set-up to the end of a history. *)
From Coq Require Import Reals Lra Sorted Permutation FunctionalExtensionality.
From Verif Require Import Base Strings ListLemmas DataModel DataProofs Loops ElemDataProofs4 TensorModel TensorSpec ElementModel ElementSpec ElementProofs BlockModel BlockProofs KokkosModel KokkosProofs KokkosSpec KokkosSpec2 KokkosProofs2 KokkosProofs3 KokkosProofs4 KokkosProofs5 KokkosProofs6 KokkosProofs7 KokkosProofs8 KokkosProofs9 KokkosProofs10 KokkosProofs11 KokkosProofs12 KokkosProofs13 KokkosProofs14 KokkosProofs15 KokkosProofs16 KokkosProofs17.
Set Implicit Arguments.
Local Open Scope nat_scope.
Local Open Scope list_scope.
Local Notation length := List.length.

Section Calls.
  Variables (same : bool) (reduce : list R -> list R) (N : nat) (mesh : list mblock) (W : place -> view) (ref mass : list R) (dt : R).
  Hypothesis Hred : forall x, length (reduce x) = length x.
  Hypothesis Gb : forall k, k < length mesh -> good_block N (nblock mesh k).
  Hypothesis Hn : forall k, k < length mesh -> km_states (mb_mat (nblock mesh k)) = 0.
  Let SIM := sim same N mesh W ref mass dt.
  Lemma call_sim sched d p o : valid_sched sched -> SIM d p -> proper o ->
    (forall p', plain_step same reduce N ref mesh p o = Ok p' -> exists d', call reduce sched d o = Ok d' /\ SIM d' p') /\
    (forall d', call reduce sched d o = Ok d' -> exists p', plain_step same reduce N ref mesh p o = Ok p').
  Proof.
    intros Hs S Hp. destruct o; cbn [call].
    - now apply write_sim.
    - now apply write_vel_sim.
    - cbn [plain_step]. split; [|eauto]. intros p' [= <-]. eapply keep_sim; eauto.
    - cbn [plain_step]. split; [|eauto]. intros p' [= <-]. eapply push_disp_sim; eauto.
    - cbn [plain_step]. split; [|eauto]. intros p' [= <-]. eapply push_vel_sim; eauto.
    - now apply force_sim.
    - cbn [plain_step]. split; [|eauto]. intros p' [= <-]. eapply update_sim; eauto.
  Qed.
  Lemma calls_sim scheds ops : (forall n, valid_sched (scheds n)) -> Forall proper ops -> forall a d p, SIM d p ->
    (forall p', ofold (plain_step same reduce N ref mesh) ops p = Ok p' ->
       exists d', ofold (fun d x => call reduce (scheds (fst x)) d (snd x)) (combine (seq a (length ops)) ops) d = Ok d' /\ SIM d' p') /\
    (forall d', ofold (fun d x => call reduce (scheds (fst x)) d (snd x)) (combine (seq a (length ops)) ops) d = Ok d' -> exists p', ofold (plain_step same reduce N ref mesh) ops p = Ok p').
  Proof.
    intros Hs Hp. induction Hp as [|o ops Ho Hp IH]; intros a d p S; cbn [length seq combine ofold fst snd].
    - split; [intros p' [= <-]; eauto|eauto].
    - destruct (@call_sim (scheds a) d p o (Hs a) S Ho) as [A B]. split.
      + intros p' H. destruct (plain_step same reduce N ref mesh p o) as [p1| | |]; try discriminate. destruct (A p1 eq_refl) as (d1 & -> & S1). cbn [obind] in *. now apply (IH (Datatypes.S a) d1 p1 S1).
      + intros d' H. destruct (call reduce (scheds a) d o) as [d1| | |] eqn:E; try discriminate. destruct (B d1 eq_refl) as (p1 & E1). rewrite E1 in *. destruct (A p1 eq_refl) as (d1' & Ed & S1).
        injection Ed as <-. cbn [obind] in *. exact (proj2 (IH (Datatypes.S a) d1 p1 S1) d' H).
  Qed.
  Lemma points_seen d st : wired same N mesh W d -> psized N mesh W (kd_heap d) -> kd_blocks d = conns mesh ->
    device_points d st = Ok (map (fun k => (mem W (kd_heap d) (Pl false (FF st k)), mem W (kd_heap d) (Pl false (FS st k)))) (seq 0 (length mesh))).
  Proof.
    intros Wd Hsz Eb. pose proof (wired_layout Wd Eb Gb) as L. unfold device_points. rewrite Eb. unfold conns. rewrite (map_index mesh (fun b => (mb_id b, KBlock b (mb_conn b)))).
    assert (G : forall l, (forall i, In i l -> i < length mesh) -> omapM (fun e : nat * kblock => do F <- dev_ipt (kd_tables d) KFullIntPt (fst e) (f_def_grad (kd_ids d)) st; do S <- dev_ipt (kd_tables d) KSymIntPt (fst e) (f_stress (kd_ids d)) st;
      do x <- vget (kd_heap d) (v_id F); do y <- vget (kd_heap d) (v_id S); Ok (x, y)) (map (fun i => (mb_id (nblock mesh i), KBlock (nblock mesh i) (mb_conn (nblock mesh i)))) l) =
      Ok (map (fun k => (mem W (kd_heap d) (Pl false (FF st k)), mem W (kd_heap d) (Pl false (FS st k)))) l)).
    { induction l as [|i l IH]; intros Hl; [reflexivity|]. cbn [map omapM fst]. assert (Hi : i < length mesh) by (apply Hl; now left). rewrite (l_F L st Hi). cbn [obind]. rewrite (l_S L st Hi). cbn [obind dslot].
      unfold vget at 1. rewrite (proj1 (mem_at (Pl false (FF st i)) Hsz Hi)). cbn [obind]. unfold vget at 1. rewrite (proj1 (mem_at (Pl false (FS st i)) Hsz Hi)). cbn [obind].
      rewrite IH by (intros; apply Hl; now right). reflexivity. }
    apply G. intros i Hi. apply in_seq in Hi. lia.
  Qed.
  Lemma sim_shows d p m : SIM d p -> mass = reduce (map m (seq 0 N)) -> shows reduce N d m p.
  Proof.
    intros S Em. destruct (host_views (s_wired S)) as (V1 & _ & V3 & _ & V5 & V6 & _). pose proof (s_sized S) as Hsz.
    constructor; unfold host_read, host_scalar; rewrite ?V1, ?V3, ?V5, ?V6; cbn [obind]; unfold vget.
    - rewrite (proj1 (mem_at (Pl true FDisp) Hsz I)). now rewrite (s_hu S).
    - rewrite (proj1 (mem_at (Pl true FVel) Hsz I)). now rewrite (s_hv S).
    - rewrite (proj1 (mem_at (Pl true FForce) Hsz I)). now rewrite (s_f S).
    - rewrite (proj1 (mem_at (Pl true FMass) Hsz I)). now rewrite (s_mass S), Em.
    - rewrite (points_seen STEP_N (s_wired S) Hsz (s_blocks S)). now rewrite (s_old S).
    - rewrite (points_seen STEP_NP1 (s_wired S) Hsz (s_blocks S)). now rewrite (s_new S).
  Qed.
End Calls.

(** * The set-up *)
Lemma unit_F_eq n : unit_F n = unit_gradients n.
Proof.
  unfold unit_F, unit_gradients. set (r := [1; 1; 1; 0; 0; 0; 0; 0; 0]%R). induction n as [|n IH]; [reflexivity|]. rewrite Nat.mul_succ_l, Nat.add_comm, repeat_app, concat_app. cbn [repeat List.concat]. cbn [repeat List.concat] in IH. rewrite IH. reflexivity.
Qed.
Lemma sorted_unique (l1 l2 : list mblock) : StronglySorted lt (map mb_id l1) -> StronglySorted lt (map mb_id l2) -> Permutation l1 l2 -> l1 = l2.
Proof.
  revert l2. induction l1 as [|a l1 IH]; intros l2 S1 S2 P; [apply Permutation_nil in P; now subst|]. destruct l2 as [|b l2]; [symmetry in P; now apply Permutation_nil in P|].
  cbn [map] in *. inversion S1 as [|? ? T1 F1]; subst. inversion S2 as [|? ? T2 F2]; subst. rewrite Forall_forall in F1, F2.
  assert (Hb : a = b \/ (In a l2 /\ In b l1)).
  { assert (Ha : In a (b :: l2)) by (eapply Permutation_in; [exact P|now left]). assert (Hb : In b (a :: l1)) by (eapply Permutation_in; [symmetry; exact P|now left]).
    destruct Ha as [->|Ha]; [now left|]. destruct Hb as [->|Hb]; auto. }
  destruct Hb as [->|[Ha Hb]].
  - f_equal. apply IH; auto. eapply Permutation_cons_inv; exact P.
  - specialize (F1 (mb_id b) (in_map mb_id _ _ Hb)). specialize (F2 (mb_id a) (in_map mb_id _ _ Ha)). lia.
Qed.
Lemma filter_perm {A} (f : A -> bool) l l' : Permutation l l' -> length (filter f l) = length (filter f l').
Proof. induction 1; simpl; auto; [destruct (f x); simpl; auto|destruct (f x), (f y); auto|congruence]. Qed.
Lemma filter_two {A} (f : A -> bool) l : forall i j a b, nth_error l i = Some a -> nth_error l j = Some b -> f a = true -> f b = true -> i < j -> 2 <= length (filter f l).
Proof.
  induction l as [|x l IH]; intros i j a b Hi Hj Fa Fb Hij; [destruct i; discriminate|]. destruct j as [|j]; [lia|]. destruct i as [|i]; simpl in *.
  - injection Hi as ->. rewrite Fa. simpl. apply nth_error_In in Hj. assert (In b (filter f l)) by (apply filter_In; auto). destruct (filter f l); [contradiction|simpl; lia].
  - specialize (IH i j a b Hi Hj Fa Fb ltac:(lia)). destruct (f x); simpl; lia.
Qed.
Lemma apart_sep keep mesh : work_arrays_apart keep mesh -> forall m, Permutation m mesh -> sep_ok keep m.
Proof.
  intros [->|H] m P; [now left|]. right. intros i j Hi Hj. rewrite <- (filter_perm (fun b => mb_num_elem b =? 1) P) in H.
  rewrite nth_error_map in Hi, Hj. destruct (nth_error m i) as [a|] eqn:Ea; [|discriminate]. destruct (nth_error m j) as [b|] eqn:Eb; [|discriminate]. injection Hi as Ha. injection Hj as Hb.
  destruct (Nat.lt_trichotomy i j) as [Hl|[He|Hl]]; auto; exfalso.
  - pose proof (@filter_two _ (fun b => mb_num_elem b =? 1) m i j a b Ea Eb (proj2 (Nat.eqb_eq _ _) Ha) (proj2 (Nat.eqb_eq _ _) Hb) Hl). lia.
  - pose proof (@filter_two _ (fun b => mb_num_elem b =? 1) m j i b a Eb Ea (proj2 (Nat.eqb_eq _ _) Hb) (proj2 (Nat.eqb_eq _ _) Ha) Hl). lia.
Qed.

Lemma set_up same keep dim N coords out mesh ms : dim = 2 \/ dim = 3 -> hex_mesh N mesh -> work_arrays_apart keep mesh -> by_id ms mesh ->
  exists d W, (do d <- initialize same (lit "explicit") dim N coords; initialize_blocks keep (lit "explicit") out mesh d) = Ok d /\ kd_disp d = None /\ kd_vel d = None /\
    kd_blocks d = unconns ms /\ wired same N ms W d /\
    forall x, vplace ms x -> nth_error (kd_heap d) (v_id (W x)) = Some (fresh N ms (nodal_coordinates dim N coords) (device_coordinates same dim N coords) x).
Proof.
  intros Hd [H1 H2 H3] Ha [P S]. destruct (@initialize_ok same dim N coords Hd) as (d0 & i & E0 & A1 & A2 & A3 & A4 & A5 & A6 & A7 & A8).
  pose proof (@setup_initial same N dim coords d0 i E0 A1 A2 A3 A4 A5 A6 (conj A7 A8)) as U.
  destruct (@initialize_blocks_ok same N (coord_list dim N coords) _ i mesh d0 keep out U H3 H1 (apart_sep Ha)) as (d & W & E & B1 & B2 & B3 & B4 & B5 & B6 & B7 & B8 & B9).
  assert (Em : mesh_of d = ms) by (apply sorted_unique; auto; rewrite B4; now symmetry). rewrite Em in *.
  exists d, W. change (lit "explicit") with explicit. rewrite E0. cbn [obind]. rewrite E. split; [reflexivity|]. split; [exact B2|]. split; [exact B3|]. split; [exact B6|]. split; [exact B7|]. exact B9.
Qed.

Lemma nblock_hex N mesh ms : hex_mesh N mesh -> by_id ms mesh -> (forall k, k < length ms -> good_block N (nblock ms k)) /\ (forall k, k < length ms -> km_states (mb_mat (nblock ms k)) = 0).
Proof.
  intros [H1 H2 H3] [P S]. split; intros k Hk; [apply H2|apply H3]; eapply Permutation_in; try exact P; now apply nblock_in.
Qed.
Theorem history same keep dbl_max reduce scheds out dim N coords mesh ms ops :
  (forall n, valid_sched (scheds n)) -> (forall x, length (reduce x) = length x) -> dim = 2 \/ dim = 3 -> hex_mesh N mesh -> work_arrays_apart keep mesh -> by_id ms mesh -> Forall proper ops ->
  (forall m p, plain_run same reduce dim N coords ms ops = Ok (m, p) ->
    exists d, device_run same keep dbl_max reduce scheds out dim N coords mesh ops = Ok d /\ shows reduce N d m p /\
      kd_dt d = serial_time_step dbl_max (nodal_coordinates dim N coords) (repeat 0%R (N * 3)) ms) /\
  (forall d, device_run same keep dbl_max reduce scheds out dim N coords mesh ops = Ok d -> exists m p, plain_run same reduce dim N coords ms ops = Ok (m, p)).
Proof.
  intros Hs Hred Hd Hm Ha Hb Hp. destruct (@set_up same keep dim N coords out mesh ms Hd Hm Ha Hb) as (d0 & W & E0 & B1 & B2 & B3 & Wd & At).
  destruct (nblock_hex Hm Hb) as [Gb Hn].
  assert (L1 : length (nodal_coordinates dim N coords) = N * 3) by (unfold nodal_coordinates; now rewrite map_length, seq_length).
  assert (L2 : length (device_coordinates same dim N coords) = N * 3) by (unfold device_coordinates; destruct same; [exact L1|apply repeat_length]).
  assert (Hsz : psized N ms W (kd_heap d0)) by (intros x Hx; eexists; split; [exact (At x Hx)|now apply fresh_length]).
  assert (M : forall x, vplace ms x -> mem W (kd_heap d0) x = fresh N ms (nodal_coordinates dim N coords) (device_coordinates same dim N coords) x) by (intros x Hx; unfold mem; now rewrite (At x Hx)).
  destruct (@mass_whole (scheds 0) keep same dbl_max reduce N ms W d0 (Hs 0) Wd Hsz B3 (proj2 Hb) Gb (apart_sep Ha (proj1 Hb)) Hred) as [MA MB].
  assert (M1 : mem W (kd_heap d0) (Pl false FRef) = device_coordinates same dim N coords) by exact (M (Pl false FRef) I).
  assert (M2 : mem W (kd_heap d0) (Pl true FRef) = nodal_coordinates dim N coords) by exact (M (Pl true FRef) I).
  assert (M3 : mem W (kd_heap d0) (Pl true FDisp) = repeat 0%R (N * 3)) by exact (M (Pl true FDisp) I).
  rewrite M1, M2, M3 in MA. rewrite M1 in MB.
  assert (Start : forall m, serial_mass (device_coordinates same dim N coords) ms = Ok m -> exists d1, compute_lumped_mass_data (scheds 0) keep dbl_max reduce d0 = Ok d1 /\
    sim same N ms W (device_coordinates same dim N coords) (reduce (map m (seq 0 N))) (serial_time_step dbl_max (nodal_coordinates dim N coords) (repeat 0%R (N * 3)) ms) d1 (plain_start N ms)).
  { intros m Em. destruct (MA m Em) as (d1 & E1 & Wd1 & Sz1 & Bl1 & _ & K1 & K2 & T1 & Ms & Fr). exists d1. split; [exact E1|].
    assert (Q : forall b f, vfield ms f -> f <> FMass -> mem W (kd_heap d1) (Pl b f) = fresh N ms (nodal_coordinates dim N coords) (device_coordinates same dim N coords) (Pl b f)).
    { intros b f Vf Hf. rewrite Fr by assumption. now apply M. }
    constructor; unfold plain_start; cbn [p_kept p_hu p_du p_hv p_dv p_f p_old p_new].
    1: exact Wd1. 1: exact Sz1. 1: exact Bl1. 1: exact T1. 1: rewrite K1; exact B1. 1: rewrite K2; exact B2. 2: exact Ms.
    1: exact (Q false FRef I ltac:(discriminate)).
    1: exact (Q true FDisp I ltac:(discriminate)).
    1: exact (Q false FDisp I ltac:(discriminate)).
    1: exact (Q true FVel I ltac:(discriminate)).
    1: exact (Q false FVel I ltac:(discriminate)).
    1: exact (Q true FForce I ltac:(discriminate)).
    - rewrite (map_index ms undeformed). apply map_ext_in. intros k Hk. apply in_seq in Hk. rewrite (Q false (FF STEP_N k)), (Q false (FS STEP_N k)) by (simpl; try lia; discriminate). cbn [fresh fext fkind width]. unfold undeformed. now rewrite unit_F_eq.
    - rewrite (map_index ms undeformed). apply map_ext_in. intros k Hk. apply in_seq in Hk. rewrite (Q false (FF STEP_NP1 k)), (Q false (FS STEP_NP1 k)) by (simpl; try lia; discriminate). cbn [fresh fext fkind width]. unfold undeformed. now rewrite unit_F_eq. }
  unfold device_run, plain_run.
  assert (E0' : forall K : kdata -> outcome kdata, obind (initialize same (lit "explicit") dim N coords) (fun d => obind (initialize_blocks keep (lit "explicit") out mesh d) K) = K d0).
  { intros K. rewrite <- obind_assoc. exact (f_equal (fun o => obind o K) E0). }
  rewrite E0'. unfold calls.
  split.
  - intros m p H. destruct (serial_mass _ ms) as [m0| | |] eqn:Em in H; try discriminate. cbn [obind] in H. destruct (ofold _ ops _) as [p0| | |] eqn:Ep in H; try discriminate. cbn [obind] in H. injection H as -> ->.
    destruct (Start m Em) as (d1 & -> & S1). cbn [obind].
    destruct (proj1 (@calls_sim same reduce N ms W _ _ _ Hred Gb Hn scheds ops Hs Hp 1 d1 _ S1) p Ep) as (d' & E & S'). exists d'. split; [exact E|]. split; [eapply sim_shows; eauto|exact (s_dt S')].
  - intros d H. destruct (compute_lumped_mass_data _ _ _ _ _) as [d1| | |] eqn:E1 in H; try discriminate. destruct (MB d1 E1) as (m & Em). destruct (Start m Em) as (d1' & E1' & S1). rewrite E1 in E1'. injection E1' as <-. cbn [obind] in H.
    rewrite Em. cbn [obind]. destruct (proj2 (@calls_sim same reduce N ms W _ _ _ Hred Gb Hn scheds ops Hs Hp 1 d1 _ S1) d H) as (p & Ep). rewrite Ep. cbn [obind]. eauto.
Qed.
