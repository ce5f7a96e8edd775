(** The memory of the initialised object: which view every field and work array has. *)
From Coq Require Import Reals Lra Sorted Permutation.
From Verif Require Import Base Strings ListLemmas DataModel DataProofs Loops InputProofs3 ElemDataProofs4 KokkosModel KokkosProofs KokkosSpec KokkosProofs5 KokkosProofs7 KokkosProofs8 KokkosProofs9 KokkosProofs10 KokkosProofs11.
Set Implicit Arguments.
Local Open Scope nat_scope.
Local Open Scope list_scope.
Local Notation length := List.length.

(** the fields the loops use; k counts the blocks *)
Inductive field := FRef | FDisp | FForce | FVel | FMass | FF (st : step_t) (k : nat) | FS (st : step_t) (k : nat).
Inductive gkind := Gref | Gdisp | Gforce.
(** a field on the host (true) or the device (false), or a work array *)
Inductive place := Pl (host : bool) (f : field) | PG (g : gkind) (k : nat).
Definition vfield (mesh : list mblock) (f : field) : Prop := match f with FF _ k | FS _ k => k < length mesh | _ => True end.
Definition vplace (mesh : list mblock) (x : place) : Prop := match x with Pl _ f => vfield mesh f | PG _ k => k < length mesh end.
Definition fkind (f : field) : kind := match f with FRef | FDisp | FForce | FVel => KVectorNode | FMass => KScalarNode | FF _ _ => KFullIntPt | FS _ _ => KSymIntPt end.
Definition fext (N : nat) (mesh : list mblock) (f : field) : nat := match f with FF _ k | FS _ k => mb_num_elem (nblock mesh k) | _ => N end.
Definition psize (N : nat) (mesh : list mblock) (x : place) : nat :=
  match x with Pl _ f => fext N mesh f * width (fkind f) | PG _ k => mb_num_elem (nblock mesh k) * 24 end.
Definition canon (same : bool) (x : place) : place := match x with Pl b f => Pl (b && negb same) f | _ => x end.
(** ids: of the nodal fields, of the deformation gradient and of the stress *)
Definition keyf (i : node_ids) (iF iS : nat) (mesh : list mblock) (f : field) : key :=
  match f with
  | FRef => KNode (n_ref i) | FDisp => KNode (n_disp i) | FForce => KNode (n_force i) | FVel => KNode (n_vel i) | FMass => KNode (n_mass i)
  | FF st k => KIpt (mb_id (nblock mesh k)) iF st | FS st k => KIpt (mb_id (nblock mesh k)) iS st
  end.
Definition glist (d : kdata) (g : gkind) : list view := match g with Gref => kd_gref d | Gdisp => kd_gdisp d | Gforce => kd_gforce d end.
Record wired (same : bool) (N : nat) (mesh : list mblock) (W : place -> view) (d : kdata) : Prop := {
  w_keys : exists i iF iS, labelled (kd_tables d) i /\ ids_of i (kd_ids d) /\
    (0 < length mesh -> f_def_grad (kd_ids d) = Some iF /\ f_stress (kd_ids d) = Some iS /\ f_unrotated (kd_ids d) = Some iS) /\
    forall f, vfield mesh f -> look (kd_tables d) (keyf i iF iS mesh f) = Some (KF (fkind f) (W (Pl true f)), KF (fkind f) (W (Pl false f)));
  w_ext : forall b f, vfield mesh f -> v_extent (W (Pl b f)) = fext N mesh f;
  w_inj : forall x y, vplace mesh x -> vplace mesh y -> v_id (W x) = v_id (W y) -> canon same x = canon same y;
  w_same : forall f, same = true -> vfield mesh f -> W (Pl true f) = W (Pl false f);
  w_g : forall g k, k < length mesh -> nth_error (glist d g) k = Some (W (PG g k))
}.
Definition psized (N : nat) (mesh : list mblock) (W : place -> view) (h : heap) : Prop := forall x, vplace mesh x -> has h (W x) (psize N mesh x).
Lemma wired_eq same N mesh W d d' : kd_tables d = kd_tables d' -> kd_ids d = kd_ids d' -> kd_gref d = kd_gref d' -> kd_gdisp d = kd_gdisp d' -> kd_gforce d = kd_gforce d' ->
  wired same N mesh W d -> wired same N mesh W d'.
Proof.
  intros E1 E2 E3 E4 E5 [H1 H2 H3 H4 H5]. constructor; auto.
  - rewrite <- E1, <- E2. exact H1.
  - intros g k Hk. specialize (H5 g k Hk). destruct g; simpl in *; congruence.
Qed.
Definition dslot (s : slot) : place :=
  match s with SRef => Pl false FRef | SDisp => Pl false FDisp | SForce => Pl false FForce | SGref k => PG Gref k | SGdisp k => PG Gdisp k | SGforce k => PG Gforce k
  | SF st k => Pl false (FF st k) | SS st k => Pl false (FS st k) end.
Lemma dslot_valid mesh s : valid_slot mesh s -> vplace mesh (dslot s).
Proof. destruct s; simpl; auto. Qed.
Lemma dslot_size N mesh s : psize N mesh (dslot s) = slot_size mesh N s.
Proof. destruct s; reflexivity. Qed.
Definition conns (mesh : list mblock) : list (nat * kblock) := map (fun b => (mb_id b, KBlock b (mb_conn b))) mesh.
Lemma wired_layout same N mesh W d : wired same N mesh W d -> kd_blocks d = conns mesh -> (forall k, k < length mesh -> good_block N (nblock mesh k)) ->
  layout d N mesh (fun s => W (dslot s)) (W (Pl true FForce)).
Proof.
  intros Wd Eb Gb. destruct (w_keys Wd) as (i & iF & iS & Lb & (I1 & I2 & I3 & I4 & I5) & Ip & Lk).
  assert (Nd : forall f, vfield mesh f -> match f with FF _ _ | FS _ _ => False | _ => True end -> forall n, keyf i iF iS mesh f = KNode n ->
    host_node (kd_tables d) (fkind f) (Some n) = Ok (W (Pl true f)) /\ dev_node (kd_tables d) (fkind f) (Some n) = Ok (W (Pl false f))).
  { intros f Hf _ n Ek. specialize (Lk f Hf). rewrite Ek in Lk. exact (look_node _ _ Lk). }
  constructor.
  - exact Eb.
  - exact Gb.
  - rewrite I1. exact (proj2 (Nd FRef I I _ eq_refl)).
  - rewrite I2. exact (proj2 (Nd FDisp I I _ eq_refl)).
  - rewrite I5. exact (proj2 (Nd FForce I I _ eq_refl)).
  - rewrite I5. exact (proj1 (Nd FForce I I _ eq_refl)).
  - intros k Hk. unfold vat. now rewrite (w_g Wd Gref Hk : nth_error (kd_gref d) k = _).
  - intros k Hk. unfold vat. now rewrite (w_g Wd Gdisp Hk : nth_error (kd_gdisp d) k = _).
  - intros k Hk. unfold vat. now rewrite (w_g Wd Gforce Hk : nth_error (kd_gforce d) k = _).
  - intros k st Hk. destruct Ip as (-> & _ & _); [lia|]. exact (proj2 (look_ipt _ _ _ _ (Lk (FF st k) Hk))).
  - intros k st Hk. destruct Ip as (_ & -> & _); [lia|]. exact (proj2 (look_ipt _ _ _ _ (Lk (FS st k) Hk))).
  - intros s1 s2 H1 H2 E. apply (w_inj Wd (dslot s1) (dslot s2) (dslot_valid _ _ H1) (dslot_valid _ _ H2)) in E.
    destruct s1, s2; simpl in E; congruence.
  - destruct same eqn:Es; [left; now apply (w_same Wd)|]. right. intros s Hv E.
    apply (w_inj Wd (Pl true FForce) (dslot s) I (dslot_valid _ _ Hv)) in E. destruct s; discriminate.
  - cbn [dslot]. now rewrite !(w_ext Wd) by exact I.
  - intros k Hk. cbn [dslot]. now rewrite !(w_ext Wd) by exact Hk.
  - intros k Hk. cbn [dslot]. now rewrite !(w_ext Wd) by exact Hk.
Qed.
Lemma psized_sized N mesh W h : psized N mesh W h -> sized N mesh (fun s => W (dslot s)) (W (Pl true FForce)) h.
Proof. intros H. split; [|exact (H (Pl true FForce) I)]. intros s Hv. rewrite <- dslot_size. apply H. now apply dslot_valid. Qed.
Lemma psized_sizes N mesh W h h' : same_sizes h h' -> psized N mesh W h -> psized N mesh W h'.
Proof. intros S H x Hx. destruct (H x Hx) as (d & D1 & D2). destruct (sizes_at _ S D1) as (d' & E1 & E2). exists d'. split; auto. congruence. Qed.

(** * InitializeBlocks *)
(** contents of the places of a new object *)
Definition fresh (N : nat) (mesh : list mblock) (hr dr : list R) (x : place) : list R :=
  match x with
  | Pl true FRef => hr | Pl false FRef => dr
  | Pl _ (FF _ k) => unit_F (mb_num_elem (nblock mesh k))
  | Pl _ f => repeat 0%R (fext N mesh f * width (fkind f))
  | PG _ k => repeat 0%R (mb_num_elem (nblock mesh k) * 24)
  end.
Lemma fresh_length N mesh hr dr x : length hr = N * 3 -> length dr = N * 3 -> length (fresh N mesh hr dr x) = psize N mesh x.
Proof. intros H1 H2. destruct x as [[] []|]; simpl; auto; try apply repeat_length; apply unit_F_length. Qed.
Definition mesh_of (d : kdata) : list mblock := map (fun e => kb_mesh (snd e)) (kd_blocks d).
Definition unconns (mesh : list mblock) : list (nat * kblock) := map (fun b => (mb_id b, KBlock b [])) mesh.
Lemma setup_mesh same N hr dr i bs d : setup same N hr dr i bs d -> kd_blocks d = unconns (mesh_of d) /\ Permutation (mesh_of d) bs /\ StronglySorted lt (map mb_id (mesh_of d)).
Proof.
  intros U.
  assert (A : forall e, In e (kd_blocks d) -> e = (mb_id (kb_mesh (snd e)), KBlock (kb_mesh (snd e)) [])).
  { intros e He. apply (Permutation_in _ (su_blocks U)) in He. apply in_map_iff in He. destruct He as (b & <- & _). reflexivity. }
  split; [|split].
  - unfold unconns, mesh_of. rewrite map_map. symmetry. rewrite <- (map_id (kd_blocks d)) at 2. apply map_ext_in. intros e He. symmetry. now apply A.
  - unfold mesh_of. rewrite (Permutation_map _ (su_blocks U)). rewrite map_map. simpl. rewrite map_id. reflexivity.
  - pose proof (su_sorted U) as S. unfold keys_sorted in S. replace (map mb_id (mesh_of d)) with (map fst (kd_blocks d)); auto.
    unfold mesh_of. rewrite map_map. apply map_ext_in. intros e He. rewrite (A e He). reflexivity.
Qed.
Lemma sorted_inj l : StronglySorted lt l -> forall a b x, nth_error l a = Some x -> nth_error l b = Some x -> a = b.
Proof.
  induction 1 as [|y l S IH F]; intros [|a] [|b] x Ha Hb; simpl in *; try discriminate; auto.
  - injection Ha as ->. apply nth_error_In in Hb. rewrite Forall_forall in F. apply F in Hb. lia.
  - injection Hb as ->. apply nth_error_In in Ha. rewrite Forall_forall in F. apply F in Ha. lia.
  - f_equal. eauto.
Qed.
Lemma nblock_at mesh k : k < length mesh -> nth_error mesh k = Some (nblock mesh k).
Proof. intros H. unfold nblock. destruct (nth_error mesh k) as [b|] eqn:E; [|apply nth_error_None in E; lia]. now rewrite (nth_error_nth _ _ no_block E). Qed.
Lemma nblock_in mesh k : k < length mesh -> In (nblock mesh k) mesh.
Proof. intros H. eapply nth_error_In. apply nblock_at; exact H. Qed.
Definition sep_ok (keep : bool) (mesh : list mblock) : Prop := separate keep (map mb_num_elem mesh).
Definition hview (tb : tables) (x : key) : view := match look tb x with Some p => kf_view (fst p) | None => View 0 0 end.
Definition dview (tb : tables) (x : key) : view := match look tb x with Some p => kf_view (snd p) | None => View 0 0 end.
Lemma initialize_blocks_ok same N hr dr i mesh d0 keep out :
  setup same N hr dr i [] d0 -> (forall b, In b mesh -> km_states (mb_mat b) = 0) -> NoDup (map mb_id mesh) ->
  (forall m, Permutation m mesh -> sep_ok keep m) ->
  exists d W, initialize_blocks keep explicit out mesh d0 = Ok d /\ kd_same d = same /\ kd_disp d = None /\ kd_vel d = None /\
    Permutation (mesh_of d) mesh /\ StronglySorted lt (map mb_id (mesh_of d)) /\ kd_blocks d = unconns (mesh_of d) /\
    wired same N (mesh_of d) W d /\ good same (state_of d) /\
    forall x, vplace (mesh_of d) x -> nth_error (kd_heap d) (v_id (W x)) = Some (fresh N (mesh_of d) hr dr x).
Proof.
  intros U0 Hst Nd Hsep. unfold initialize_blocks.
  destruct (@setup_fold same N hr dr i out mesh [] d0 U0 Hst) as (d & E & U); [now rewrite app_nil_r|]. rewrite app_nil_r in U.
  rewrite E. cbn [obind]. change (chars_eqb explicit (lit "explicit")) with true. cbv iota zeta.
  destruct (setup_mesh U) as (Eb & Pm & Sm). set (ms := mesh_of d) in *.
  assert (Es : map (fun e : nat * kblock => mb_num_elem (kb_mesh (snd e))) (kd_blocks d) = map mb_num_elem ms) by (unfold ms, mesh_of; now rewrite map_map).
  rewrite Es. set (sizes := map mb_num_elem ms). assert (Lm : length mesh = length sizes) by (unfold sizes; rewrite map_length; symmetry; now apply Permutation_length).
  rewrite Lm. assert (Sp : separate keep sizes) by (apply Hsep; exact Pm).
  destruct (@gathered_ok keep (kd_heap d) sizes (8 * 3) Sp) as (h1 & g1 & E1 & K1 & L1 & H1 & J1). rewrite E1. cbn [obind fst snd].
  destruct (@gathered_ok keep h1 sizes (8 * 3) Sp) as (h2 & g2 & E2 & K2 & L2 & H2 & J2). rewrite E2. cbn [obind fst snd].
  destruct (@gathered_ok keep h2 sizes (8 * 3) Sp) as (h3 & g3 & E3 & K3 & L3 & H3 & J3). rewrite E3. cbn [obind fst snd].
  assert (K : keeps (kd_heap d) h3) by (eapply keeps_trans; [exact K1|eapply keeps_trans; eauto]).
  assert (PtsAll : exists iF iS, forall b, In b ms -> f_def_grad (kd_ids d) = Some iF /\ f_stress (kd_ids d) = Some iS /\ f_unrotated (kd_ids d) = Some iS /\
    new_points (state_of d) (mb_id b) (mb_num_elem b) iF iS).
  { destruct ms as [|b0 ms'] eqn:Ems; [exists 0, 0; intros b []|].
    assert (In' : forall b, In b ms -> In b mesh) by (intros b Hb; eapply Permutation_in; [exact Pm|rewrite <- Ems; exact Hb]).
    destruct (su_points U b0 (In' b0 ltac:(rewrite Ems; now left))) as (iF & iS & F1 & F2 & F3 & _). exists iF, iS. intros b Hb.
    destruct (su_points U b (In' b ltac:(rewrite Ems; exact Hb))) as (jF & jS & G1 & G2 & G3 & G4).
    assert (jF = iF) as -> by congruence. assert (jS = iS) as -> by congruence. auto. }
  destruct PtsAll as (iF & iS & Pts).
  set (tb := kd_tables d).
  set (W := fun x => match x with Pl true f => hview tb (keyf i iF iS ms f) | Pl false f => dview tb (keyf i iF iS ms f)
    | PG Gref k => nth k g1 (View 0 0) | PG Gdisp k => nth k g2 (View 0 0) | PG Gforce k => nth k g3 (View 0 0) end).
  (* the fields *)
  assert (Hf : forall f, vfield ms f -> holds (state_of d) (keyf i iF iS ms f) (fkind f) (fext N ms f) (fresh N ms hr dr (Pl true f)) (fresh N ms hr dr (Pl false f))).
  { intros f Vf. destruct (su_nodal U). destruct f; simpl in *; auto.
    - rewrite Nat.mul_1_r. assumption.
    - destruct (Pts _ (nblock_in ms Vf)) as (_ & _ & _ & _ & _ & P). exact (proj1 (P st)).
    - destruct (Pts _ (nblock_in ms Vf)) as (_ & _ & _ & _ & _ & P). exact (proj2 (P st)). }
  assert (Lk : forall f, vfield ms f -> look tb (keyf i iF iS ms f) = Some (KF (fkind f) (W (Pl true f)), KF (fkind f) (W (Pl false f)))).
  { intros f Vf. destruct (Hf f Vf) as (([kh vh] & [kd vd]) & P1 & P2 & P3 & _). simpl in P2, P3. subst kh kd. unfold W, hview, dview.
    change (look tb (keyf i iF iS ms f) = Some (KF (fkind f) vh, KF (fkind f) vd)) in P1. rewrite P1. reflexivity. }
  assert (At : forall b f, vfield ms f -> nth_error (kd_heap d) (v_id (W (Pl b f))) = Some (fresh N ms hr dr (Pl b f)) /\ v_extent (W (Pl b f)) = fext N ms f).
  { intros b f Vf. destruct (Hf f Vf) as (p & P1 & _ & _ & P4 & P5 & P6 & P7). change (look tb (keyf i iF iS ms f) = Some p) in P1. rewrite (Lk f Vf) in P1.
    injection P1 as <-. unfold vid, extent in *. cbn [kf_view fst snd] in *. destruct b; auto. }
  assert (Kinj : forall f g, vfield ms f -> vfield ms g -> keyf i iF iS ms f = keyf i iF iS ms g -> f = g).
  { destruct (su_lab U) as [B0 B1 B2 B3 B4 B5 B6 B7]. unfold label_of in *. pose proof (su_good U) as G.
    assert (Nf : 0 < length ms -> iF <> iS).
    { intros Hl. destruct (Pts _ (nblock_in ms Hl)) as (_ & _ & _ & L5 & L6 & _). eapply label_ne; [exact G|exact L5|exact L6|discriminate]. }
    assert (Bi : forall a b, a < length ms -> b < length ms -> mb_id (nblock ms a) = mb_id (nblock ms b) -> a = b).
    { intros a b Ha Hb E'. apply (@sorted_inj _ Sm a b (mb_id (nblock ms a))).
      - apply map_nth_error. now apply nblock_at.
      - rewrite E'. apply map_nth_error. now apply nblock_at. }
    assert (Nl : forall x y a b, assoc chars_eqb x (tb_labels (kd_tables d)) = Some a -> assoc chars_eqb y (tb_labels (kd_tables d)) = Some b -> x <> y -> a = b -> False).
    { intros x y a b Hx Hy Hne E'. exact (@label_ne same (state_of d) x y a b G Hx Hy Hne E'). }
    intros f g Vf Vg E'. destruct f, g; simpl in E'; try discriminate; auto; try (injection E' as E'; exfalso; eapply Nl; [..|exact E']; [eassumption|eassumption|discriminate]).
    - injection E' as E1' E2'. simpl in Vf, Vg. apply Bi in E1'; auto. congruence.
    - injection E' as E1' E2' E3'. simpl in Vf. exfalso. apply Nf; [lia|assumption].
    - injection E' as E1' E2' E3'. simpl in Vf. exfalso. apply Nf; [lia|now symmetry].
    - injection E' as E1' E2'. simpl in Vf, Vg. apply Bi in E1'; auto. congruence. }
  (* the work arrays *)
  assert (Gv : forall g k, k < length ms -> exists v, (match g with Gref => nth_error g1 k | Gdisp => nth_error g2 k | Gforce => nth_error g3 k end) = Some v /\ W (PG g k) = v /\
    nth_error h3 (v_id v) = Some (repeat 0%R (mb_num_elem (nblock ms k) * 24)) /\
    match g with Gref => length (kd_heap d) <= v_id v < length h1 | Gdisp => length h1 <= v_id v < length h2 | Gforce => length h2 <= v_id v end).
  { intros g k Hk. assert (Sz : nth_error sizes k = Some (mb_num_elem (nblock ms k))) by (apply map_nth_error; now apply nblock_at).
    destruct g.
    - destruct (H1 k _ Sz) as (v & V1 & (V2 & V3) & V4). exists v. split; [exact V1|]. split; [unfold W; now apply nth_error_nth|].
      assert (v_id v < length h1) by (eapply nth_some_lt; eauto). destruct K2 as [Q1 Q2]. destruct K3 as [Q3 Q4]. split; [rewrite Q4, Q2 by lia; exact V3|]. lia.
    - destruct (H2 k _ Sz) as (v & V1 & (V2 & V3) & V4). exists v. split; [exact V1|]. split; [unfold W; now apply nth_error_nth|].
      assert (v_id v < length h2) by (eapply nth_some_lt; eauto). destruct K3 as [Q3 Q4]. split; [rewrite Q4 by lia; exact V3|]. lia.
    - destruct (H3 k _ Sz) as (v & V1 & (V2 & V3) & V4). exists v. split; [exact V1|]. split; [unfold W; now apply nth_error_nth|]. split; [exact V3|]. lia. }
  assert (Low : forall b f, vfield ms f -> v_id (W (Pl b f)) < length (kd_heap d)) by (intros b f Vf; eapply nth_some_lt; apply (At b f Vf)).
  set (d' := KD (kd_same d) (kd_tables d) h3 (kd_ids d) (kd_blocks d) g1 g2 g3 (kd_dt d) (kd_disp d) (kd_vel d)).
  assert (Em : mesh_of d' = ms) by reflexivity.
  exists d', W. split; [reflexivity|]. split; [exact (su_same U)|]. split; [exact (proj1 (su_views U))|]. split; [exact (proj2 (su_views U))|].
  rewrite Em. split; [exact Pm|]. split; [exact Sm|]. split; [exact Eb|].
  assert (Le : length (kd_heap d) <= length h1 /\ length h1 <= length h2 /\ length h2 <= length h3) by (destruct K1, K2, K3; auto).
  split; [|split].
  - constructor.
    + exists i, iF, iS. split; [exact (su_lab U)|]. split; [exact (su_ids U)|]. split; [|exact Lk].
      intros Hl. destruct (Pts _ (nblock_in ms Hl)) as (Q1 & Q2 & Q3 & _). auto.
    + intros b f Vf. apply (At b f Vf).
    + assert (HL : forall b f g k, vfield ms f -> k < length ms -> v_id (W (Pl b f)) = v_id (W (PG g k)) -> False).
      { intros b f g k Vf Hk E'. pose proof (Low b f Vf). destruct (Gv g k Hk) as (v & _ & Ev & _ & Hb). rewrite Ev in E'. destruct g; lia. }
      intros x y Vx Vy E'. destruct x as [b f|g k], y as [b' f'|g' k'].
      * assert (f = f' \/ f <> f') as [<-|Hne].
        { destruct (key_dec (keyf i iF iS ms f) (keyf i iF iS ms f')) as [Ek|Ek]; [left; now apply Kinj|right; intros ->; now apply Ek]. }
        -- simpl. f_equal. pose proof (g_pair (su_good U) _ (Lk f Vx : look (fst (state_of d)) _ = _)) as (_ & _ & _ & _ & Sp').
           destruct same; [now rewrite !andb_false_r|]. unfold vid in Sp'. cbn [fst snd kf_view] in Sp'. rewrite !andb_true_r. destruct b, b'; auto; congruence.
        -- exfalso. assert (Hk : keyf i iF iS ms f <> keyf i iF iS ms f') by (intros Ek; apply Hne; now apply Kinj).
           pose proof (@g_apart _ _ (su_good U) _ _ _ _ (Lk f Vx : look (fst (state_of d)) _ = _) (Lk f' Vy : look (fst (state_of d)) _ = _) Hk) as Ap.
           apply (Ap (KF (fkind f) (W (Pl b f))) (KF (fkind f') (W (Pl b' f')))); [destruct b; simpl; auto|destruct b'; simpl; auto|exact E'].
      * exfalso. exact (HL b f g' k' Vx Vy E').
      * exfalso. exact (HL b' f' g k Vy Vx (eq_sym E')).
      * simpl. destruct (Gv g k Vx) as (v & V1 & V2 & _ & V3). destruct (Gv g' k' Vy) as (v' & V1' & V2' & _ & V3'). rewrite V2, V2' in E'.
        destruct g, g'; try (exfalso; lia); f_equal; [exact (J1 k k' v v' V1 V1' E')|exact (J2 k k' v v' V1 V1' E')|exact (J3 k k' v v' V1 V1' E')].
    + intros f Hs Vf. pose proof (g_pair (su_good U) _ (Lk f Vf : look (fst (state_of d)) _ = _)) as (_ & _ & _ & _ & Sp'). rewrite Hs in Sp'. cbn [fst snd] in Sp'. congruence.
    + intros g k Hk. destruct (Gv g k Hk) as (v & V1 & V2 & _). rewrite V2. destruct g; exact V1.
  - unfold d', state_of. cbn [kd_tables kd_heap]. eapply good_keeps; [exact K|]. exact (su_good U).
  - intros x Vx. unfold d'. cbn [kd_heap]. destruct x as [b f|g k].
    + destruct K as [_ K]. rewrite K by (now apply Low). apply (At b f Vx).
    + destruct (Gv g k Vx) as (v & _ & V2 & V3 & _). rewrite V2. exact V3.
Qed.
