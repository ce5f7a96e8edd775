(** Output manager: sessions. *)
From Coq Require Import Reals Lra.
From Verif Require Import Base Strings ListLemmas DataModel DataProofs Loops TensorModel TensorSpec ElementModel ElementSpec BlockModel InputModel InputProofs3 ElemDataModel ElemDataProofs4 KokkosModel KokkosSpec3 KokkosProofs KokkosProofs7 KokkosProofs8 KokkosProofs9 KokkosProofs19
  KokkosOutModel KokkosOutSpec KokkosOutProofs1 KokkosOutProofs2 KokkosOutProofs3 KokkosOutProofs4 KokkosOutProofs5 KokkosOutProofs6 KokkosOutProofs7.
Set Implicit Arguments.
Local Open Scope nat_scope.
Local Open Scope list_scope.
Local Notation length := List.length.

Lemma tinv_ext same N tb h h' : tinv same N (tb, h) -> (forall g x, nth_error h g = Some x -> exists y, nth_error h' g = Some y /\ length y = length x) -> tinv same N (tb, h').
Proof.
  intros [[G1 G2 G3] A B C D E F] S. constructor; auto. constructor; auto. intros k p Hp. cbn [fst snd] in *. destruct (G2 k p Hp) as (P1 & P2 & P3).
  split; [|split; [|exact P3]].
  - destruct P1 as (x & X1 & X2). destruct (S _ _ X1) as (y & Y1 & Y2). exists y. split; auto. congruence.
  - destruct P2 as (x & X1 & X2). destruct (S _ _ X1) as (y & Y1 & Y2). exists y. split; auto. congruence.
Qed.
Lemma nassoc_in {A} (l : list (nat * A)) k x : NoDup (map fst l) -> In (k, x) l -> assoc Nat.eqb k l = Some x.
Proof.
  induction l as [|[a b] l IH]; simpl; [tauto|]. intros Hn [E|Hi]; inversion_clear Hn.
  - injection E as -> ->. now rewrite Nat.eqb_refl.
  - destruct (Nat.eqb_spec k a) as [->|]; [|auto]. exfalso. apply H. change a with (fst (a, x)). now apply in_map.
Qed.
Lemma nassoc_some {A} (l : list (nat * A)) k : In k (map fst l) -> exists x, assoc Nat.eqb k l = Some x /\ In (k, x) l.
Proof.
  induction l as [|[a b] l IH]; simpl; [tauto|]. intros [<-|H]; [rewrite Nat.eqb_refl; eauto|]. destruct (IH H) as (x & X1 & X2). destruct (Nat.eqb_spec k a) as [->|]; eauto.
Qed.
Definition count (d : kdata) (b : nat) : option nat := match assoc Nat.eqb b (kd_blocks d) with Some x => Some (mb_num_elem (kb_mesh x)) | None => None end.
Definition apart_from (tb : tables) (g : nat) : Prop := forall k p, look tb k = Some p -> g <> vid (fst p) /\ g <> vid (snd p).
Definition held_pair (tb : tables) (o : option (view * view)) : Prop :=
  match o with None => True | Some (a, b) => exists i, look tb (KNode i) = Some (KF KVectorNode a, KF KVectorNode b) end.
Record sinv (words : list chars) (d : kdata) (m : omgr) : Prop := {
  si_ready : ready (kd_same d) (count d) words (map fst (kd_blocks d)) (kd_tables d, kd_heap d) m;
  si_ids : block_ids (kd_tables d) = map fst (kd_blocks d);
  si_nodup : NoDup (map fst (kd_blocks d));
  si_gather : forall i id b, nth_error (kd_blocks d) i = Some (id, b) -> exists vr vu xr xu,
    nth_error (kd_gref d) i = Some vr /\ nth_error (kd_gdisp d) i = Some vu /\ nth_error (kd_heap d) (v_id vr) = Some xr /\ nth_error (kd_heap d) (v_id vu) = Some xu /\
    length xr = mb_num_elem (kb_mesh b) * 24 /\ length xu = mb_num_elem (kb_mesh b) * 24 /\ apart_from (kd_tables d) (v_id vr) /\ apart_from (kd_tables d) (v_id vu);
  si_disp : held_pair (kd_tables d) (kd_disp d);
  si_vel : held_pair (kd_tables d) (kd_vel d)
}.
Lemma ready_heap same N words ids tb h h' m : ready same N words ids (tb, h) m -> shaped h h' -> ready same N words ids (tb, h') m.
Proof. intros [A B C D E E' F] S. constructor; auto. eapply shaped_tinv; eauto. Qed.
Lemma sinv_heap words d m h : sinv words d m -> shaped (kd_heap d) h -> sinv words (with_heap d h) m.
Proof.
  intros [A B C D E F] S. constructor; cbn [kd_same kd_tables kd_heap kd_blocks kd_gref kd_gdisp kd_disp kd_vel with_heap]; auto.
  - exact (ready_heap A S).
  - intros i id b Hi. destruct (D i id b Hi) as (vr & vu & xr & xu & R1 & R2 & R3 & R4 & R5 & R6 & R7 & R8).
    destruct (shaped_cell _ S R3) as (xr' & R3' & L3). destruct (shaped_cell _ S R4) as (xu' & R4' & L4). exists vr, vu, xr', xu'. refine (conj R1 (conj R2 (conj R3' (conj R4' (conj _ (conj _ (conj R7 R8))))))); congruence.
Qed.
(** ** The start *)
Lemma dev_node_look same N s k id v : tinv same N s -> dev_node (fst s) k (Some id) = Ok v -> exists vh, look (fst s) (KNode id) = Some (KF k vh, KF k v).
Proof.
  intros T E. unfold dev_node in E. apply obind_ok in E. destruct E as (i & Ei & E). apply obind_ok in E. destruct E as (f & Ef & E). apply cast_inv in E. subst f.
  destruct (proj1 (ti_twin T)) as [A B]. set (t := tb_node (fst s)) in *.
  unfold mat_id, mat in Ei. destruct (assoc Nat.eqb id (t_didx t)) eqn:Ei'; [|discriminate]. injection Ei as ->.
  unfold vat in Ef. destruct (nth_error (t_dev t) i) eqn:Ef'; [|discriminate]. injection Ef as ->.
  assert (X : exists f, look (fst s) (KNode id) = Some (f, KF k v)).
  { unfold look. fold t. unfold tlook, pair_at. rewrite A, Ei', Ef'.
    destruct (nth_error (t_host t) i) eqn:Eh; [eauto|]. apply nth_error_None in Eh. apply nth_some_lt in Ef'. lia. }
  destruct X as [[k' vh] X]. pose proof (pair_kind T _ X) as K. cbn [fst snd kf_kind] in K. subst k'. eauto.
Qed.
Lemma node_pair same N s id a b : tinv same N s -> host_node (fst s) KVectorNode id = Ok a -> dev_node (fst s) KVectorNode id = Ok b -> held_pair (fst s) (Some (a, b)).
Proof.
  intros T Ha Hb. destruct id as [i|]; [|discriminate]. destruct (host_node_look T _ _ Ha) as (b' & L). destruct (dev_node_look _ _ T Hb) as (a' & L').
  exists i. rewrite L in L'. assert (b' = b) by congruence. congruence.
Qed.
Lemma start_inv l d0 d m out : device_object l d0 -> initialize_exodus_output out d0 = Ok (d, m) -> sinv (split_blank out []) d m.
Proof.
  intros [O1 O2 O3 O4 (h0 & rs & O5 & O6 & O7)] E.
  assert (T0 : tinv (kd_same d0) (count d0) (kd_tables d0, h0)).
  { eapply all_tinv; [exact O1| |exact O5]. intros a b n Ha Hh Hn. unfold count in Hn. destruct (assoc Nat.eqb b (kd_blocks d0)) as [x|] eqn:Ea; [|discriminate].
    assert (Hx : In (b, x) (kd_blocks d0)).
    { destruct (nassoc_some (kd_blocks d0) b) as (x' & X1 & X2); [|congruence]. clear - Ea. induction (kd_blocks d0) as [|[c y] l IH]; [discriminate|]. simpl in *. destruct (Nat.eqb_spec b c) as [->|]; auto. }
    rewrite (O2 a b x Ha Hx Hh). congruence. }
  pose proof (@tinv_ext _ _ _ _ _ T0 O6) as T1. unfold initialize_exodus_output in E. apply obind_ok in E. destruct E as ([s' m'] & E1 & E). apply obind_ok in E. destruct E as (d1 & E2 & E). cbn [fst snd] in *.
  assert (d1 = d) as -> by congruence. assert (m' = m) as -> by congruence. clear E.
  assert (Hb : block_ids (kd_tables d0) = map fst (kd_blocks d0)) by exact O3.
  destruct (@specify_ready (kd_same d0) (count d0) (state_of d0) out s' m T1) as (G & Rd); [unfold state_of; cbn [fst]; now rewrite Hb| |exact E1|].
  { unfold state_of. cbn [fst]. rewrite Hb. intros b Hi. destruct (nassoc_some _ _ Hi) as (x & X1 & _). unfold count. rewrite X1. discriminate. }
  unfold state_of in G, Rd. cbn [fst] in Rd. rewrite Hb in Rd.
  unfold keep_views in E2. cbn [kd_tables with_tables kd_ids] in E2. apply obind_ok in E2. destruct E2 as (uh & U1 & E2). apply obind_ok in E2. destruct E2 as (ud & U2 & E2).
  apply obind_ok in E2. destruct E2 as (vh & U3 & E2). apply obind_ok in E2. destruct E2 as (vd & U4 & E2).
  match type of E2 with Ok ?z = _ => assert (Ed : d = z) by congruence end. clear E2. subst d.
  destruct s' as [tb' h']. constructor; cbn [kd_same kd_tables kd_heap kd_blocks kd_gref kd_gdisp kd_disp kd_vel with_tables fst snd] in *.
  - exact Rd.
  - rewrite <- Hb. unfold block_ids. exact (f_equal (map fst) (gr_iidx G)).
  - exact O4.
  - intros i id b Hi. destruct (O7 i id b Hi) as (vr & vu & xr & xu & R1 & R2 & R3 & R4 & R5 & R6 & R7 & R8). exists vr, vu, xr, xu.
    destruct (gr_heap G) as [K1 K2]. cbn [snd] in *.
    assert (AP : forall g x, length h0 <= g -> nth_error (kd_heap d0) g = Some x -> apart_from tb' g).
    { intros g x Hg Hx k p Hp. pose proof (nth_some_lt _ _ Hx) as Hlt. destruct (gr_vids G k Hp) as [H|[H1 H2]]; cbn [fst snd] in *; [|lia].
      destruct (g_pair (ti_good T0) k H) as (S1 & S2 & _). apply stored_lt in S1. apply stored_lt in S2. cbn [snd] in *. lia. }
    refine (conj R1 (conj R2 (conj _ (conj _ (conj R7 (conj R8 (conj (@AP _ _ R3 R5) (@AP _ _ R4 R6)))))))); rewrite K2; [exact R5|exact (nth_some_lt _ _ R5)|exact R6|exact (nth_some_lt _ _ R6)].
  - exact (@node_pair _ _ (tb', h') _ _ _ (rd_inv Rd) U1 U2).
  - exact (@node_pair _ _ (tb', h') _ _ _ (rd_inv Rd) U3 U4).
Qed.
(** ** Copies to the device *)
Lemma copy_inv words d m o d1 : sinv words d m -> held_pair (kd_tables d) o -> copy_views o d = Ok d1 ->
  exists h1, d1 = with_heap d h1 /\ shaped (kd_heap d) h1 /\
  (forall k p, look (kd_tables d) k = Some p -> nth_error h1 (vid (fst p)) = nth_error (kd_heap d) (vid (fst p)) /\
    ((forall i, k <> KNode i) -> nth_error h1 (vid (snd p)) = nth_error (kd_heap d) (vid (snd p)))) /\
  (forall g, apart_from (kd_tables d) g -> nth_error h1 g = nth_error (kd_heap d) g).
Proof.
  intros I H E. destruct o as [[a b]|]; cbn [copy_views held_pair] in *.
  - destruct H as (i & L). apply obind_ok in E. destruct E as (h1 & E1 & E). exists h1. split; [congruence|]. clear E.
    pose proof (rd_inv (si_ready I)) as T. destruct (g_pair (ti_good T) _ L) as ((x & X1 & X2) & (y & Y1 & Y2) & Kk & Ex & Sm). unfold vid, extent in *. cbn [fst snd kf_view kf_kind] in *.
    unfold deep_copy, vget in E1. destruct (v_extent b =? v_extent a); [|discriminate]. rewrite X1 in E1. cbn [obind] in E1. assert (Eh : h1 = list_set (kd_heap d) (v_id b) x) by congruence. clear E1.
    split; [rewrite Eh; eapply shaped_set; [exact Y1|congruence]|].
    assert (Oth : forall g, g <> v_id b -> nth_error h1 g = nth_error (kd_heap d) g).
    { intros g Hg. rewrite Eh, nth_error_list_set. destruct (Nat.eqb_spec g (v_id b)); [contradiction|reflexivity]. }
    assert (Own : nth_error h1 (v_id a) = nth_error (kd_heap d) (v_id a)).
    { destruct (kd_same d); [|now apply Oth]. assert (a = b) as -> by congruence. rewrite Eh. rewrite nth_set_same by (eapply nth_some_lt; eauto). symmetry. congruence. }
    split.
    + intros k p Hp. destruct (key_dec k (KNode i)) as [->|Hk].
      * rewrite L in Hp. assert (p = (KF KVectorNode a, KF KVectorNode b)) as -> by congruence. cbn [fst snd kf_view]. split; [exact Own|]. intros H. elim (H i eq_refl).
      * pose proof (@g_apart _ (kd_tables d, kd_heap d) (ti_good T) _ _ _ _ Hp L Hk) as A. split; [apply Oth|intros _; apply Oth]; [apply (A (fst p) (KF KVectorNode b))|apply (A (snd p) (KF KVectorNode b))]; simpl; auto.
    + intros g Hg. apply Oth. exact (proj2 (Hg _ _ L)).
  - exists (kd_heap d). assert (d1 = d) as -> by congruence. destruct d. split; [reflexivity|]. split; [reflexivity|]. auto.
Qed.
(** ** The columns of a block see only the fields *)
Lemma columns_heap tb h h' b n x u words : (forall k f v, point_field tb k b f = Some v -> held h' v = held h v) ->
  (forall k f v, element_field tb k b f = Some v -> held h' v = held h v) -> block_columns tb h' b n x u words = block_columns tb h b n x u words.
Proof.
  intros Hp He. unfold block_columns. f_equal.
  assert (Q : forall kp ke w names word, tensor_columns tb h' b n x u kp ke w names word = tensor_columns tb h b n x u kp ke w names word).
  { intros kp ke w names word. unfold tensor_columns. destruct (meaning word) as [f|f p].
    - destruct (point_field tb kp b f) as [v|] eqn:Ev; auto. now rewrite (Hp _ _ _ Ev).
    - destruct (point_field tb kp b f) as [v|] eqn:Ev; auto. rewrite (Hp _ _ _ Ev). destruct (element_field tb ke b word) as [v'|] eqn:Ev'; auto. now rewrite (He _ _ _ Ev'). }
  f_equal; apply flat_map_in; intros; apply Q.
Qed.
Lemma held_eq h h' v : nth_error h' (v_id v) = nth_error h (v_id v) -> held h' v = held h v.
Proof.
  intros E. unfold held. destruct (nth_error h (v_id v)) as [x|] eqn:Ex; [now rewrite (nth_error_nth _ _ _ E), (nth_error_nth _ _ _ Ex)|].
  apply nth_error_None in E. apply nth_error_None in Ex. now rewrite !nth_overflow.
Qed.
(** ** WriteExodusOutput *)
Definition gat (d : kdata) (l : list view) (id : nat) : list R :=
  match find (fun e => fst (snd e) =? id) (numbered (kd_blocks d)) with
  | Some e => match nth_error l (fst e) with Some v => held (kd_heap d) v | None => [] end
  | None => []
  end.
Lemma gat_ok d l i id b v : NoDup (map fst (kd_blocks d)) -> nth_error (kd_blocks d) i = Some (id, b) -> nth_error l i = Some v -> gat d l id = held (kd_heap d) v.
Proof.
  intros Hn Hi Hv. unfold gat. destruct (find _ _) as [[j [id' b']]|] eqn:F.
  - apply find_some in F. destruct F as [F1 F2]. cbn [fst snd] in *. apply Nat.eqb_eq in F2. subst id'. apply numbered_nth in F1.
    assert (j = i) as ->.
    { pose proof (proj1 (NoDup_nth_error _) Hn) as Nn. apply Nn; [rewrite map_length; eapply nth_some_lt; eauto|]. rewrite !nth_error_map, F1, Hi. reflexivity. }
    now rewrite Hv.
  - destruct (in_numbered _ _ (nth_error_In _ _ Hi)) as (j & Hj). eapply find_none in F; [|exact Hj]. cbn [fst snd] in F. rewrite Nat.eqb_refl in F. discriminate.
Qed.
Lemma write_inv words d m sched d' m' nodes elems : sinv words d m -> valid_sched sched -> write_exodus_output sched d m = Ok (d', m', (nodes, elems)) ->
  sinv words d' m' /\ d' = with_heap d (kd_heap d') /\ nodes = node_columns (kd_tables d) (kd_heap d) words /\
  (forall i id b vr vu, nth_error (kd_blocks d) i = Some (id, b) -> nth_error (kd_gref d) i = Some vr -> nth_error (kd_gdisp d) i = Some vu ->
    assoc Nat.eqb id elems = Some (block_columns (kd_tables d) (kd_heap d) id (mb_num_elem (kb_mesh b)) (held (kd_heap d) vr) (held (kd_heap d) vu) words)) /\
  (forall x, In x (map fst elems) <-> In x (map fst (kd_blocks d))) /\
  (forall k p, look (kd_tables d) k = Some p -> (forall b id, k <> KElem b id) ->
    nth_error (kd_heap d') (vid (fst p)) = nth_error (kd_heap d) (vid (fst p)) /\ ((forall i, k <> KNode i) -> nth_error (kd_heap d') (vid (snd p)) = nth_error (kd_heap d) (vid (snd p)))).
Proof.
  intros I Hs E. unfold write_exodus_output in E. apply obind_ok in E. destruct E as (d1 & E1 & E). apply obind_ok in E. destruct E as (d2 & E2 & E).
  apply obind_ok in E. destruct E as (d3 & E3 & E). apply obind_ok in E. destruct E as (ncols & E4 & E). apply obind_ok in E. destruct E as (ecols & E5 & E).
  assert (Ed' : d' = d3) by congruence. subst d3. match type of E with Ok (_, ?z, _) = _ => assert (Em' : m' = z) by congruence end.
  match type of E with Ok (_, _, (?a, ?b)) = _ => assert (En : nodes = a) by congruence; assert (Ee : elems = b) by congruence end. clear E.
  unfold update_with_new_displacement in E1. destruct (@copy_inv _ _ _ _ _ I (si_disp I) E1) as (h1 & Ed1 & S1 & C1 & G1).
  assert (I1 : sinv words d1 m) by (rewrite Ed1; now apply sinv_heap).
  unfold update_with_new_velocity in E2. destruct (@copy_inv _ _ _ _ _ I1 (si_vel I1) E2) as (h2 & Ed2 & S2 & C2 & G2).
  assert (I2 : sinv words d2 m) by (rewrite Ed2; now apply sinv_heap).
  assert (Ed : d2 = with_heap d h2) by (rewrite Ed2, Ed1; reflexivity). rewrite Ed1 in S2, C2, G2. cbn [kd_heap kd_tables with_heap] in S2, C2, G2.
  assert (C : forall k p, look (kd_tables d) k = Some p -> nth_error h2 (vid (fst p)) = nth_error (kd_heap d) (vid (fst p)) /\
    ((forall i, k <> KNode i) -> nth_error h2 (vid (snd p)) = nth_error (kd_heap d) (vid (snd p)))).
  { intros k p Hp. destruct (C1 k p Hp) as [A1 A2]. destruct (C2 k p Hp) as [B1 B2]. split; [congruence|]. intros Hk. rewrite B2, A2; auto. }
  assert (G : forall g, apart_from (kd_tables d) g -> nth_error h2 g = nth_error (kd_heap d) g) by (intros g Hg; rewrite G2, G1; auto).
  clear C1 C2 G1 G2 E1 E2 Ed1 Ed2 S1 S2 I1 d1 h1. pose proof (rd_inv (si_ready I2)) as T. pose proof (rd_inv (si_ready I)) as T'.
  assert (Ht : kd_tables d2 = kd_tables d) by (rewrite Ed; reflexivity). assert (Hb : kd_blocks d2 = kd_blocks d) by (rewrite Ed; reflexivity).
  assert (Hh : kd_heap d2 = h2) by (rewrite Ed; reflexivity).
  assert (HN : forall id b, In (id, b) (kd_blocks d2) -> count d2 id = Some (mb_num_elem (kb_mesh b))).
  { intros id b Hi. unfold count. now rewrite (@nassoc_in _ _ _ _ (si_nodup I2) Hi). }
  assert (HG : forall i id b, nth_error (kd_blocks d2) i = Some (id, b) -> exists vr vu, nth_error (kd_gref d2) i = Some vr /\ nth_error (kd_gdisp d2) i = Some vu /\
      nth_error (kd_heap d2) (v_id vr) = Some (gat d2 (kd_gref d2) id) /\ nth_error (kd_heap d2) (v_id vu) = Some (gat d2 (kd_gdisp d2) id) /\
      length (gat d2 (kd_gref d2) id) = mb_num_elem (kb_mesh b) * 24 /\ length (gat d2 (kd_gdisp d2) id) = mb_num_elem (kb_mesh b) * 24 /\
      outside (kd_tables d2) (v_id vr) /\ outside (kd_tables d2) (v_id vu)).
  { intros i id b Hi. destruct (si_gather I2 i Hi) as (vr & vu & xr & xu & R1 & R2 & R3 & R4 & R5 & R6 & R7 & R8). exists vr, vu.
    rewrite (@gat_ok _ _ _ _ _ _ (si_nodup I2) Hi R1), (@gat_ok _ _ _ _ _ _ (si_nodup I2) Hi R2). unfold held. rewrite (nth_error_nth _ _ _ R3), (nth_error_nth _ _ _ R4).
    refine (conj R1 (conj R2 (conj R3 (conj R4 (conj R5 (conj R6 (conj _ _))))))); intros b' id' p Hp; [exact (R7 _ _ Hp)|exact (R8 _ _ Hp)]. }
  assert (HR : forall id b, In (id, b) (kd_blocks d2) -> block_done (count d2) words (kd_tables d2) m id).
  { intros id b Hi. apply (rd_blocks (si_ready I2)). change id with (fst (id, b)). now apply in_map. }
  destruct (@compute_ok (kd_same d2) (count d2) (kd_tables d2) (kd_heap d2) (gat d2 (kd_gref d2)) (gat d2 (kd_gdisp d2)) T sched m d2 words Hs eq_refl HN HG HR (rd_vol (si_ready I2)) d' eq_refl E3)
    as (done & Ed3 & S & K).
  assert (Ht3 : kd_tables d' = kd_tables d2) by (rewrite Ed3; reflexivity).
  assert (Hb3 : kd_blocks d' = kd_blocks d2) by (rewrite Ed3; reflexivity).
  pose proof (sinv_heap I2 (st_shape S)) as I3. rewrite <- Ed3 in I3.
  (* nodes *)
  assert (On : forall k p, look (kd_tables d2) k = Some p -> (forall b id, k <> KElem b id) -> nth_error (kd_heap d') (vid (fst p)) = nth_error (kd_heap d2) (vid (fst p)) /\ nth_error (kd_heap d') (vid (snd p)) = nth_error (kd_heap d2) (vid (snd p))).
  { intros k p Hp Hk. split; apply (st_out S); intros b id q Hq; pose proof (@g_apart _ (kd_tables d2, kd_heap d2) (ti_good T) _ _ _ _ Hp Hq (Hk b id)) as A; split; apply A; simpl; auto. }
  assert (Hnodes : nodes = node_columns (kd_tables d) (kd_heap d) words).
  { rewrite En. rewrite (@node_read _ _ (kd_tables d') (kd_heap d') (rd_inv (si_ready I3)) words d' (om_node m) ncols eq_refl eq_refl (rd_nodes (si_ready I3)) E4). rewrite Ht3, Ht.
    assert (Q : forall k w v, node_field (kd_tables d) k w = Some v -> held (kd_heap d') v = held (kd_heap d) v).
    { intros k w v Hv. unfold node_field in Hv. destruct (get_field_id (kd_tables d) w) as [i| | |]; try discriminate. destruct (host_node (kd_tables d) k (Some i)) as [v'| | |] eqn:Ev; try discriminate.
      assert (v' = v) as -> by congruence. destruct (@host_node_look _ _ (kd_tables d, kd_heap d) T' _ _ _ Ev) as (vd & L). cbn [fst] in L. apply held_eq. destruct (C _ _ L) as [A _]. unfold vid in A. cbn [fst kf_view] in A.
      rewrite <- A, <- Hh. rewrite <- Ht in L. destruct (On _ _ L) as [B _]; [discriminate|]. exact B. }
    unfold node_columns. f_equal; apply flat_map_in; intros w _.
    - unfold scalar_column. destruct (node_field (kd_tables d) KScalarNode w) as [v|] eqn:Ev; auto. now rewrite (Q _ _ _ Ev).
    - unfold vector_columns. destruct (node_field (kd_tables d) KVectorNode w) as [v|] eqn:Ev; auto. now rewrite (Q _ _ _ Ev). }
  (* elements *)
  assert (Ebl : block_ids (kd_tables d') = map fst (kd_blocks d2)) by (rewrite Ht3; exact (si_ids I2)). rewrite Ebl in E5.
  destruct (@blocks_read _ _ _ _ (si_nodup I2) E5) as (B1 & B2 & B3).
  assert (Hkeys : forall x, In x (map fst ecols) <-> In x (map fst (kd_blocks d))).
  { intros x. rewrite B3, (rd_keys (si_ready I2)), Hb. tauto. }
  assert (BL : forall id b, In (id, b) (kd_blocks d2) -> exists cols cols', assoc Nat.eqb id (om_elem m) = Some cols /\ assoc Nat.eqb id ecols = Some cols' /\ map sk cols' = map sk cols /\
    map (fun c => (ec_label c, ec_data c)) cols' = block_columns (kd_tables d2) (kd_heap d2) id (mb_num_elem (kb_mesh b)) (gat d2 (kd_gref d2) id) (gat d2 (kd_gdisp d2) id) words).
  { intros id b Hi. destruct (B1 id) as (cols & cols' & Q1 & Q2 & Q3); [change id with (fst (id, b)); now apply in_map|]. exists cols, cols'. split; auto. split; auto.
    destruct (K id b Hi) as (K1 & K2 & K3). split.
    - exact (@read_sk d' id cols cols' Q2).
    - assert (Hvw : In (lit "volume") words -> om_volume m = true).
      { intros Hw. apply (rd_volume (si_ready I2) Hw). intros Hnil. apply map_eq_nil in Hnil. rewrite Hnil in Hi. destruct Hi. }
      exact (@block_read (kd_same d2) (count d2) (kd_tables d2) (kd_heap d2) (gat d2 (kd_gref d2)) (gat d2 (kd_gdisp d2)) T words m d' done Ht3 S id (mb_num_elem (kb_mesh b)) (HN id b Hi) (HR id b Hi)
        (rd_vol (si_ready I2)) Hvw K1 K2 K3 cols cols' Q1 Q2). }
  split; [|split; [|split; [exact Hnodes|split; [|split]]]].
  - (* the invariant *)
    destruct I3 as [[R1 R2 R3 R4 R4' R5 R6] J2 J3 J4 J5 J6]. constructor; auto. rewrite Em'. constructor; cbn [om_elem om_sym om_full om_node om_volume om_volume_id]; auto.
    + intros b Hbi n Hn. destruct (R2 b Hbi n Hn) as (F1 & (c & F2 & F3) & F4 & F5). split; auto. split; [|auto].
      cbn [om_elem]. rewrite Hb3 in Hbi. destruct (nassoc_some _ _ Hbi) as (x & _ & Hx). destruct (BL b x Hx) as (cols & cols' & Q1 & Q2 & Q3 & _). exists cols'. split; auto. rewrite F2 in Q1. congruence.
    + intros x. rewrite Hkeys, Hb3, Hb. tauto.
    + rewrite <- R6. exact (@node_read_sk d' (om_node m) ncols E4).
  - rewrite Ed3 at 1. rewrite Ed. reflexivity.
  - intros i id b vr vu Hi Hr Hu. rewrite <- Hb in Hi. destruct (BL id b (nth_error_In _ _ Hi)) as (cols & cols' & Q1 & Q2 & Q3 & Q4).
    assert (Hr2 : nth_error (kd_gref d2) i = Some vr) by (rewrite Ed; exact Hr). assert (Hu2 : nth_error (kd_gdisp d2) i = Some vu) by (rewrite Ed; exact Hu).
    rewrite (@gat_ok _ _ _ _ _ _ (si_nodup I2) Hi Hr2), (@gat_ok _ _ _ _ _ _ (si_nodup I2) Hi Hu2) in Q4.
    assert (Hgv : held (kd_heap d2) vr = held (kd_heap d) vr /\ held (kd_heap d2) vu = held (kd_heap d) vu).
    { rewrite Hb in Hi. destruct (si_gather I i Hi) as (vr' & vu' & xr & xu & R1 & R2 & _ & _ & _ & _ & R7 & R8). assert (vr' = vr) as -> by congruence. assert (vu' = vu) as -> by congruence.
      rewrite Hh. split; apply held_eq, G; assumption. }
    destruct Hgv as [-> ->] in Q4.
    rewrite Ee.
    assert (Ea : forall l : list (nat * list ecol), assoc Nat.eqb id (map (fun b0 => (fst b0, map (fun c => (ec_label c, ec_data c)) (snd b0))) l) = match assoc Nat.eqb id l with Some c => Some (map (fun c => (ec_label c, ec_data c)) c) | None => None end).
    { clear. induction l as [|[a x] l IH]; auto. cbn [map fst snd assoc]. destruct (Nat.eqb id a); auto. }
    rewrite Ea, Q2, Q4, Ht. f_equal. apply columns_heap.
    + intros k f v Hv. unfold point_field in Hv. destruct (get_field_id (kd_tables d) f) as [j| | |]; try discriminate. destruct (dev_ipt (kd_tables d) k id (Some j) STEP_NP1) as [v'| | |] eqn:Ev; try discriminate.
      assert (v' = v) as -> by congruence. destruct (@dev_ipt_look _ _ (kd_tables d, kd_heap d) T' _ _ _ _ Ev) as (vh & L). cbn [fst] in L. apply held_eq. rewrite Hh. apply (proj2 (C _ _ L)). discriminate.
    + intros k f v Hv. unfold element_field in Hv. destruct (get_field_id (kd_tables d) f) as [j| | |]; try discriminate. destruct (host_elem (kd_tables d) k id (Some j)) as [v'| | |] eqn:Ev; try discriminate.
      assert (v' = v) as -> by congruence. destruct (@host_elem_look _ _ (kd_tables d, kd_heap d) T' _ _ _ _ Ev) as (vd & L). cbn [fst] in L. apply held_eq. rewrite Hh. apply (proj1 (C _ _ L)).
  - intros x. rewrite Ee, map_map. cbn [fst]. exact (Hkeys x).
  - intros k p Hp Hk. destruct (C _ _ Hp) as [A1 A2]. rewrite <- Ht in Hp. destruct (On k p Hp Hk) as [B4 B5]. rewrite Hh in B4, B5. split; [congruence|]. intros Hi. rewrite B5. now apply A2.
Qed.
Lemma session_inv l d0 out d m : device_object l d0 -> session out d0 d m -> sinv (split_blank out []) d m.
Proof.
  intros O. induction 1 as [d m E|d m h _ IH Hh|d m sched d' m' [nodes elems] _ IH Hs E].
  - eapply start_inv; eauto.
  - now apply sinv_heap.
  - destruct (@write_inv _ _ _ _ _ _ _ _ IH Hs E) as (I & _). exact I.
Qed.
