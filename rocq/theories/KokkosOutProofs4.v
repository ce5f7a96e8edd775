(** Output manager: after InitializeExodusOutput. *)
From Coq Require Import Reals Lra.
From Verif Require Import Base Strings ListLemmas DataModel DataProofs Loops TensorModel ElementModel InputModel InputProofs3 ElemDataModel ElemDataProofs4 KokkosModel KokkosSpec3 KokkosProofs KokkosProofs7 KokkosProofs8 KokkosProofs9 KokkosProofs19
  KokkosOutModel KokkosOutProofs1 KokkosOutProofs2 KokkosOutProofs3.
Set Implicit Arguments.
Local Open Scope nat_scope.
Local Open Scope list_scope.
Local Notation length := List.length.

Definition nskel : Type := (chars * nat * kind * nat * nat)%type.
Definition nsk (c : ncol) : nskel := (nc_label c, nc_id c, nc_kind c, nc_comp c, length (nc_data c)).
Definition ssk (tb : tables) (w : chars) : list nskel :=
  match assoc chars_eqb w (tb_labels tb) with
  | Some id => match host_node tb KScalarNode (Some id) with Ok v => [(w, id, KScalarNode, 0, v_extent v)] | _ => [] end
  | None => []
  end.
Definition xsk (tb : tables) (w : chars) : list nskel :=
  match assoc chars_eqb w (tb_labels tb) with
  | Some id => match host_node tb KVectorNode (Some id) with
               | Ok v => map (fun s => (w ++ fst s, id, KVectorNode, snd s, v_extent v)) [(lit "_x", K_X); (lit "_y", K_Y); (lit "_z", K_Z)]
               | _ => []
               end
  | None => []
  end.
(** ** Node columns *)
Section Nodes.
  Variables (same : bool) (N : nat -> option nat) (s : tables * heap).
  Hypothesis T : tinv same N s.
  Let tb := fst s.
  Variables (k : kind) (labels : list chars) (g : chars -> list ncol -> chars -> outcome (list ncol)) (want : chars -> list nskel).
  Hypothesis Hl : NoDup labels /\ forall x, In x labels <-> nf tb k x <> None.
  Variable add : chars -> list ncol -> outcome (list ncol).
  Hypothesis Hg : forall w cols label, g w cols label = if chars_eqb w label then add label cols else Ok cols.
  Hypothesis Hadd : forall w cols cols', nf tb k w <> None -> add w cols = Ok cols' -> exists new, cols' = cols ++ new /\ map nsk new = want w.
  Hypothesis Hwant : forall w, nf tb k w = None -> want w = [].
  Lemma node_fold words : forall cols cols', ofold (fun cols w => ofold (g w) labels cols) words cols = Ok cols' ->
    exists new, cols' = cols ++ new /\ map nsk new = flat_map want words.
  Proof.
    induction words as [|w words IH]; intros cols cols' E.
    - cbn [ofold] in E. exists []. rewrite app_nil_r. split; [congruence|reflexivity].
    - cbn [ofold] in E. apply obind_ok in E. destruct E as (c1 & E1 & E).
      assert (E1' : (if mem w labels then add w cols else Ok cols) = Ok c1).
      { rewrite <- E1. rewrite <- (@fold_one _ add w labels (proj1 Hl)).
        clear - Hg. generalize labels as l. intros l. revert cols. induction l as [|a l IH]; intros cols; auto. cbn [ofold]. rewrite Hg. destruct (chars_eqb w a); [destruct (add a cols); cbn [obind]; auto|cbn [obind]; auto]. }
      destruct (IH _ _ E) as (new & -> & Hn). cbn [flat_map]. destruct (mem w labels) eqn:Em.
      + apply mem_spec in Em. apply Hl in Em. destruct (@Hadd w cols c1 Em E1') as (new1 & -> & Hn1). exists (new1 ++ new). rewrite app_assoc, map_app, Hn1, Hn. auto.
      + assert (c1 = cols) as -> by congruence. exists new. rewrite (Hwant w); auto. destruct (nf tb k w) eqn:Ef; auto. exfalso.
        assert (In w labels) by (apply Hl; congruence). apply mem_spec in H. congruence.
  Qed.
End Nodes.
Lemma scalar_fold same N s labels words cols cols' : tinv same N s -> NoDup labels /\ (forall x, In x labels <-> nf (fst s) KScalarNode x <> None) ->
  ofold (fun cols w => ofold (specify_scalar (fst s) w) labels cols) words cols = Ok cols' -> exists new, cols' = cols ++ new /\ map nsk new = flat_map (ssk (fst s)) words.
Proof.
  intros T Hl E. eapply (@node_fold s KScalarNode labels (specify_scalar (fst s)) (ssk (fst s)) Hl
    (fun label cols => do id <- get_field_id (fst s) label; do v <- host_node (fst s) KScalarNode (Some id); Ok (cols ++ [NCol label id KScalarNode 0 (repeat 0%R (v_extent v))]))); [reflexivity| | |exact E].
  - intros w c c' _ Ea. apply obind_ok in Ea. destruct Ea as (id & Ei & Ea). apply obind_ok in Ea. destruct Ea as (v & Ev & Ea).
    eexists. split; [symmetry; injection Ea as Ea; exact Ea|]. unfold get_field_id in Ei. unfold ssk. destruct (assoc chars_eqb w (tb_labels (fst s))); [|discriminate].
    injection Ei as ->. rewrite Ev. cbn [map]. unfold nsk. cbn [nc_label nc_id nc_kind nc_comp nc_data]. now rewrite repeat_length.
  - intros w. unfold nf, ssk. destruct (assoc chars_eqb w (tb_labels (fst s))); auto. destruct (host_node _ _ _); auto; discriminate.
Qed.
Lemma vector_fold same N s labels words cols cols' : tinv same N s -> NoDup labels /\ (forall x, In x labels <-> nf (fst s) KVectorNode x <> None) ->
  ofold (fun cols w => ofold (specify_vector (fst s) w) labels cols) words cols = Ok cols' -> exists new, cols' = cols ++ new /\ map nsk new = flat_map (xsk (fst s)) words.
Proof.
  intros T Hl E. eapply (@node_fold s KVectorNode labels (specify_vector (fst s)) (xsk (fst s)) Hl
    (fun label cols => do id <- get_field_id (fst s) label; do v <- host_node (fst s) KVectorNode (Some id);
       Ok (cols ++ map (fun x => NCol (label ++ fst x) id KVectorNode (snd x) (repeat 0%R (v_extent v))) [(lit "_x", K_X); (lit "_y", K_Y); (lit "_z", K_Z)]))); [reflexivity| | |exact E].
  - intros w c c' _ Ea. apply obind_ok in Ea. destruct Ea as (id & Ei & Ea). apply obind_ok in Ea. destruct Ea as (v & Ev & Ea).
    eexists. split; [symmetry; injection Ea as Ea; exact Ea|]. unfold get_field_id in Ei. unfold xsk. destruct (assoc chars_eqb w (tb_labels (fst s))); [|discriminate].
    injection Ei as ->. rewrite Ev. cbn [map fst snd]. unfold nsk. cbn [nc_label nc_id nc_kind nc_comp nc_data]. now rewrite !repeat_length.
  - intros w. unfold nf, xsk. destruct (assoc chars_eqb w (tb_labels (fst s))); auto. destruct (host_node _ _ _); auto; discriminate.
Qed.
(** ** All blocks *)
Section Blocks.
  Variables (same : bool) (N : nat -> option nat) (words : list chars).
  Definition vol_ok (tb : tables) (m : omgr) : Prop := om_volume m = true -> assoc chars_eqb (lit "volume") (tb_labels tb) = Some (om_volume_id m).
  Definition block_done (tb : tables) (m : omgr) (b : nat) : Prop := forall n, N b = Some n -> fixed b n tb words /\
    (exists c, assoc Nat.eqb b (om_elem m) = Some c /\ map sk c = bsk b n tb words) /\
    assoc Nat.eqb b (om_sym m) = Some (flat_map (avg tb KSymIntPt b) words) /\ assoc Nat.eqb b (om_full m) = Some (flat_map (avg tb KFullIntPt b) words).
  Lemma blocks_ok bs : forall s m s' m', tinv same N s -> NoDup bs -> (forall b, In b bs -> N b <> None /\ In b (map fst (om_elem m)) /\
      assoc Nat.eqb b (om_elem m) = Some [] /\ assoc Nat.eqb b (om_sym m) = Some [] /\ assoc Nat.eqb b (om_full m) = Some []) ->
    vol_ok (fst s) m -> ofold (specify_block same words) bs (s, m) = Ok (s', m') ->
    grow same N s s' /\ (forall b, In b bs -> block_done (fst s') m' b) /\ vol_ok (fst s') m' /\ om_node m' = om_node m /\
    (forall b, ~ In b bs -> assoc Nat.eqb b (om_elem m') = assoc Nat.eqb b (om_elem m) /\ assoc Nat.eqb b (om_sym m') = assoc Nat.eqb b (om_sym m) /\ assoc Nat.eqb b (om_full m') = assoc Nat.eqb b (om_full m)) /\
    (om_volume m' = true -> om_volume m = true \/ In (lit "volume") words) /\ (om_volume m = true -> om_volume m' = true) /\ (In (lit "volume") words -> bs <> [] -> om_volume m' = true) /\
    (forall x, In x (map fst (om_elem m')) <-> In x (map fst (om_elem m))).
  Proof.
    induction bs as [|b bs IH]; intros s m s' m' T Hn Hb Hv E.
    - cbn [ofold] in E. assert (s' = s /\ m' = m) as [-> ->] by (split; congruence). split; [now apply grow_refl|]. repeat split; auto; try tauto; try (intros b []); congruence.
    - cbn [ofold] in E. apply obind_ok in E. destruct E as ([s1 m1] & E1 & E). inversion_clear Hn as [|? ? Hnb Hn'].
      destruct (Hb b (or_introl eq_refl)) as (B1 & B2 & B3 & B4 & B5). destruct (N b) as [n|] eqn:HN; [|congruence].
      destruct (@block_ok same N b n HN words s m s1 m1 T E1) as (P1 & P2 & P3 & P4). destruct P3 as [X1 X2 X3 X4 X5 X6 X7 X8].
      assert (V1 : vol_ok (fst s1) m1).
      { intros Hm. destruct P4 as [(A & B & _)|(A & B & C & _)].
        - rewrite A in Hm. rewrite B. apply (gr_labels P1). now apply Hv.
        - rewrite B. unfold idof in *. destruct (assoc chars_eqb (lit "volume") (tb_labels (fst s1))); congruence. }
      destruct (IH s1 m1 s' m' (gr_inv P1) Hn') as (I1 & I2 & I3 & I4 & I5 & I9 & I6 & I7 & I8); auto.
      { intros b' Hb'. assert (Hne : b' <> b) by (intros ->; contradiction). rewrite (X3 b' Hne), (X5 b' Hne), (X7 b' Hne). destruct (Hb b' (or_intror Hb')) as (C1 & C2 & C3). repeat split; auto; try apply C3. now apply X8. }
      split; [eapply grow_trans; eauto|]. split; [|split; [exact I3|split; [congruence|split; [|split; [|split; [|split]]]]]].
      + intros b' [<-|Hb']; [|now apply I2]. intros n' Hn2. assert (n' = n) as -> by congruence.
        destruct (@bsk_grow same N b n s1 s' words (gr_inv P1) I1 P2) as (Q1 & Q2 & Q3). split; [exact Q2|].
        destruct (I5 b Hnb) as (J1 & J2 & J3). rewrite J1, J2, J3, !Q3. destruct (X2 _ B3) as (c & Hc & Hs). split; [exists c; split; [exact Hc|congruence]|].
        split; [exact (X4 _ B4)|exact (X6 _ B5)].
      + intros b' Hb'. assert (Hne : b' <> b) by (intros ->; apply Hb'; now left). destruct (I5 b') as (J1 & J2 & J3); [intros H; apply Hb'; now right|].
        rewrite J1, J2, J3, (X3 b' Hne), (X5 b' Hne), (X7 b' Hne). auto.
      + intros Hm. destruct (I9 Hm) as [Hm1|Hw]; [|now right]. destruct P4 as [(A & _)|(_ & _ & _ & A)]; [left; congruence|now right].
      + intros Hm. apply I6. destruct P4 as [(A & _)|(A & _)]; congruence.
      + intros Hw _. apply I6. destruct P4 as [(_ & _ & A)|(A & _)]; [contradiction|exact A].
      + intros x. rewrite I8. now apply X8.
  Qed.
End Blocks.
Lemma empty_map {A} bs : forall (m0 : list (nat * list A)) b, assoc Nat.eqb b (fold_left (fun m b => map_put b [] m) bs m0) = if existsb (Nat.eqb b) bs then Some [] else assoc Nat.eqb b m0.
Proof.
  induction bs as [|x bs IH]; intros m0 b; auto. cbn [fold_left existsb]. rewrite IH, assoc_put. destruct (existsb (Nat.eqb b) bs); [now rewrite orb_true_r|]. rewrite orb_false_r. reflexivity.
Qed.
Lemma empty_keys {A} bs : forall (m0 : list (nat * list A)) x, In x (map fst (fold_left (fun m b => map_put b [] m) bs m0)) <-> In x bs \/ In x (map fst m0).
Proof.
  induction bs as [|b bs IH]; intros m0 x; [simpl; tauto|]. cbn [fold_left]. rewrite IH, put_keys. simpl. assert (x = b <-> b = x) by (split; congruence). tauto.
Qed.
Record ready (same : bool) (N : nat -> option nat) (words : list chars) (ids : list nat) (s : tables * heap) (m : omgr) : Prop := {
  rd_inv : tinv same N s;
  rd_blocks : forall b, In b ids -> block_done N words (fst s) m b;
  rd_vol : vol_ok (fst s) m;
  rd_volume : In (lit "volume") words -> ids <> [] -> om_volume m = true;
  rd_asked : om_volume m = true -> In (lit "volume") words;
  rd_keys : forall x, In x (map fst (om_elem m)) <-> In x ids;
  rd_nodes : map nsk (om_node m) = flat_map (ssk (fst s)) words ++ flat_map (xsk (fst s)) words
}.
Lemma specify_ready same N s out s' m : tinv same N s -> NoDup (block_ids (fst s)) -> (forall b, In b (block_ids (fst s)) -> N b <> None) ->
  specify_output_fields same s out = Ok (s', m) -> grow same N s s' /\ ready same N (split_blank out []) (block_ids (fst s)) s' m.
Proof.
  intros T Hn HN E. unfold specify_output_fields in E. set (words := split_blank out []) in *. cbv zeta in E.
  apply obind_ok in E. destruct E as (ls & E1 & E). apply obind_ok in E. destruct E as (c1 & E2 & E). apply obind_ok in E. destruct E as (lv & E3 & E). apply obind_ok in E. destruct E as (c2 & E4 & E).
  destruct (@scalar_fold same N s ls words [] c1 T (node_labels_ok _ T E1) E2) as (n1 & -> & H1).
  destruct (@vector_fold same N s lv words _ c2 T (node_labels_ok _ T E3) E4) as (n2 & -> & H2).
  set (bs := block_ids (fst s)) in *.
  assert (Eb : forall b, In b bs -> existsb (Nat.eqb b) bs = true) by (intros b Hb; apply existsb_exists; exists b; split; auto; apply Nat.eqb_refl).
  apply (@blocks_ok same N words bs) in E; auto.
  - destruct E as (G & B & V & Nd & _ & Va & _ & Vl & K). split; [exact G|]. constructor; auto; [exact (gr_inv G)| | |].
    + intros Hm. destruct (Va Hm) as [H|H]; [discriminate|exact H].
    + intros x. rewrite K. cbn [om_elem]. rewrite empty_keys. simpl. tauto.
    + rewrite Nd. cbn [om_node]. rewrite !map_app. cbn [app map]. rewrite H1, H2.
      assert (Q : forall k w i v, assoc chars_eqb w (tb_labels (fst s)) = None -> assoc chars_eqb w (tb_labels (fst s')) = Some i -> host_node (fst s) k (Some i) = Ok v -> False).
      { intros k w i v Ha Hb Hv. destruct (gr_new G _ Hb) as [H|H]; [congruence|]. destruct (host_node_look T _ _ Hv) as [vd L]. apply (ti_nown T) in L. lia. }
      assert (Q1 : forall w, ssk (fst s') w = ssk (fst s) w).
      { intros w. unfold ssk. destruct (assoc chars_eqb w (tb_labels (fst s))) as [i|] eqn:Ei.
        - rewrite (gr_labels G _ Ei). now rewrite (host_node_eq _ _ _ _ (gr_node G)).
        - destruct (assoc chars_eqb w (tb_labels (fst s'))) as [i|] eqn:Ei'; auto. rewrite (host_node_eq _ _ _ _ (gr_node G)).
          destruct (host_node (fst s) KScalarNode (Some i)) as [v| | |] eqn:Ev; auto. exfalso. exact (Q _ _ _ _ Ei Ei' Ev). }
      assert (Q2 : forall w, xsk (fst s') w = xsk (fst s) w).
      { intros w. unfold xsk. destruct (assoc chars_eqb w (tb_labels (fst s))) as [i|] eqn:Ei.
        - rewrite (gr_labels G _ Ei). now rewrite (host_node_eq _ _ _ _ (gr_node G)).
        - destruct (assoc chars_eqb w (tb_labels (fst s'))) as [i|] eqn:Ei'; auto. rewrite (host_node_eq _ _ _ _ (gr_node G)).
          destruct (host_node (fst s) KVectorNode (Some i)) as [v| | |] eqn:Ev; auto. exfalso. exact (Q _ _ _ _ Ei Ei' Ev). }
      f_equal; apply flat_map_in; auto.
  - intros b Hb. cbn [om_elem om_sym om_full]. rewrite !empty_map, (Eb b Hb). repeat split; auto. apply empty_keys. auto.
  - intros H. discriminate.
Qed.
