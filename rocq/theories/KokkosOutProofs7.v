(** Output manager: reading the columns. *)
From Coq Require Import Reals Lra.
From Verif Require Import Base Strings ListLemmas DataModel DataProofs Loops TensorModel TensorSpec ElementModel ElementSpec BlockModel InputModel InputProofs3 ElemDataModel ElemDataProofs4 KokkosModel KokkosSpec3 KokkosProofs KokkosProofs7 KokkosProofs8 KokkosProofs9 KokkosProofs19
  KokkosOutModel KokkosOutSpec KokkosOutProofs1 KokkosOutProofs2 KokkosOutProofs3 KokkosOutProofs4 KokkosOutProofs5 KokkosOutProofs6.
Set Implicit Arguments.
Local Open Scope nat_scope.
Local Open Scope list_scope.
Local Notation length := List.length.

Lemma omapM_map_eq {A B C} (f : A -> outcome B) (g : B -> C) (G : A -> C) l : forall l',
  (forall x y, In x l -> f x = Ok y -> g y = G x) -> omapM f l = Ok l' -> map g l' = map G l.
Proof.
  induction l as [|a l IH]; intros l' H E; cbn [omapM] in E.
  - assert (l' = []) as -> by congruence. reflexivity.
  - apply obind_ok in E. destruct E as (y & E1 & E). apply obind_ok in E. destruct E as (ys & E2 & E). assert (l' = y :: ys) as -> by congruence. cbn [map].
    rewrite (H a y) by (auto; now left). rewrite (IH ys); auto. intros. apply H; auto. now right.
Qed.
Lemma omapM_each {A B} (f : A -> outcome B) l : forall l' x, omapM f l = Ok l' -> In x l -> exists y, f x = Ok y.
Proof.
  induction l as [|a l IH]; intros l' x E Hx; [destruct Hx|]. cbn [omapM] in E. apply obind_ok in E. destruct E as (y & E1 & E). apply obind_ok in E. destruct E as (ys & E2 & E).
  destruct Hx as [<-|Hx]; eauto.
Qed.
Lemma read_cells h g c (F : nat -> nat) n x : nth_error h g = Some c -> omapM (fun i => rd h (g, F i)) (seq 0 n) = Ok x -> x = map (fun i => nth (F i) c 0%R) (seq 0 n).
Proof.
  intros Hg E. rewrite <- (map_id x). eapply omapM_map_eq; [|exact E]. intros i y _ Ey. unfold rd, vget in Ey. cbn [fst snd] in Ey. rewrite Hg in Ey. cbn [obind] in Ey.
  destruct (nth_error c (F i)) as [z|] eqn:Ez; [|discriminate]. assert (y = z) as -> by congruence. symmetry. now apply nth_error_nth.
Qed.
Lemma map_flat {A B C} (f : B -> C) (g : A -> list B) l : map f (flat_map g l) = flat_map (fun x => map f (g x)) l.
Proof. induction l as [|x l IH]; simpl; auto. now rewrite map_app, IH. Qed.
Lemma div_mod_row e c w : c < w -> (e * w + c) / w = e /\ (e * w + c) mod w = c.
Proof. intros H. split; [rewrite Nat.div_add_l by lia; rewrite Nat.div_small by assumption; lia|rewrite Nat.add_comm, Nat.mod_add by lia; now apply Nat.mod_small]. Qed.
Lemma nth_map_seq {A} (f : nat -> A) n i d : i < n -> nth i (map f (seq 0 n)) d = f i.
Proof. intros H. rewrite (nth_indep _ d (f 0)) by (rewrite map_length, seq_length; assumption). rewrite map_nth, seq_nth by assumption. reflexivity. Qed.
Lemma mean_nth n w x u s e c : e < n -> c < w -> nth (e * w + c) (mean_data n w x u s) 0%R = mean_of w c x u s e.
Proof. intros He Hc. unfold mean_data. rewrite nth_map_seq by nia. destruct (div_mod_row e Hc) as [-> ->]. reflexivity. Qed.
Lemma point_nth n w p s e c : e < n -> c < w -> nth (e * w + c) (point_data n w p s) 0%R = nth (e * (8 * w) + (w * p + c)) s 0%R.
Proof. intros He Hc. unfold point_data. rewrite nth_map_seq by nia. destruct (div_mod_row e Hc) as [-> ->]. reflexivity. Qed.
(** the two readings of a request *)
Lemma parse_meaning w f pt : parse_request w = Ok (f, pt) ->
  meaning w = match pt with None => Mean f | Some z => AtPoint f (z + 1) end.
Proof.
  unfold parse_request, meaning. destruct (chars_eqb (firstn 3 w) (lit "ipt")).
  - intros E. apply obind_ok in E. destruct E as (a & E1 & E). apply obind_ok in E. destruct E as (p & E2 & E). apply obind_ok in E. destruct E as (i & E3 & E).
    unfold substr_from in E1, E2. destruct (6 <=? length w); [|discriminate]. destruct (4 <=? length w); [|discriminate].
    assert (p = skipn 4 w) as -> by congruence. assert (f = skipn 6 w) as -> by congruence. assert (pt = Some (i - 1)%Z) as -> by congruence.
    rewrite E3. f_equal. lia.
  - intros E. assert (f = w) as -> by congruence. assert (pt = None) as -> by congruence. reflexivity.
Qed.
Lemma pf_point tb kp b f : point_field tb kp b f = match pf tb kp b f with Some fid => match dev_ipt tb kp b (Some fid) STEP_NP1 with Ok v => Some v | _ => None end | None => None end.
Proof. unfold point_field, pf, get_field_id. destruct (assoc chars_eqb f (tb_labels tb)) as [i|]; auto. destruct (dev_ipt tb kp b (Some i) STEP_NP1) eqn:E; auto. now rewrite E. Qed.

Section Read.
  Variables (same : bool) (N : nat -> option nat) (tb : tables) (h0 : heap) (X U : nat -> list R).
  Hypothesis T : tinv same N (tb, h0).
  Variables (words : list chars) (m : omgr) (d' : kdata) (done : list (nat * nat)).
  Hypothesis Ht : kd_tables d' = tb.
  Hypothesis S : st N tb h0 X U (kd_heap d') done.
  Variables (id n : nat).
  Hypothesis HN : N id = Some n.
  Hypothesis HR : block_done N words tb m id.
  Hypothesis HV : vol_ok tb m.
  Hypothesis Hvol : In (lit "volume") words -> om_volume m = true.
  Hypothesis K1 : om_volume m = true -> In (id, om_volume_id m) done.
  Hypothesis K2 : forall cols c, assoc Nat.eqb id (om_elem m) = Some cols -> In c cols -> ec_point c <> (-1)%Z -> ec_kind c = KSymElem \/ ec_kind c = KFullElem -> In (id, ec_id c) done.
  Hypothesis K3 : forall fid, In fid (flat_map (avg tb KSymIntPt id) words) \/ In fid (flat_map (avg tb KFullIntPt id) words) -> In (id, fid) done.
  Variables (cols cols' : list ecol).
  Hypothesis Ec : assoc Nat.eqb id (om_elem m) = Some cols.
  Hypothesis Er : omapM (read_elem_column d' id) cols = Ok cols'.

  (** the host cell of an element field *)
  Definition cellof (eid : nat) : list R := match look tb (KElem id eid) with Some p => nth (vid (fst p)) (kd_heap d') [] | None => [] end.
  Definition V (s : skel) : chars * list R := let '(label, _, eid, ke, _, comp, len) := s in (label, map (fun i => nth (i * width ke + comp) (cellof eid) 0%R) (seq 0 len)).
  Lemma read_V : map (fun c => (ec_label c, ec_data c)) cols' = map V (map sk cols).
  Proof.
    rewrite map_map. eapply omapM_map_eq; [|exact Er]. intros c y _ E. unfold read_elem_column in E. apply obind_ok in E. destruct E as (v & Ev & E). apply obind_ok in E. destruct E as (x & Ex & E).
    match type of E with Ok ?z = _ => assert (Ey : y = z) by congruence end. rewrite Ey. cbn [ec_label ec_data]. unfold V, sk. f_equal.
    rewrite Ht in Ev. destruct (@host_elem_look same N (tb, h0) T _ _ _ _ Ev) as (vd & L). cbn [fst] in L. unfold cellof. rewrite L. unfold vid. cbn [fst kf_view].
    destruct (@elem_cell same N tb h0 T (kd_heap d') id _ _ n (st_shape S) L HN) as ((cc & C & _) & _). unfold vid in C. cbn [fst kf_view] in C.
    rewrite (read_cells _ _ _ _ C Ex). rewrite (nth_error_nth _ _ _ C). reflexivity.
  Qed.
  Lemma read_sk : map sk cols' = map sk cols.
  Proof.
    eapply omapM_map_eq; [|exact Er]. intros c y _ E. unfold read_elem_column in E. apply obind_ok in E. destruct E as (v & Ev & E). apply obind_ok in E. destruct E as (x & Ex & E).
    match type of E with Ok ?z = _ => assert (Ey : y = z) by congruence end. rewrite Ey. unfold sk. cbn [ec_label ec_ipt_id ec_id ec_kind ec_point ec_comp ec_data]. f_equal.
    assert (Lx : length x = length (seq 0 (length (ec_data c)))) by (rewrite <- (map_length (fun _ => tt) x), <- (map_length (fun _ => tt) (seq 0 _)); f_equal; eapply omapM_map_eq; [|exact Ex]; auto).
    rewrite Lx. apply seq_length.
  Qed.
  Lemma col_look c : In c cols -> exists vh vd, look tb (KElem id (ec_id c)) = Some (KF (ec_kind c) vh, KF (ec_kind c) vd).
  Proof.
    intros Hc. destruct (omapM_each _ _ _ Er Hc) as (y & E). unfold read_elem_column in E. apply obind_ok in E. destruct E as (v & Ev & _). rewrite Ht in Ev.
    destruct (@host_elem_look same N (tb, h0) T _ _ _ _ Ev) as (vd & L). eauto.
  Qed.
  Lemma cell_done eid data : In (id, eid) done -> D N tb h0 X U id eid = Some data -> cellof eid = data.
  Proof.
    intros Hd HD. destruct (st_in S _ _ Hd) as (p & data' & L & HD' & C & _). unfold cellof. rewrite L. rewrite (nth_error_nth _ _ _ C). congruence.
  Qed.
  Lemma sk_col s : In s (bsk id n tb words) -> exists c, In c cols /\ sk c = s.
  Proof.
    intros H. destruct (HR HN) as (_ & (cols2 & Ec2 & Sk) & _). rewrite Ec in Ec2. assert (cols2 = cols) as -> by congruence. rewrite <- Sk in H. apply in_map_iff in H. destruct H as (c & H1 & H2). eauto.
  Qed.
  Lemma word_volume w : In w words -> map V (vsk tb n w) = volume_column n (X id) (U id) w.
  Proof.
    intros Hw. unfold volume_column. destruct (chars_eqb w (lit "volume")) eqn:E; [|unfold vsk; now rewrite E].
    assert (Hin : In (w, idof tb w, idof tb w, KScalarElem, (-1)%Z, 0, n) (bsk id n tb words)).
    { unfold bsk. apply in_or_app. left. apply in_flat_map. exists w. split; auto. unfold vsk. rewrite E. now left. }
    unfold vsk. rewrite E. cbn [map]. unfold V. f_equal. f_equal. apply chars_eqb_eq in E. subst w. specialize (Hvol Hw).
    pose proof (HV Hvol) as El. assert (Ei : idof tb (lit "volume") = om_volume_id m) by (unfold idof; now rewrite El).
    destruct (sk_col _ Hin) as (c & Hc & Hs). destruct (col_look _ Hc) as (vh & vd & L).
    assert (Ek : ec_kind c = KScalarElem) by (unfold sk in Hs; congruence). assert (Eid : ec_id c = om_volume_id m) by (unfold sk in Hs; congruence).
    rewrite Ei. rewrite (@cell_done (om_volume_id m) (vol_data n (X id) (U id)) (K1 Hvol)).
    - apply map_ext_in. intros i Hi. apply in_seq in Hi. cbn [width]. rewrite Nat.mul_1_r, Nat.add_0_r. unfold vol_data. rewrite nth_map_seq by lia. reflexivity.
    - rewrite Eid, Ek in L. unfold D. rewrite L, HN. cbn [fst kf_kind]. rewrite (@name_tb same N tb h0 T (lit "volume") _ El), (proj2 (chars_eqb_eq _ _) eq_refl). reflexivity.
  Qed.
  Lemma word_tensor kp ke wd sfx w : (kp = KSymIntPt /\ ke = KSymElem /\ wd = 6 /\ sfx = sym_suffixes \/ kp = KFullIntPt /\ ke = KFullElem /\ wd = 9 /\ sfx = full_suffixes) ->
    In w words -> map V (tsk tb kp ke sfx id n w) = tensor_columns tb h0 id n (X id) (U id) kp ke wd sfx w.
  Proof.
    intros K Hw. destruct (HR HN) as (F & _). destruct (F w Hw) as (_ & F2 & F3 & ((f & pt) & Ep)).
    assert (F23 : tsk tb kp ke sfx id n w <> [] -> assoc chars_eqb w (tb_labels tb) <> None) by (destruct K as [(-> & -> & -> & ->)|(-> & -> & -> & ->)]; assumption).
    assert (Hin : forall s, In s (tsk tb kp ke sfx id n w) -> In s (bsk id n tb words)).
    { intros s Hs. unfold bsk. apply in_or_app. right. apply in_or_app. destruct K as [(-> & -> & -> & ->)|(-> & -> & -> & ->)]; [left|right]; apply in_flat_map; eauto. }
    assert (We : width ke = wd) by (destruct K as [(-> & -> & -> & ->)|(-> & -> & -> & ->)]; reflexivity).
    assert (Hx : forall x, In x sfx -> snd x < wd).
    { intros x Hx. destruct K as [(-> & -> & -> & ->)|(-> & -> & -> & ->)]; simpl in Hx; repeat (destruct Hx as [<-|Hx]; [vm_compute; lia|]); destruct Hx. }
    assert (Hs0 : exists x0, In x0 sfx) by (destruct K as [(-> & -> & -> & ->)|(-> & -> & -> & ->)]; eexists; now left).
    clear F F2 F3. unfold tensor_columns. rewrite (parse_meaning _ Ep).
    destruct (pf tb kp id f) as [fid|] eqn:Ef; [|unfold tsk; rewrite Ep, Ef; destruct pt; cbv beta iota; now rewrite pf_point, Ef].
    assert (Ev : exists v, dev_ipt tb kp id (Some fid) STEP_NP1 = Ok v).
    { clear - Ef. unfold pf in Ef. destruct (assoc chars_eqb f (tb_labels tb)) as [i|]; [|discriminate]. destruct (dev_ipt tb kp id (Some i) STEP_NP1) eqn:E; try discriminate. assert (i = fid) as -> by congruence. eauto. }
    destruct Ev as (v & Ev).
    assert (Et : tsk tb kp ke sfx id n w = map (fun x => (w ++ fst x, fid, idof tb w, ke, ptz pt, snd x, n)) sfx) by (unfold tsk; now rewrite Ep, Ef).
    assert (El : assoc chars_eqb w (tb_labels tb) = Some (idof tb w)).
    { assert (Hne : assoc chars_eqb w (tb_labels tb) <> None) by (apply F23; rewrite Et; destruct Hs0 as (x0 & Hx0); destruct sfx; [destruct Hx0|discriminate]).
      unfold idof. destruct (assoc chars_eqb w (tb_labels tb)); congruence. }
    destruct Hs0 as (x0 & Hx0).
    destruct (sk_col (w ++ fst x0, fid, idof tb w, ke, ptz pt, snd x0, n)) as (c & Hc & Hsk).
    { apply Hin. rewrite Et. apply in_map_iff. eauto. }
    destruct (col_look _ Hc) as (vh & vd & L).
    assert (Ek : ec_kind c = ke) by (unfold sk in Hsk; congruence). assert (Eid : ec_id c = idof tb w) by (unfold sk in Hsk; congruence). assert (Epo : ec_point c = ptz pt) by (unfold sk in Hsk; congruence).
    rewrite Ek, Eid in L.
    assert (ED : D N tb h0 X U id (idof tb w) = Dt tb h0 X U kp wd id n w).
    { unfold D. rewrite L, HN. cbn [fst kf_kind]. rewrite (@name_tb same N tb h0 T w _ El). destruct K as [(-> & -> & -> & ->)|(-> & -> & -> & ->)]; reflexivity. }
    assert (EDt : Dt tb h0 X U kp wd id n w = match pt with None => Some (mean_data n wd (X id) (U id) (held h0 v)) | Some z => if (z =? -1)%Z then None else Some (point_data n wd (Z.to_nat z) (held h0 v)) end).
    { unfold Dt. now rewrite Ep, Ef, Ev. }
    rewrite EDt in ED. rewrite Et, map_map. destruct pt as [z|]; cbv beta iota; rewrite pf_point, Ef, Ev.
    - apply map_ext_in. intros x Hxi. unfold V. f_equal. rewrite We. cbn [ptz] in Epo. destruct (Z.eqb_spec z (-1)) as [Ez|Ez].
      + rewrite Ez. change (-1 + 1 =? 0)%Z with true. cbv iota.
        assert (Hn : ~ In (id, idof tb w) done).
        { intros Hd. destruct (st_in S _ _ Hd) as (p & data & _ & HD & _). congruence. }
        pose proof (st_not S) as SN. destruct (SN _ _ _ Hn L) as (C & _). unfold vid in C. cbn [fst kf_view] in C.
        assert (EF : element_field tb ke id w = Some vh).
        { unfold element_field, get_field_id. rewrite El. destruct (omapM_each _ _ _ Er Hc) as (y & E). unfold read_elem_column in E. apply obind_ok in E. destruct E as (vh' & Eh & _).
          rewrite Ht, Ek, Eid in Eh. rewrite Eh. destruct (@host_elem_look same N (tb, h0) T _ _ _ _ Eh) as (vd' & L'). cbn [fst] in L'. congruence. }
        rewrite EF. unfold cellof. rewrite L. unfold vid, held. cbn [fst kf_view]. apply map_ext. intros i. f_equal.
        destruct (nth_error h0 (v_id vh)) as [x1|] eqn:E0; [now rewrite (nth_error_nth _ _ _ C), (nth_error_nth _ _ _ E0)|].
        apply nth_error_None in E0. rewrite (nth_overflow h0) by assumption. apply nth_error_None in C. now rewrite nth_overflow.
      + destruct (Z.eqb_spec (z + 1) 0) as [Ez'|_]; [lia|].
        assert (Hd : In (id, idof tb w) done).
        { rewrite <- Eid. apply (@K2 cols c); auto; [congruence|]. rewrite Ek. destruct K as [(_ & -> & _)|(_ & -> & _)]; auto. }
        rewrite (@cell_done _ _ Hd ED). apply map_ext_in. intros e He. apply in_seq in He. rewrite point_nth by (auto; lia). f_equal. f_equal. f_equal. f_equal. lia.
    - apply map_ext_in. intros x Hxi. unfold V. f_equal. rewrite We.
      pose proof (parse_none _ Ep) as Efw. subst f.
      assert (Efi : idof tb w = fid).
      { clear - Ef. unfold pf in Ef. unfold idof. destruct (assoc chars_eqb w (tb_labels tb)) as [i|]; [|discriminate]. destruct (dev_ipt _ _ _ _ _); congruence. }
      assert (Hd : In (id, idof tb w) done).
      { rewrite Efi. apply K3. assert (Ha : In fid (flat_map (avg tb kp id) words)).
        { apply in_flat_map. exists w. split; auto. unfold avg. rewrite Ep, Ef. now left. }
        destruct K as [(-> & _)|(-> & _)]; auto. }
      rewrite (@cell_done _ _ Hd ED). apply map_ext_in. intros e He. apply in_seq in He. apply mean_nth; auto. lia.
  Qed.
  Lemma block_read : map (fun c => (ec_label c, ec_data c)) cols' = block_columns tb h0 id n (X id) (U id) words.
  Proof.
    rewrite read_V. destruct (HR HN) as (_ & (cols2 & Ec2 & Sk) & _). rewrite Ec in Ec2. assert (cols2 = cols) as -> by congruence. rewrite Sk. unfold bsk, block_columns.
    rewrite !map_app, !map_flat. f_equal; [|f_equal].
    - apply flat_map_in. intros w Hw. now apply word_volume.
    - apply flat_map_in. intros w Hw. exact (@word_tensor KSymIntPt KSymElem 6 sym_suffixes w (or_introl (conj eq_refl (conj eq_refl (conj eq_refl eq_refl)))) Hw).
    - apply flat_map_in. intros w Hw. exact (@word_tensor KFullIntPt KFullElem 9 full_suffixes w (or_intror (conj eq_refl (conj eq_refl (conj eq_refl eq_refl)))) Hw).
  Qed.
End Read.
(** ** All blocks *)
Lemma blocks_read d ids : forall el el', NoDup ids -> ofold (read_elem_block d) ids el = Ok el' ->
  (forall id, In id ids -> exists cols cols', assoc Nat.eqb id el = Some cols /\ omapM (read_elem_column d id) cols = Ok cols' /\ assoc Nat.eqb id el' = Some cols') /\
  (forall id, ~ In id ids -> assoc Nat.eqb id el' = assoc Nat.eqb id el) /\
  (forall x, In x (map fst el') <-> In x ids \/ In x (map fst el)).
Proof.
  induction ids as [|a ids IH]; intros el el' Hn E; cbn [ofold] in E.
  - assert (el' = el) as -> by congruence. split; [intros id []|]. split; auto. intros x. simpl. tauto.
  - inversion_clear Hn as [|? ? Hna Hn']. apply obind_ok in E. destruct E as (el1 & E1 & E). destruct (IH _ _ Hn' E) as (I1 & I2 & I3).
    unfold read_elem_block in E1. apply obind_ok in E1. destruct E1 as (cols & Ec & E1). apply obind_ok in E1. destruct E1 as (cols' & Em & E1).
    assert (E1' : el1 = map_put a cols' el) by congruence. unfold mat in Ec. destruct (assoc Nat.eqb a el) as [c0|] eqn:Ea; [|discriminate]. assert (c0 = cols) as -> by congruence.
    assert (A : forall id, assoc Nat.eqb id el1 = if id =? a then Some cols' else assoc Nat.eqb id el) by (intros id; rewrite E1'; apply assoc_put).
    split; [|split].
    + intros id [<-|Hi].
      * exists cols, cols'. split; auto. split; auto. rewrite (I2 a Hna), A, Nat.eqb_refl. reflexivity.
      * destruct (I1 id Hi) as (c1 & c2 & J1 & J2 & J3). exists c1, c2. split; auto. rewrite A in J1. destruct (Nat.eqb_spec id a) as [->|]; [contradiction|exact J1].
    + intros id Hi. rewrite I2 by (intros H; apply Hi; now right). rewrite A. destruct (Nat.eqb_spec id a) as [->|]; auto. exfalso. apply Hi. now left.
    + intros x. rewrite I3, E1', put_keys. simpl. assert (x = a <-> a = x) by (split; congruence). tauto.
Qed.
(** ** Nodes *)
Section Nodes.
  Variables (same : bool) (N : nat -> option nat) (tb : tables) (h : heap).
  Hypothesis T : tinv same N (tb, h).
  Variables (words : list chars) (d : kdata) (cols cols' : list ncol).
  Hypothesis Ht : kd_tables d = tb.
  Hypothesis Hh : kd_heap d = h.
  Hypothesis Hc : map nsk cols = flat_map (ssk tb) words ++ flat_map (xsk tb) words.
  Hypothesis Er : omapM (read_node_column d) cols = Ok cols'.
  Definition VN (s : nskel) : chars * list R := let '(label, id, k, comp, len) := s in
    (label, map (fun i => nth (match k with KVectorNode => i * 3 + comp | _ => i end) (match host_node tb k (Some id) with Ok v => held h v | _ => [] end) 0%R) (seq 0 len)).
  Lemma node_read_sk : map nsk cols' = map nsk cols.
  Proof.
    eapply omapM_map_eq; [|exact Er]. intros c y _ E. unfold read_node_column in E. apply obind_ok in E. destruct E as (v & Ev & E). apply obind_ok in E. destruct E as (x & Ex & E).
    match type of E with Ok ?z = _ => assert (Ey : y = z) by congruence end. rewrite Ey. unfold nsk. cbn [nc_label nc_id nc_kind nc_comp nc_data]. f_equal.
    assert (Lx : length x = length (seq 0 (length (nc_data c)))) by (rewrite <- (map_length (fun _ => tt) x), <- (map_length (fun _ => tt) (seq 0 _)); f_equal; eapply omapM_map_eq; [|exact Ex]; auto).
    rewrite Lx. apply seq_length.
  Qed.
  Lemma node_read : map (fun c => (nc_label c, nc_data c)) cols' = node_columns tb h words.
  Proof.
    assert (E1 : map (fun c => (nc_label c, nc_data c)) cols' = map VN (map nsk cols)).
    { rewrite map_map. eapply omapM_map_eq; [|exact Er]. intros c y _ E. unfold read_node_column in E. apply obind_ok in E. destruct E as (v & Ev & E). apply obind_ok in E. destruct E as (x & Ex & E).
      match type of E with Ok ?z = _ => assert (Ey : y = z) by congruence end. rewrite Ey. cbn [nc_label nc_data]. unfold VN, nsk. f_equal. rewrite Ht in Ev. rewrite Ev. rewrite Hh in Ex.
      destruct (@host_node_look same N (tb, h) T _ _ _ Ev) as (vd & L). destruct (g_pair (ti_good T) _ L) as ((cc & C & _) & _). unfold vid in C. cbn [fst snd kf_view] in C.
      rewrite (read_cells _ _ _ _ C Ex). unfold held. rewrite (nth_error_nth _ _ _ C). reflexivity. }
    rewrite E1, Hc, map_app, !map_flat. unfold node_columns. f_equal; apply flat_map_in; intros w _.
    - unfold ssk, scalar_column, node_field, get_field_id. destruct (assoc chars_eqb w (tb_labels tb)) as [i|]; auto. destruct (host_node tb KScalarNode (Some i)) as [v| | |] eqn:Ev; auto.
      cbn [map]. unfold VN. now rewrite Ev.
    - unfold xsk, vector_columns, node_field, get_field_id. destruct (assoc chars_eqb w (tb_labels tb)) as [i|]; auto. destruct (host_node tb KVectorNode (Some i)) as [v| | |] eqn:Ev; auto.
      rewrite map_map. cbn [map]. unfold VN. cbn [fst snd]. rewrite Ev. reflexivity.
  Qed.
End Nodes.
