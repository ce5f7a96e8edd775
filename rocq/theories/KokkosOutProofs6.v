(** Output manager: the element fields after ComputeElementData. *)
From Coq Require Import Reals Lra.
From Verif Require Import Base Strings ListLemmas DataModel DataProofs Loops TensorModel TensorSpec ElementModel ElementSpec BlockModel InputModel InputProofs3 ElemDataModel ElemDataProofs4 KokkosModel KokkosSpec3 KokkosProofs KokkosProofs7 KokkosProofs8 KokkosProofs9 KokkosProofs19
  KokkosOutModel KokkosOutSpec KokkosOutProofs1 KokkosOutProofs2 KokkosOutProofs3 KokkosOutProofs4 KokkosOutProofs5.
Set Implicit Arguments.
Local Open Scope nat_scope.
Local Open Scope list_scope.
Local Notation length := List.length.

(** heaps of the same shape *)
Definition shaped (h h' : heap) : Prop := map (@length R) h' = map (@length R) h.
Lemma shaped_cell h h' g x : shaped h h' -> nth_error h g = Some x -> exists y, nth_error h' g = Some y /\ length y = length x.
Proof.
  intros S H. assert (E : nth_error (map (@length R) h') g = Some (length x)) by (rewrite S; now rewrite nth_error_map, H).
  rewrite nth_error_map in E. destruct (nth_error h' g) as [y|]; [|discriminate]. injection E as E. eauto.
Qed.
Lemma shaped_set h g x y : nth_error h g = Some x -> length y = length x -> shaped h (list_set h g y).
Proof.
  unfold shaped. revert g. induction h as [|a h IH]; intros [|g] H L; try discriminate; simpl in *.
  - injection H as ->. now rewrite L.
  - now rewrite (IH _ H L).
Qed.
Lemma shaped_tinv same N tb h h' : tinv same N (tb, h) -> shaped h h' -> tinv same N (tb, h').
Proof.
  intros [[G1 G2 G3] A B C D E F] S. constructor; auto. constructor; auto. intros k p Hp. cbn [fst snd] in *. destruct (G2 k p Hp) as (P1 & P2 & P3).
  split; [|split; [|exact P3]].
  - destruct P1 as (x & X1 & X2). destruct (shaped_cell _ S X1) as (y & Y1 & Y2). exists y. split; auto. congruence.
  - destruct P2 as (x & X1 & X2). destruct (shaped_cell _ S X1) as (y & Y1 & Y2). exists y. split; auto. congruence.
Qed.
(** the label of an id *)
Definition name_of (tb : tables) (id : nat) : chars := match find (fun e => snd e =? id) (tb_labels tb) with Some e => fst e | None => [] end.
Lemma name_ok same N s w i : tinv same N s -> assoc chars_eqb w (tb_labels (fst s)) = Some i -> name_of (fst s) i = w.
Proof.
  intros T H. unfold name_of. destruct (find _ _) as [[y j]|] eqn:F.
  - apply find_some in F. destruct F as [F1 F2]. cbn [fst snd] in *. apply Nat.eqb_eq in F2. subst j. apply (in_assoc _ _ _ (ti_nodup T)) in F1.
    destruct (g_wf (ti_good T)) as ((_ & W) & _). eapply W; eauto.
  - apply assoc_in in H. eapply find_none in F; [|exact H]. cbn [snd] in F. rewrite Nat.eqb_refl in F. discriminate.
Qed.

Section Compute.
  Variables (same : bool) (N : nat -> option nat) (tb : tables) (h0 : heap) (X U : nat -> list R).
  Hypothesis T : tinv same N (tb, h0).
  Lemma name_tb w i : assoc chars_eqb w (tb_labels tb) = Some i -> name_of tb i = w.
  Proof. exact (@name_ok same N (tb, h0) w i T). Qed.
  Definition outside (g : nat) : Prop := forall b id p, look tb (KElem b id) = Some p -> g <> vid (fst p) /\ g <> vid (snd p).
  (** what ComputeElementData writes *)
  Definition Dt (kp : kind) (wd b n : nat) (w : chars) : option (list R) :=
    match parse_request w with
    | Ok (f, pt) => match pf tb kp b f with
      | Some fid => match dev_ipt tb kp b (Some fid) STEP_NP1 with
        | Ok v => match pt with
                  | None => Some (mean_data n wd (X b) (U b) (held h0 v))
                  | Some z => if (z =? -1)%Z then None else Some (point_data n wd (Z.to_nat z) (held h0 v))
                  end
        | _ => None
        end
      | None => None
      end
    | _ => None
    end.
  Definition D (b id : nat) : option (list R) :=
    match look tb (KElem b id), N b with
    | Some p, Some n => match kf_kind (fst p) with
      | KScalarElem => if chars_eqb (name_of tb id) (lit "volume") then Some (vol_data n (X b) (U b)) else None
      | KSymElem => Dt KSymIntPt 6 b n (name_of tb id)
      | KFullElem => Dt KFullIntPt 9 b n (name_of tb id)
      | _ => None
      end
    | _, _ => None
    end.
  Record st (h : heap) (done : list (nat * nat)) : Prop := {
    st_shape : shaped h0 h;
    st_out : forall g, outside g -> nth_error h g = nth_error h0 g;
    st_in : forall b id, In (b, id) done -> exists p data, look tb (KElem b id) = Some p /\ D b id = Some data /\
      nth_error h (vid (fst p)) = Some data /\ nth_error h (vid (snd p)) = Some data;
    st_not : forall b id p, ~ In (b, id) done -> look tb (KElem b id) = Some p ->
      nth_error h (vid (fst p)) = nth_error h0 (vid (fst p)) /\ nth_error h (vid (snd p)) = nth_error h0 (vid (snd p))
  }.
  Lemma st_start : st h0 [].
  Proof. constructor; auto; try reflexivity. intros b id []. Qed.
  Lemma elem_cell h b id p n : shaped h0 h -> look tb (KElem b id) = Some p -> N b = Some n ->
    (exists c, nth_error h (vid (fst p)) = Some c /\ length c = n * width (kf_kind (fst p))) /\
    (exists c, nth_error h (vid (snd p)) = Some c /\ length c = n * width (kf_kind (fst p))).
  Proof.
    intros S Hp HN. destruct (g_pair (ti_good T) _ Hp) as ((x & X1 & X2) & (y & Y1 & Y2) & K & E & _). cbn [snd] in *.
    pose proof (@ti_elem _ _ _ T b id p n Hp HN) as Hn. rewrite Hn in X2. rewrite <- E, Hn, <- K in Y2.
    destruct (shaped_cell _ S X1) as (x' & X1' & X2'). destruct (shaped_cell _ S Y1) as (y' & Y1' & Y2').
    split; [exists x'|exists y']; split; auto; congruence.
  Qed.
  Lemma st_put h done b id p data n : st h done -> look tb (KElem b id) = Some p -> D b id = Some data -> N b = Some n -> length data = n * width (kf_kind (fst p)) ->
    st (list_set (list_set h (vid (snd p)) data) (vid (fst p)) data) ((b, id) :: done).
  Proof.
    intros [S1 S2 S3 S4] Hp HD HN L. destruct (@elem_cell h b id p n S1 Hp HN) as ((c1 & C1 & L1) & (c2 & C2 & L2)).
    pose proof (@shaped_set h _ c2 data C2 ltac:(congruence)) as Sh1.
    destruct (shaped_cell _ Sh1 C1) as (c3 & C3 & L3). pose proof (@shaped_set _ _ c3 data C3 ltac:(congruence)) as Sh2.
    assert (LT1 : vid (snd p) < length h) by (eapply nth_some_lt; eauto).
    assert (LT2 : vid (fst p) < length (list_set h (vid (snd p)) data)) by (eapply nth_some_lt; eauto).
    assert (Oth : forall g, g <> vid (fst p) -> g <> vid (snd p) -> nth_error (list_set (list_set h (vid (snd p)) data) (vid (fst p)) data) g = nth_error h g).
    { intros g H1 H2. rewrite !nth_error_list_set. destruct (Nat.eqb_spec g (vid (fst p))); [contradiction|]. destruct (Nat.eqb_spec g (vid (snd p))); [contradiction|]. reflexivity. }
    assert (Me : nth_error (list_set (list_set h (vid (snd p)) data) (vid (fst p)) data) (vid (fst p)) = Some data /\
                 nth_error (list_set (list_set h (vid (snd p)) data) (vid (fst p)) data) (vid (snd p)) = Some data).
    { split; [now apply nth_set_same|]. destruct (Nat.eq_dec (vid (snd p)) (vid (fst p))) as [E|E]; [rewrite E at 2; rewrite E in LT2 |- *; now apply nth_set_same|].
      rewrite nth_error_list_set. destruct (Nat.eqb_spec (vid (snd p)) (vid (fst p))); [contradiction|]. now apply nth_set_same. }
    constructor.
    - unfold shaped in *. congruence.
    - intros g Hg. destruct (Hg _ _ _ Hp). rewrite Oth by assumption. now apply S2.
    - intros b' id' Hi. destruct (key_dec (KElem b' id') (KElem b id)) as [E|E].
      + injection E as -> ->. exists p, data. split; [exact Hp|]. split; [exact HD|]. exact Me.
      + destruct Hi as [Hi|Hi]; [exfalso; apply E; congruence|]. destruct (S3 b' id' Hi) as (q & dq & Q1 & Q2 & Q3 & Q4). exists q, dq. split; auto. split; auto.
        pose proof (@g_apart same (tb, h0) (ti_good T) _ _ q p Q1 Hp E) as A. split; rewrite Oth; auto; apply A; simpl; auto.
    - intros b' id' q Hni Hq. assert (E : KElem b' id' <> KElem b id) by (intros E; apply Hni; left; congruence).
      pose proof (@g_apart same (tb, h0) (ti_good T) _ _ q p Hq Hp E) as A. destruct (S4 b' id' q) as [Q1 Q2]; [intros H; apply Hni; now right|exact Hq|].
      split; rewrite Oth; auto; apply A; simpl; auto.
  Qed.
  (** a loop that writes the device view, then the copy to the host *)
  Lemma st_step h done b id ke ed eh data n h1 h2 : st h done -> dev_elem tb ke b (Some id) = Ok ed -> host_elem tb ke b (Some id) = Ok eh ->
    D b id = Some data -> N b = Some n -> length data = n * width ke -> h1 = list_set h (v_id ed) data -> deep_copy h1 eh ed = Ok h2 -> st h2 ((b, id) :: done).
  Proof.
    intros S Ed Eh HD HN L -> E. destruct (@dev_elem_look same N (tb, h0) T ke b id ed Ed) as (vh & L1). destruct (@host_elem_look same N (tb, h0) T ke b id eh Eh) as (vd & L2).
    cbn [fst] in *. rewrite L1 in L2. assert (vh = eh) as -> by congruence. clear L2.
    unfold deep_copy in E. destruct (v_extent eh =? v_extent ed); [|discriminate]. unfold vget in E.
    destruct (@elem_cell h b id _ n (st_shape S) L1 HN) as (_ & (c & C & _)). unfold vid in C. cbn [fst snd kf_view] in C.
    rewrite nth_set_same in E by (eapply nth_some_lt; eauto). cbn [obind] in E.
    assert (E' : h2 = list_set (list_set h (v_id ed) data) (v_id eh) data) by congruence. rewrite E'.
    exact (@st_put h done b id _ data n S L1 HD HN L).
  Qed.
  Lemma ipt_src h done kp b fid v n : st h done -> dev_ipt tb kp b (Some fid) STEP_NP1 = Ok v -> N b = Some n ->
    nth_error h (v_id v) = Some (held h0 v) /\ length (held h0 v) = n * width kp /\ outside (v_id v).
  Proof.
    intros S E HN. destruct (@dev_ipt_look same N (tb, h0) T kp b fid v E) as (vh & L).
    assert (O : outside (v_id v)).
    { intros b' id' p Hp. pose proof (@g_apart same (tb, h0) (ti_good T) _ _ _ _ L Hp ltac:(discriminate)) as A.
      split; [apply (A (KF kp v) (fst p))|apply (A (KF kp v) (snd p))]; simpl; auto. }
    destruct (g_pair (ti_good T) _ L) as (_ & (y & Y1 & Y2) & _ & Ex & _). unfold vid, extent in *. cbn [fst snd kf_view kf_kind] in *.
    pose proof (@ti_ipt _ _ _ T b fid STEP_NP1 _ n L HN) as Hn. unfold extent in Hn. cbn [fst kf_view] in Hn.
    assert (Eh : held h0 v = y) by (unfold held; erewrite nth_error_nth; eauto). rewrite Eh.
    split; [rewrite (st_out S O); exact Y1|]. split; [congruence|exact O].
  Qed.
  Lemma dev_outside g ke b id ed : outside g -> dev_elem tb ke b (Some id) = Ok ed -> g <> v_id ed.
  Proof. intros O E. destruct (@dev_elem_look same N (tb, h0) T ke b id ed E) as (vh & L). exact (proj2 (O _ _ _ L)). Qed.
  Lemma dev_cell h done ke b id ed n : st h done -> dev_elem tb ke b (Some id) = Ok ed -> N b = Some n -> exists c, nth_error h (v_id ed) = Some c /\ length c = n * width ke.
  Proof.
    intros S E HN. destruct (@dev_elem_look same N (tb, h0) T ke b id ed E) as (vh & L). destruct (@elem_cell h b id _ n (st_shape S) L HN) as (_ & C). exact C.
  Qed.
  Lemma fold_st {E} (f : heap -> E -> outcome heap) (keys : E -> list (nat * nat)) l :
    (forall e h done h', In e l -> st h done -> f h e = Ok h' -> exists done', st h' done' /\ forall k, In k done' <-> In k done \/ In k (keys e)) ->
    forall h done h', st h done -> ofold f l h = Ok h' -> exists done', st h' done' /\ forall k, In k done' <-> In k done \/ exists e, In e l /\ In k (keys e).
  Proof.
    induction l as [|e l IH]; intros Hf h done h' S E'.
    - cbn [ofold] in E'. assert (h' = h) as -> by congruence. exists done. split; auto. intros k. split; [auto|]. intros [H|(e & [] & _)]; auto.
    - cbn [ofold] in E'. apply obind_ok in E'. destruct E' as (h1 & E1 & E2). destruct (Hf e h done h1 (or_introl eq_refl) S E1) as (d1 & S1 & K1).
      destruct (IH (fun e h done h' Hi => Hf e h done h' (or_intror Hi)) h1 d1 h' S1 E2) as (d2 & S2 & K2). exists d2. split; auto. intros k. rewrite K2, K1. split.
      + intros [[H|H]|(x & Hx & Hk)]; [auto|right; exists e; split; [now left|auto]|right; exists x; split; [now right|auto]].
      + intros [H|(x & [<-|Hx] & Hk)]; [auto|auto|right; eauto].
  Qed.
  (** ** One block *)
  Section Block.
    Variables (sched : scheduler) (m : omgr) (d : kdata) (words : list chars).
    Hypothesis Hs : valid_sched sched.
    Hypothesis Hd : kd_tables d = tb.
    Hypothesis HN : forall id b, In (id, b) (kd_blocks d) -> N id = Some (mb_num_elem (kb_mesh b)).
    Hypothesis HG : forall i id b, nth_error (kd_blocks d) i = Some (id, b) -> exists vr vu, nth_error (kd_gref d) i = Some vr /\ nth_error (kd_gdisp d) i = Some vu /\
      nth_error h0 (v_id vr) = Some (X id) /\ nth_error h0 (v_id vu) = Some (U id) /\ length (X id) = mb_num_elem (kb_mesh b) * 24 /\ length (U id) = mb_num_elem (kb_mesh b) * 24 /\
      outside (v_id vr) /\ outside (v_id vu).
    Hypothesis HR : forall id b, In (id, b) (kd_blocks d) -> block_done N words tb m id.
    Hypothesis HV : vol_ok tb m.
    Lemma numbered_nth {A} (l : list A) i x : In (i, x) (numbered l) -> nth_error l i = Some x.
    Proof.
      unfold numbered. intros H. assert (G : forall k (l : list A) i x, In (i, x) (combine (seq k (length l)) l) -> k <= i /\ nth_error l (i - k) = Some x).
      { clear. intros k l. revert k. induction l as [|a l IH]; intros k i x Hi; [destruct Hi|]. cbn [length seq combine] in Hi. destruct Hi as [E|Hi].
        - injection E as <- <-. rewrite Nat.sub_diag. auto.
        - apply IH in Hi. destruct Hi as [H1 H2]. split; [lia|]. replace (i - k) with (S (i - S k)) by lia. exact H2. }
      apply G in H. rewrite Nat.sub_0_r in H. tauto.
    Qed.
    Lemma volume_st h done h' i id b : In (i, (id, b)) (numbered (kd_blocks d)) -> om_volume m = true -> st h done ->
      volume_block sched m d h (i, (id, b)) = Ok h' -> st h' ((id, om_volume_id m) :: done) /\ forall e, e < mb_num_elem (kb_mesh b) -> well_shaped (corners_of (X id) (U id) e).
    Proof.
      intros Hi Hm S E. apply numbered_nth in Hi. destruct (@HG _ _ _ Hi) as (vr & vu & R1 & R2 & R3 & R4 & R5 & R6 & O1 & O2).
      pose proof (nth_error_In _ _ Hi) as Hin. pose proof (@HN _ _ Hin) as Hn. cbn [volume_block] in E. rewrite Hd in E.
      unfold vat in E. rewrite R1, R2 in E. cbn [obind] in E. apply obind_ok in E. destruct E as (ed & E1 & E). apply obind_ok in E. destruct E as (h1 & E2 & E).
      apply obind_ok in E. destruct E as (eh & E3 & E). destruct (@dev_cell _ _ _ _ _ _ _ S E1 Hn) as (c & C1 & C2). cbn [width] in C2. rewrite Nat.mul_1_r in C2.
      pose proof (@volume_loop_both sched [9; i] h vr vu (X id) (U id) (mb_num_elem (kb_mesh b)) Hs) as VL.
      rewrite (st_out S O1), (st_out S O2) in VL.
      destruct (VL R3 R4 R5 R6 ed c C1 C2 (@dev_outside _ _ _ _ _ O1 E1) (@dev_outside _ _ _ _ _ O2 E1)) as [VL' _]. clear VL. destruct (VL' _ E2) as [WS VL].
      split; [|exact WS]. eapply (@st_step h done id (om_volume_id m) KScalarElem ed eh _ _ h1 h' S E1 E3); [|exact Hn| |exact VL|exact E].
      - destruct (@dev_elem_look same N (tb, h0) T _ _ _ _ E1) as (vh & L). cbn [fst] in L. unfold D. rewrite L, Hn. cbn [fst kf_kind].
        rewrite (@name_tb (lit "volume") _ (HV Hm)). rewrite (proj2 (chars_eqb_eq _ _) eq_refl). reflexivity.
      - unfold vol_data. rewrite map_length, seq_length. cbn [width]. lia.
    Qed.
    Lemma volumes_st h done h' : om_volume m = true -> st h done -> ofold (volume_block sched m d) (numbered (kd_blocks d)) h = Ok h' ->
      exists done', st h' done' /\ forall k, In k done' <-> In k done \/ exists e, In e (numbered (kd_blocks d)) /\ In k [(fst (snd e), om_volume_id m)].
    Proof.
      intros Hm. apply fold_st with (keys := fun e : nat * (nat * kblock) => [(fst (snd e), om_volume_id m)]).
      intros [i [id b]] h1 d1 h2 Hi S E. eexists. split; [eapply (proj1 (@volume_st h1 d1 h2 i id b Hi Hm S E))|]. intros k. cbn [fst snd]. simpl. tauto.
    Qed.
    (** a tensor column *)
    Definition tensor_of (kp ke : kind) (b n : nat) (c : ecol) : Prop := exists w f pt fid,
      In w words /\ parse_request w = Ok (f, pt) /\ pf tb kp b f = Some fid /\ assoc chars_eqb w (tb_labels tb) = Some (ec_id c) /\
      ec_ipt_id c = fid /\ ec_kind c = ke /\ ec_point c = ptz pt /\ length (ec_data c) = n.
    Lemma tensor_sk kp ke sfx b n c w : (tsk tb kp ke sfx b n w <> [] -> assoc chars_eqb w (tb_labels tb) <> None) -> In w words ->
      In (sk c) (tsk tb kp ke sfx b n w) -> tensor_of kp ke b n c /\ exists x, In x sfx /\ ec_label c = w ++ fst x /\ ec_comp c = snd x.
    Proof.
      intros Hf Hw H. assert (Hne : assoc chars_eqb w (tb_labels tb) <> None) by (apply Hf; intros E; rewrite E in H; destruct H). clear Hf.
      unfold tsk, idof in H. destruct (parse_request w) as [[f pt]| | |] eqn:Ep; try now destruct H. destruct (pf tb kp b f) as [fid|] eqn:Ef; [|destruct H].
      destruct (assoc chars_eqb w (tb_labels tb)) as [i|] eqn:Ei; [|congruence].
      apply in_map_iff in H. destruct H as (x & H & Hx). unfold sk in H.
      assert (E1 : ec_label c = w ++ fst x) by congruence. assert (E2 : ec_ipt_id c = fid) by congruence. assert (E3 : ec_id c = i) by congruence.
      assert (E4 : ec_kind c = ke) by congruence. assert (E5 : ec_point c = ptz pt) by congruence. assert (E6 : ec_comp c = snd x) by congruence. assert (E7 : length (ec_data c) = n) by congruence.
      split; [exists w, f, pt, fid; rewrite E3; auto 10|]. exists x. auto.
    Qed.
    Definition column_kind (b n : nat) (c : ecol) : Prop :=
      (In (lit "volume") words /\ assoc chars_eqb (lit "volume") (tb_labels tb) = Some (ec_id c) /\ ec_kind c = KScalarElem /\ ec_point c = (-1)%Z /\ ec_comp c = 0 /\ length (ec_data c) = n) \/
      tensor_of KSymIntPt KSymElem b n c \/ tensor_of KFullIntPt KFullElem b n c.
    Lemma bsk_kind b n c : fixed b n tb words -> In (sk c) (bsk b n tb words) -> column_kind b n c.
    Proof.
      intros F H. unfold bsk in H. rewrite !in_app_iff, !in_flat_map in H. destruct H as [(w & Hw & H)|[(w & Hw & H)|(w & Hw & H)]]; destruct (F w Hw) as (F1 & F2 & F3 & _).
      - left. unfold vsk in H. destruct (chars_eqb w (lit "volume")) eqn:E; [|destruct H]. apply chars_eqb_eq in E. specialize (F1 E). subst w.
        destruct H as [H|[]]. unfold sk, idof in H. destruct (assoc chars_eqb (lit "volume") (tb_labels tb)) as [i|] eqn:Ei; [|congruence].
        assert (E3 : ec_id c = i) by congruence. assert (E4 : ec_kind c = KScalarElem) by congruence. assert (E5 : ec_point c = (-1)%Z) by congruence.
        assert (E6 : ec_comp c = 0) by congruence. assert (E7 : length (ec_data c) = n) by congruence. rewrite E3. auto 10.
      - right. left. eapply tensor_sk; eauto.
      - right. right. eapply tensor_sk; eauto.
    Qed.
    Definition ckeys (id : nat) (c : ecol) : list (nat * nat) :=
      if (ec_point c =? -1)%Z then [] else match ec_kind c with KSymElem | KFullElem => [(id, ec_id c)] | _ => [] end.
    Lemma extract_tensor kp ke wd id b n c h done h' : (kp = KSymIntPt /\ ke = KSymElem /\ wd = 6 \/ kp = KFullIntPt /\ ke = KFullElem /\ wd = 9) ->
      In (id, b) (kd_blocks d) -> n = mb_num_elem (kb_mesh b) -> st h done -> tensor_of kp ke id n c -> ec_point c <> (-1)%Z ->
      (do pv <- dev_ipt (kd_tables d) kp id (Some (ec_ipt_id c)) STEP_NP1;
       do ed <- dev_elem (kd_tables d) ke id (Some (ec_id c));
       do h <- extract sched [10; id] wd (ec_point c) pv ed n h;
       do eh <- host_elem (kd_tables d) ke id (Some (ec_id c));
       deep_copy h eh ed) = Ok h' -> st h' ((id, ec_id c) :: done) /\ (n = 0 \/ (0 <= ec_point c < 8)%Z).
    Proof.
      intros K Hin Hn S (w & f & pt & fid & Hw & Ep & Ef & El & Ei & Ek & Epo & _) Hne E. rewrite Hd in E. pose proof (@HN _ _ Hin) as HNn. rewrite <- Hn in HNn.
      apply obind_ok in E. destruct E as (pv & E1 & E). apply obind_ok in E. destruct E as (ed & E2 & E). apply obind_ok in E. destruct E as (h1 & E3 & E).
      apply obind_ok in E. destruct E as (eh & E4 & E).
      assert (Wp : width kp = 8 * wd) by (destruct K as [(-> & -> & ->)|(-> & -> & ->)]; reflexivity).
      assert (We : width ke = wd) by (destruct K as [(-> & -> & ->)|(-> & -> & ->)]; reflexivity).
      assert (Wpos : 0 < wd) by (destruct K as [(_ & _ & ->)|(_ & _ & ->)]; lia).
      destruct (@ipt_src _ _ _ _ _ _ _ S E1 HNn) as (P1 & P2 & P3). rewrite Wp in P2. destruct (@dev_cell _ _ _ _ _ _ _ S E2 HNn) as (cc & C1 & C2). rewrite We in C2.
      destruct (@extract_ok sched [10; id] h (repeat 0%R (n * 24)) (repeat 0%R (n * 24)) n Hs (repeat_length _ _) (repeat_length _ _) wd pv (held h0 pv) Wpos P1 P2 (ec_point c) ed cc h1 C1 C2 (@dev_outside _ _ _ _ _ P3 E2) E3) as (Rng & H1).
      split; [|exact Rng]. eapply (@st_step h done id (ec_id c) ke ed eh _ n h1 h' S E2 E4); [|exact HNn| |exact H1|exact E].
      - destruct (@dev_elem_look same N (tb, h0) T _ _ _ _ E2) as (vh & L). cbn [fst] in L. unfold D. rewrite L, HNn. cbn [fst kf_kind].
        rewrite (@name_tb w _ El). cbn [fst].
        assert (Q : Dt kp wd id n w = Some (point_data n wd (Z.to_nat (ec_point c)) (held h0 pv))).
        { unfold Dt. rewrite Ep, Ef. rewrite Ei in E1. rewrite E1. rewrite Epo in *. destruct pt as [z|]; cbn [ptz] in *; [|congruence]. destruct (Z.eqb_spec z (-1)); [contradiction|reflexivity]. }
        destruct K as [(-> & -> & ->)|(-> & -> & ->)]; exact Q.
      - unfold point_data. rewrite map_length, seq_length, We. reflexivity.
    Qed.
    Lemma extract_st h done h' id b : In (id, b) (kd_blocks d) -> st h done -> extract_block sched m d h (id, b) = Ok h' ->
      exists done', st h' done' /\ forall k, In k done' <-> In k done \/ exists cols c, assoc Nat.eqb id (om_elem m) = Some cols /\ In c cols /\ In k (ckeys id c).
    Proof.
      intros Hin S E. unfold extract_block in E. cbn [fst snd] in E. apply obind_ok in E. destruct E as (cols & E1 & E).
      unfold mat in E1. destruct (assoc Nat.eqb id (om_elem m)) as [cols'|] eqn:Ec; [|discriminate]. assert (cols' = cols) as -> by congruence. clear E1.
      destruct (@HR _ _ Hin _ (@HN _ _ Hin)) as (F & (cols' & Ec' & Sk) & _). rewrite Ec in Ec'. assert (cols' = cols) as -> by congruence. clear Ec'.
      assert (R : exists done', st h' done' /\ forall k, In k done' <-> In k done \/ exists c, In c cols /\ In k (ckeys id c)).
      { revert E. apply fold_st with (keys := ckeys id); [|exact S]. clear h done h' S. intros c h done h' Hc S E.
        assert (Kc : column_kind id (mb_num_elem (kb_mesh b)) c) by (apply bsk_kind; [exact F|]; rewrite <- Sk; now apply in_map).
        unfold extract_column in E. unfold ckeys. destruct (Z.eqb_spec (ec_point c) (-1)) as [Ez|Ez].
        - exists done. assert (h' = h) as -> by congruence. split; auto. intros k. simpl. tauto.
        - destruct Kc as [(_ & _ & Kk & Kp & _)|[Kc|Kc]]; [contradiction| |].
          + pose proof Kc as (w & f & pt & fid & _ & _ & _ & _ & _ & Ek & _). rewrite Ek in E |- *.
            eexists. split; [eapply proj1; eapply (@extract_tensor KSymIntPt KSymElem 6 id b _ c); [left; auto|exact Hin|reflexivity|exact S|exact Kc|exact Ez|exact E]|].
            intros k. simpl. tauto.
          + pose proof Kc as (w & f & pt & fid & _ & _ & _ & _ & _ & Ek & _). rewrite Ek in E |- *.
            eexists. split; [eapply proj1; eapply (@extract_tensor KFullIntPt KFullElem 9 id b _ c); [right; auto|exact Hin|reflexivity|exact S|exact Kc|exact Ez|exact E]|].
            intros k. simpl. tauto. }
      destruct R as (d' & R1 & R2). exists d'. split; auto. intros k. rewrite R2. split; intros [H|H]; auto.
      - destruct H as (c & H1 & H2). right. exists cols, c. auto.
      - destruct H as (cols' & c & H0 & H1 & H2). assert (cols' = cols) as -> by congruence. eauto.
    Qed.
    Lemma average_tensor kp ke wd i id b n fid vr vu h done h' : (kp = KSymIntPt /\ ke = KSymElem /\ wd = 6 \/ kp = KFullIntPt /\ ke = KFullElem /\ wd = 9) ->
      In (id, b) (kd_blocks d) -> n = mb_num_elem (kb_mesh b) -> nth_error (kd_blocks d) i = Some (id, b) -> nth_error (kd_gref d) i = Some vr -> nth_error (kd_gdisp d) i = Some vu ->
      In fid (flat_map (avg tb kp id) words) -> st h done ->
      average_field sched kp ke wd vr vu d id n h fid = Ok h' -> st h' ((id, fid) :: done) /\ forall e, e < n -> well_shaped (corners_of (X id) (U id) e).
    Proof.
      intros K Hin Hn Hi Hr Hu Hf S E. destruct (@HG _ _ _ Hi) as (vr' & vu' & R1 & R2 & R3 & R4 & R5 & R6 & O1 & O2). rewrite Hr in R1. rewrite Hu in R2.
      assert (vr' = vr) as -> by congruence. assert (vu' = vu) as -> by congruence. clear R1 R2.
      unfold average_field in E. rewrite Hd in E. pose proof (@HN _ _ Hin) as HNn. rewrite <- Hn in HNn, R5, R6.
      apply in_flat_map in Hf. destruct Hf as (w & Hw & Hf). unfold avg in Hf. destruct (parse_request w) as [[f [z|]]| | |] eqn:Ep; try now destruct Hf.
      pose proof (@parse_none _ _ Ep) as Efw. subst f. destruct (pf tb kp id w) as [fid'|] eqn:Ef; [|destruct Hf]. destruct Hf as [Hf|[]]. subst fid'.
      assert (El : assoc chars_eqb w (tb_labels tb) = Some fid).
      { clear - Ef. unfold pf in Ef. destruct (assoc chars_eqb w (tb_labels tb)) as [i|]; [|discriminate]. destruct (dev_ipt _ _ _ _ _); congruence. }
      apply obind_ok in E. destruct E as (pv & E1 & E). apply obind_ok in E. destruct E as (ed & E2 & E). apply obind_ok in E. destruct E as (h1 & E3 & E).
      apply obind_ok in E. destruct E as (eh & E4 & E).
      assert (Wp : width kp = 8 * wd) by (destruct K as [(-> & -> & ->)|(-> & -> & ->)]; reflexivity).
      assert (We : width ke = wd) by (destruct K as [(-> & -> & ->)|(-> & -> & ->)]; reflexivity).
      assert (Wpos : 0 < wd) by (destruct K as [(_ & _ & ->)|(_ & _ & ->)]; lia).
      destruct (@ipt_src _ _ _ _ _ _ _ S E1 HNn) as (P1 & P2 & P3). rewrite Wp in P2. destruct (@dev_cell _ _ _ _ _ _ _ S E2 HNn) as (cc & C1 & C2). rewrite We in C2.
      assert (H1 : (forall e, e < n -> well_shaped (corners_of (X id) (U id) e)) /\ h1 = list_set h (v_id ed) (mean_data n wd (X id) (U id) (held h0 pv))).
      { refine (proj1 (@average_loop_both sched [11; id] h vr vu (X id) (U id) n Hs _ _ R5 R6 wd pv (held h0 pv) Wpos P1 P2 ed cc C1 C2 _ _ _) _ E3).
        - rewrite (st_out S O1). exact R3.
        - rewrite (st_out S O2). exact R4.
        - exact (@dev_outside _ _ _ _ _ O1 E2).
        - exact (@dev_outside _ _ _ _ _ O2 E2).
        - exact (@dev_outside _ _ _ _ _ P3 E2). }
      destruct H1 as [WS H1]. split; [|exact WS]. eapply (@st_step h done id fid ke ed eh _ n h1 h' S E2 E4); [|exact HNn| |exact H1|exact E].
      - destruct (@dev_elem_look same N (tb, h0) T _ _ _ _ E2) as (vh & L). cbn [fst] in L. unfold D. rewrite L, HNn. cbn [fst kf_kind].
        rewrite (@name_tb w _ El). cbn [fst].
        assert (Q : Dt kp wd id n w = Some (mean_data n wd (X id) (U id) (held h0 pv))) by (unfold Dt; rewrite Ep, Ef, E1; reflexivity).
        destruct K as [(-> & -> & ->)|(-> & -> & ->)]; exact Q.
      - unfold mean_data. rewrite map_length, seq_length, We. reflexivity.
    Qed.
    Lemma average_st h done h' i id b : In (i, (id, b)) (numbered (kd_blocks d)) -> st h done -> average_block sched m d h (i, (id, b)) = Ok h' ->
      exists done', st h' done' /\ forall k, In k done' <-> In k done \/ exists fid, (In fid (flat_map (avg tb KSymIntPt id) words) \/ In fid (flat_map (avg tb KFullIntPt id) words)) /\ k = (id, fid).
    Proof.
      intros Hi S E. apply numbered_nth in Hi. destruct (@HG _ _ _ Hi) as (vr & vu & R1 & R2 & _). pose proof (nth_error_In _ _ Hi) as Hin.
      destruct (@HR _ _ Hin _ (@HN _ _ Hin)) as (_ & _ & A1 & A2). cbn [average_block] in E. unfold vat, mat in E. rewrite R1, R2 in E. cbn [obind] in E. rewrite A1, A2 in E. cbn [obind] in E.
      apply obind_ok in E. destruct E as (h1 & E1 & E2).
      assert (Q1 : exists done1, st h1 done1 /\ forall k, In k done1 <-> In k done \/ exists fid, In fid (flat_map (avg tb KSymIntPt id) words) /\ In k [(id, fid)]).
      { revert E1. apply fold_st with (keys := fun fid => [(id, fid)]); [|exact S]. intros fid ha da hb Hf Sa Ea. eexists. split.
        - eapply proj1. eapply (@average_tensor KSymIntPt KSymElem 6 i id b _ fid vr vu ha da hb); [left; auto|exact Hin|reflexivity|exact Hi|exact R1|exact R2|exact Hf|exact Sa|exact Ea].
        - intros k. simpl. tauto. }
      destruct Q1 as (d1 & S1 & K1).
      assert (Q2 : exists done2, st h' done2 /\ forall k, In k done2 <-> In k d1 \/ exists fid, In fid (flat_map (avg tb KFullIntPt id) words) /\ In k [(id, fid)]).
      { revert E2. apply fold_st with (keys := fun fid => [(id, fid)]); [|exact S1]. intros fid ha da hb Hf Sa Ea. eexists. split.
        - eapply proj1. eapply (@average_tensor KFullIntPt KFullElem 9 i id b _ fid vr vu ha da hb); [right; auto|exact Hin|reflexivity|exact Hi|exact R1|exact R2|exact Hf|exact Sa|exact Ea].
        - intros k. simpl. tauto. }
      destruct Q2 as (d2 & S2 & K2). exists d2. split; auto. intros k. rewrite K2, K1. simpl. split.
      - intros [[H|(f & H1 & [<-|[]])]|(f & H1 & [<-|[]])]; [auto|right; exists f; auto|right; exists f; auto].
      - intros [H|(f & [H|H] & ->)]; [auto|left; right; exists f; auto|right; exists f; auto].
    Qed.
    Lemma in_numbered {A} (l : list A) x : In x l -> exists i, In (i, x) (numbered l).
    Proof.
      unfold numbered. generalize 0. induction l as [|a l IH]; intros k []; cbn [length seq combine].
      - subst. exists k. now left.
      - destruct (IH (S k) H) as [i Hi]. exists i. now right.
    Qed.
    Lemma compute_ok d' : kd_heap d = h0 -> compute_element_data sched m d = Ok d' -> exists done, d' = with_heap d (kd_heap d') /\ st (kd_heap d') done /\
      forall id b, In (id, b) (kd_blocks d) ->
        (om_volume m = true -> In (id, om_volume_id m) done) /\
        (forall cols c, assoc Nat.eqb id (om_elem m) = Some cols -> In c cols -> ec_point c <> (-1)%Z -> ec_kind c = KSymElem \/ ec_kind c = KFullElem -> In (id, ec_id c) done) /\
        (forall fid, In fid (flat_map (avg tb KSymIntPt id) words) \/ In fid (flat_map (avg tb KFullIntPt id) words) -> In (id, fid) done).
    Proof.
      intros Hh E. unfold compute_element_data in E. apply obind_ok in E. destruct E as (h1 & E1 & E). apply obind_ok in E. destruct E as (h2 & E2 & E). apply obind_ok in E. destruct E as (h3 & E3 & E).
      rewrite Hh in E1.
      assert (Q1 : exists d1, st h1 d1 /\ (om_volume m = true -> forall id b, In (id, b) (kd_blocks d) -> In (id, om_volume_id m) d1)).
      { destruct (om_volume m) eqn:Em.
        - destruct (@volumes_st _ _ _ Em st_start E1) as (d1 & S1 & K1). exists d1. split; auto. intros _ id b Hin. apply K1. right. destruct (in_numbered _ _ Hin) as [i Hi]. exists (i, (id, b)). split; auto. now left.
        - exists []. assert (h1 = h0) as -> by congruence. split; [exact st_start|discriminate]. }
      destruct Q1 as (d1 & S1 & K1).
      assert (Q2 : exists d2, st h2 d2 /\ (forall k, In k d1 -> In k d2) /\
        forall id b, In (id, b) (kd_blocks d) -> forall cols c, assoc Nat.eqb id (om_elem m) = Some cols -> In c cols -> ec_point c <> (-1)%Z -> ec_kind c = KSymElem \/ ec_kind c = KFullElem -> In (id, ec_id c) d2).
      { assert (Q : exists d2, st h2 d2 /\ forall k, In k d2 <-> In k d1 \/ exists e, In e (kd_blocks d) /\ In k (match assoc Nat.eqb (fst e) (om_elem m) with Some cols => flat_map (ckeys (fst e)) cols | None => [] end)).
        { revert E2. apply fold_st with (keys := fun e : nat * kblock => match assoc Nat.eqb (fst e) (om_elem m) with Some cols => flat_map (ckeys (fst e)) cols | None => [] end); [|exact S1].
          intros [id b] ha da hb Hin Sa Ea. destruct (@extract_st _ _ _ _ _ Hin Sa Ea) as (db & Sb & Kb). exists db. split; auto. intros k. rewrite Kb. cbn [fst]. split; intros [H|H]; auto; right.
          - destruct H as (cols & c & H1 & H2 & H3). rewrite H1. apply in_flat_map. eauto.
          - destruct (assoc Nat.eqb id (om_elem m)) as [cols|]; [|destruct H]. apply in_flat_map in H. destruct H as (c & H1 & H2). exists cols, c. auto. }
        destruct Q as (d2 & S2 & K2). exists d2. split; auto. split; [intros k Hk; apply K2; auto|].
        intros id b Hin cols c Hc Hi Hp Hk. apply K2. right. exists (id, b). split; auto. cbn [fst]. rewrite Hc. apply in_flat_map. exists c. split; auto. unfold ckeys.
        destruct (Z.eqb_spec (ec_point c) (-1)); [contradiction|]. destruct Hk as [-> | ->]; now left. }
      destruct Q2 as (d2 & S2 & K21 & K2).
      assert (Q3 : exists d3, st h3 d3 /\ (forall k, In k d2 -> In k d3) /\
        forall id b, In (id, b) (kd_blocks d) -> forall fid, In fid (flat_map (avg tb KSymIntPt id) words) \/ In fid (flat_map (avg tb KFullIntPt id) words) -> In (id, fid) d3).
      { pose (ks := fun e : nat * (nat * kblock) => map (fun fid => (fst (snd e), fid)) (flat_map (avg tb KSymIntPt (fst (snd e))) words ++ flat_map (avg tb KFullIntPt (fst (snd e))) words)).
        assert (Q : exists d3, st h3 d3 /\ forall k, In k d3 <-> In k d2 \/ exists e, In e (numbered (kd_blocks d)) /\ In k (ks e)).
        { revert E3. apply fold_st with (keys := ks); [|exact S2]. intros [i [id b]] ha da hb Hin Sa Ea. destruct (@average_st _ _ _ _ _ _ Hin Sa Ea) as (db & Sb & Kb). exists db. split; auto.
          intros k. rewrite Kb. unfold ks. cbn [fst snd]. rewrite in_map_iff. split; intros [H|H]; auto; right.
          - destruct H as (fid & H1 & ->). exists fid. split; auto. now apply in_or_app.
          - destruct H as (fid & <- & H1). exists fid. split; auto. now apply in_app_or. }
        destruct Q as (d3 & S3 & K3). exists d3. split; auto. split; [intros k Hk; apply K3; auto|]. intros id b Hin fid Hf. apply K3. right.
        destruct (in_numbered _ _ Hin) as [i Hi]. exists (i, (id, b)). split; auto. unfold ks. cbn [fst snd]. apply in_map. now apply in_or_app. }
      destruct Q3 as (d3 & S3 & K31 & K3). exists d3. assert (Ed : d' = with_heap d h3) by congruence. rewrite Ed. cbn [kd_heap with_heap]. split; [reflexivity|]. split; [exact S3|].
      intros id b Hin. split; [intros Hm; apply K31, K21; eapply K1; eauto|]. split; [intros cols c H1 H2 H3 H4; apply K31; eapply K2; eauto|]. intros fid. eapply K3; eauto.
    Qed.
  End Block.
End Compute.
