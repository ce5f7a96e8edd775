(** Output manager: when a computation of the element data succeeds. *)
From Coq Require Import Reals Lra.
From Verif Require Import Base Strings ListLemmas DataModel DataProofs Loops TensorModel TensorSpec ElementModel ElementSpec BlockModel InputModel InputProofs3 ElemDataModel ElemDataProofs4 KokkosModel KokkosSpec3 KokkosProofs KokkosProofs7 KokkosProofs8 KokkosProofs9 KokkosProofs19
  KokkosOutModel KokkosOutSpec KokkosOutProofs1 KokkosOutProofs2 KokkosOutProofs3 KokkosOutProofs4 KokkosOutProofs5 KokkosOutProofs6 KokkosOutProofs7.
Set Implicit Arguments.
Local Open Scope nat_scope.
Local Open Scope list_scope.
Local Notation length := List.length.

Section Runs.
  Variables (same : bool) (N : nat -> option nat) (tb : tables) (h0 : heap) (X U : nat -> list R).
  Hypothesis T : tinv same N (tb, h0).
  Local Notation st := (st N tb h0 X U).
  Lemma fold_run {E} (f : heap -> E -> outcome heap) l :
    (forall e h done h', In e l -> st h done -> f h e = Ok h' -> exists done', st h' done') ->
    (forall e h done, In e l -> st h done -> exists h', f h e = Ok h') ->
    forall h done, st h done -> exists h' done', ofold f l h = Ok h' /\ st h' done'.
  Proof.
    induction l as [|e l IH]; intros Hf Hr h done S.
    - exists h, done. auto.
    - destruct (Hr e h done (or_introl eq_refl) S) as (h1 & E1). destruct (Hf e h done h1 (or_introl eq_refl) S E1) as (d1 & S1).
      destruct (IH (fun e h done h' Hi => Hf e h done h' (or_intror Hi)) (fun e h done Hi => Hr e h done (or_intror Hi)) h1 d1 S1) as (h2 & d2 & E2 & S2).
      exists h2, d2. split; auto. cbn [ofold]. rewrite E1. exact E2.
  Qed.
  Lemma fold_each {E} (f : heap -> E -> outcome heap) l :
    (forall e h done h', In e l -> st h done -> f h e = Ok h' -> exists done', st h' done') ->
    forall h done h', st h done -> ofold f l h = Ok h' -> (exists done', st h' done') /\ forall e, In e l -> exists ha da hb, st ha da /\ f ha e = Ok hb.
  Proof.
    induction l as [|e l IH]; intros Hf h done h' S E'; cbn [ofold] in E'.
    - assert (h' = h) as -> by congruence. split; [eauto|]. intros e [].
    - apply obind_ok in E'. destruct E' as (h1 & E1 & E2). destruct (Hf e h done h1 (or_introl eq_refl) S E1) as (d1 & S1).
      destruct (IH (fun e h done h' Hi => Hf e h done h' (or_intror Hi)) h1 d1 h' S1 E2) as (I1 & I2). split; auto. intros x [<-|Hx]; [|auto]. exists h, done, h1. auto.
  Qed.
  Lemma copy_runs h done ke b id ed n data : st h done -> dev_elem tb ke b (Some id) = Ok ed -> N b = Some n -> exists eh h', host_elem tb ke b (Some id) = Ok eh /\ deep_copy (list_set h (v_id ed) data) eh ed = Ok h'.
  Proof.
    intros S E HN. destruct (@dev_elem_look same N (tb, h0) T ke b id ed E) as (vh & L). cbn [fst] in L. destruct (look_elem _ _ _ L) as (Eh & _). exists vh.
    destruct (@elem_cell same N tb h0 T h b id _ n (st_shape S) L HN) as (_ & (c & C & _)). unfold vid in C. cbn [snd kf_view] in C.
    destruct (g_pair (ti_good T) _ L) as (_ & _ & _ & Ex & _). unfold extent in Ex. cbn [fst snd kf_view] in Ex.
    eexists. split; [exact Eh|]. unfold deep_copy, vget. rewrite Ex, Nat.eqb_refl. rewrite nth_set_same by (eapply nth_some_lt; eauto). reflexivity.
  Qed.
  Section Block.
    Variables (sched : scheduler) (m : omgr) (d : kdata) (words : list chars).
    Hypothesis Hs : valid_sched sched.
    Hypothesis Hd : kd_tables d = tb.
    Hypothesis HN : forall id b, In (id, b) (kd_blocks d) -> N id = Some (mb_num_elem (kb_mesh b)).
    Hypothesis HG : forall i id b, nth_error (kd_blocks d) i = Some (id, b) -> exists vr vu, nth_error (kd_gref d) i = Some vr /\ nth_error (kd_gdisp d) i = Some vu /\
      nth_error h0 (v_id vr) = Some (X id) /\ nth_error h0 (v_id vu) = Some (U id) /\ length (X id) = mb_num_elem (kb_mesh b) * 24 /\ length (U id) = mb_num_elem (kb_mesh b) * 24 /\
      outside tb (v_id vr) /\ outside tb (v_id vu).
    Hypothesis HR : forall id b, In (id, b) (kd_blocks d) -> block_done N words tb m id.
    Hypothesis HV : vol_ok tb m.
    Definition has (ke : kind) (id f : nat) : Prop := exists v, dev_elem tb ke id (Some f) = Ok v.
    Definition good_shape (id n : nat) : Prop := forall e, e < n -> well_shaped (corners_of (X id) (U id) e).
    Lemma volume_runs h done i id b : In (i, (id, b)) (numbered (kd_blocks d)) -> st h done -> has KScalarElem id (om_volume_id m) -> good_shape id (mb_num_elem (kb_mesh b)) ->
      exists h', volume_block sched m d h (i, (id, b)) = Ok h'.
    Proof.
      intros Hi S (ed & E1) WS. apply numbered_nth in Hi. destruct (@HG _ _ _ Hi) as (vr & vu & R1 & R2 & R3 & R4 & R5 & R6 & O1 & O2).
      pose proof (nth_error_In _ _ Hi) as Hin. pose proof (@HN _ _ Hin) as Hn. cbn [volume_block]. rewrite Hd. unfold vat. rewrite R1, R2. cbn [obind]. rewrite E1. cbn [obind].
      destruct (@dev_cell _ _ _ _ _ _ T _ _ _ _ _ _ _ S E1 Hn) as (c & C1 & C2). cbn [width] in C2. rewrite Nat.mul_1_r in C2.
      pose proof (@volume_loop_both sched [9; i] h vr vu (X id) (U id) (mb_num_elem (kb_mesh b)) Hs) as VL. rewrite (st_out S O1), (st_out S O2) in VL.
      destruct (VL R3 R4 R5 R6 ed c C1 C2 (@dev_outside _ _ _ _ T _ _ _ _ _ O1 E1) (@dev_outside _ _ _ _ T _ _ _ _ _ O2 E1)) as [VL1 VL2]. destruct (VL2 WS) as (h1 & E2). rewrite E2. cbn [obind].
      destruct (VL1 _ E2) as [_ ->]. destruct (@copy_runs h done KScalarElem id (om_volume_id m) ed _ (vol_data (mb_num_elem (kb_mesh b)) (X id) (U id)) S E1 Hn) as (eh & h' & Eh & Ec). rewrite Eh. cbn [obind]. eauto.
    Qed.
    Lemma extract_runs_col kp ke wd id b n c h done : (kp = KSymIntPt /\ ke = KSymElem /\ wd = 6 \/ kp = KFullIntPt /\ ke = KFullElem /\ wd = 9) ->
      In (id, b) (kd_blocks d) -> n = mb_num_elem (kb_mesh b) -> st h done -> tensor_of tb words kp ke id n c -> has ke id (ec_id c) -> (n = 0 \/ (0 <= ec_point c < 8)%Z) ->
      exists h', (do pv <- dev_ipt (kd_tables d) kp id (Some (ec_ipt_id c)) STEP_NP1;
       do ed <- dev_elem (kd_tables d) ke id (Some (ec_id c));
       do h <- extract sched [10; id] wd (ec_point c) pv ed n h;
       do eh <- host_elem (kd_tables d) ke id (Some (ec_id c));
       deep_copy h eh ed) = Ok h'.
    Proof.
      intros K Hin Hn S (w & f & pt & fid & Hw & Ep & Ef & El & Ei & Ek & Epo & _) (ed & E2) Rng. rewrite Hd. pose proof (@HN _ _ Hin) as HNn. rewrite <- Hn in HNn.
      assert (Wp : width kp = 8 * wd) by (destruct K as [(-> & -> & ->)|(-> & -> & ->)]; reflexivity).
      assert (We : width ke = wd) by (destruct K as [(-> & -> & ->)|(-> & -> & ->)]; reflexivity).
      assert (Wpos : 0 < wd) by (destruct K as [(_ & _ & ->)|(_ & _ & ->)]; lia).
      assert (Ev : exists v, dev_ipt tb kp id (Some fid) STEP_NP1 = Ok v).
      { clear - Ef. unfold pf in Ef. destruct (assoc chars_eqb f (tb_labels tb)) as [i|]; [|discriminate]. destruct (dev_ipt tb kp id (Some i) STEP_NP1) eqn:E; try discriminate. assert (i = fid) as -> by congruence. eauto. }
      destruct Ev as (pv & E1). rewrite Ei, E1. cbn [obind]. rewrite E2. cbn [obind].
      destruct (@ipt_src _ _ _ _ _ _ T _ _ _ _ _ _ _ S E1 HNn) as (P1 & P2 & P3). rewrite Wp in P2. destruct (@dev_cell _ _ _ _ _ _ T _ _ _ _ _ _ _ S E2 HNn) as (cc & C1 & C2). rewrite We in C2.
      destruct (@extract_runs sched [10; id] h (repeat 0%R (n * 24)) (repeat 0%R (n * 24)) n Hs (repeat_length _ _) (repeat_length _ _) wd pv (held h0 pv) Wpos P1 P2 (ec_point c) ed cc C1 C2 (@dev_outside _ _ _ _ T _ _ _ _ _ P3 E2) Rng) as (h1 & E3).
      rewrite E3. cbn [obind].
      destruct (@extract_ok sched [10; id] h (repeat 0%R (n * 24)) (repeat 0%R (n * 24)) n Hs (repeat_length _ _) (repeat_length _ _) wd pv (held h0 pv) Wpos P1 P2 (ec_point c) ed cc h1 C1 C2 (@dev_outside _ _ _ _ T _ _ _ _ _ P3 E2) E3) as (_ & ->).
      destruct (@copy_runs h done ke id (ec_id c) ed n (point_data n wd (Z.to_nat (ec_point c)) (held h0 pv)) S E2 HNn) as (eh & h' & Eh & Ec). rewrite Eh. cbn [obind]. eauto.
    Qed.
    Lemma average_runs kp ke wd i id b n fid vr vu h done : (kp = KSymIntPt /\ ke = KSymElem /\ wd = 6 \/ kp = KFullIntPt /\ ke = KFullElem /\ wd = 9) ->
      In (id, b) (kd_blocks d) -> n = mb_num_elem (kb_mesh b) -> nth_error (kd_blocks d) i = Some (id, b) -> nth_error (kd_gref d) i = Some vr -> nth_error (kd_gdisp d) i = Some vu ->
      In fid (flat_map (avg tb kp id) words) -> st h done -> has ke id fid -> good_shape id n ->
      exists h', average_field sched kp ke wd vr vu d id n h fid = Ok h'.
    Proof.
      intros K Hin Hn Hi Hr Hu Hf S (ed & E2) WS. destruct (@HG _ _ _ Hi) as (vr' & vu' & R1 & R2 & R3 & R4 & R5 & R6 & O1 & O2). rewrite Hr in R1. rewrite Hu in R2.
      assert (vr' = vr) as -> by congruence. assert (vu' = vu) as -> by congruence. clear R1 R2.
      unfold average_field. rewrite Hd. pose proof (@HN _ _ Hin) as HNn. rewrite <- Hn in HNn, R5, R6.
      apply in_flat_map in Hf. destruct Hf as (w & Hw & Hf). unfold avg in Hf. destruct (parse_request w) as [[f [z|]]| | |] eqn:Ep; try now destruct Hf.
      pose proof (@parse_none _ _ Ep) as Efw. subst f. destruct (pf tb kp id w) as [fid'|] eqn:Ef; [|destruct Hf]. destruct Hf as [Hf|[]]. subst fid'.
      assert (Ev : exists v, dev_ipt tb kp id (Some fid) STEP_NP1 = Ok v).
      { clear - Ef. unfold pf in Ef. destruct (assoc chars_eqb w (tb_labels tb)) as [i|]; [|discriminate]. destruct (dev_ipt tb kp id (Some i) STEP_NP1) eqn:E; try discriminate. assert (i = fid) as -> by congruence. eauto. }
      destruct Ev as (pv & E1). rewrite E1. cbn [obind]. rewrite E2. cbn [obind].
      assert (Wp : width kp = 8 * wd) by (destruct K as [(-> & -> & ->)|(-> & -> & ->)]; reflexivity).
      assert (We : width ke = wd) by (destruct K as [(-> & -> & ->)|(-> & -> & ->)]; reflexivity).
      assert (Wpos : 0 < wd) by (destruct K as [(_ & _ & ->)|(_ & _ & ->)]; lia).
      destruct (@ipt_src _ _ _ _ _ _ T _ _ _ _ _ _ _ S E1 HNn) as (P1 & P2 & P3). rewrite Wp in P2. destruct (@dev_cell _ _ _ _ _ _ T _ _ _ _ _ _ _ S E2 HNn) as (cc & C1 & C2). rewrite We in C2.
      pose proof (@average_loop_both sched [11; id] h vr vu (X id) (U id) n Hs) as AL. rewrite (st_out S O1), (st_out S O2) in AL.
      destruct (AL R3 R4 R5 R6 wd pv (held h0 pv) Wpos P1 P2 ed cc C1 C2 (@dev_outside _ _ _ _ T _ _ _ _ _ O1 E2) (@dev_outside _ _ _ _ T _ _ _ _ _ O2 E2) (@dev_outside _ _ _ _ T _ _ _ _ _ P3 E2)) as [A1 A2].
      destruct (A2 WS) as (h1 & E3). rewrite E3. cbn [obind]. destruct (A1 _ E3) as [_ ->].
      destruct (@copy_runs h done ke id fid ed n (mean_data n wd (X id) (U id) (held h0 pv)) S E2 HNn) as (eh & h' & Eh & Ec). rewrite Eh. cbn [obind]. eauto.
    Qed.
    (** what the computation needs of a block *)
    Definition needs (id n : nat) : Prop :=
      (om_volume m = true -> has KScalarElem id (om_volume_id m) /\ good_shape id n) /\
      (forall cols c, assoc Nat.eqb id (om_elem m) = Some cols -> In c cols -> ec_point c <> (-1)%Z -> ec_kind c = KSymElem \/ ec_kind c = KFullElem -> has (ec_kind c) id (ec_id c) /\ (n = 0 \/ (0 <= ec_point c < 8)%Z)) /\
      (forall kp ke fid, (kp = KSymIntPt /\ ke = KSymElem \/ kp = KFullIntPt /\ ke = KFullElem) -> In fid (flat_map (avg tb kp id) words) -> has ke id fid /\ good_shape id n).
    Lemma column_st id b h done h' c : In (id, b) (kd_blocks d) -> column_kind tb words id (mb_num_elem (kb_mesh b)) c -> st h done ->
      extract_column sched d id (mb_num_elem (kb_mesh b)) h c = Ok h' -> (exists done', st h' done') /\
      (ec_point c <> (-1)%Z -> ec_kind c = KSymElem \/ ec_kind c = KFullElem -> has (ec_kind c) id (ec_id c) /\ (mb_num_elem (kb_mesh b) = 0 \/ (0 <= ec_point c < 8)%Z)).
    Proof.
      intros Hin Kc S E. unfold extract_column in E. destruct (Z.eqb_spec (ec_point c) (-1)) as [Ez|Ez].
      - assert (h' = h) as -> by congruence. split; [eauto|]. intros H. contradiction.
      - destruct Kc as [(_ & _ & _ & Kp & _)|[Kc|Kc]]; [contradiction| |].
        + pose proof Kc as (w & f & pt & fid & _ & _ & _ & _ & _ & Ek & _). rewrite Ek in E |- *.
          destruct (@extract_tensor same N tb h0 X U T sched m d words Hs Hd HN HG HR KSymIntPt KSymElem 6 id b _ c h done h' (or_introl (conj eq_refl (conj eq_refl eq_refl))) Hin eq_refl S Kc Ez E) as (S' & Rng).
          split; [eauto|]. intros _ _. split; [|exact Rng]. apply obind_ok in E. destruct E as (pv & _ & E). apply obind_ok in E. destruct E as (ed & E2 & _). exists ed. now rewrite <- Hd.
        + pose proof Kc as (w & f & pt & fid & _ & _ & _ & _ & _ & Ek & _). rewrite Ek in E |- *.
          destruct (@extract_tensor same N tb h0 X U T sched m d words Hs Hd HN HG HR KFullIntPt KFullElem 9 id b _ c h done h' (or_intror (conj eq_refl (conj eq_refl eq_refl))) Hin eq_refl S Kc Ez E) as (S' & Rng).
          split; [eauto|]. intros _ _. split; [|exact Rng]. apply obind_ok in E. destruct E as (pv & _ & E). apply obind_ok in E. destruct E as (ed & E2 & _). exists ed. now rewrite <- Hd.
    Qed.
    Lemma column_runs id b h done c : In (id, b) (kd_blocks d) -> column_kind tb words id (mb_num_elem (kb_mesh b)) c -> st h done ->
      (ec_point c <> (-1)%Z -> ec_kind c = KSymElem \/ ec_kind c = KFullElem -> has (ec_kind c) id (ec_id c) /\ (mb_num_elem (kb_mesh b) = 0 \/ (0 <= ec_point c < 8)%Z)) ->
      exists h', extract_column sched d id (mb_num_elem (kb_mesh b)) h c = Ok h'.
    Proof.
      intros Hin Kc S Hc. unfold extract_column. destruct (Z.eqb_spec (ec_point c) (-1)) as [Ez|Ez]; [eauto|].
      destruct Kc as [(_ & _ & _ & Kp & _)|[Kc|Kc]]; [contradiction| |].
      - pose proof Kc as (w & f & pt & fid & _ & _ & _ & _ & _ & Ek & _). rewrite Ek in Hc |- *. destruct (Hc Ez (or_introl eq_refl)) as (H1 & H2).
        exact (@extract_runs_col KSymIntPt KSymElem 6 id b _ c h done (or_introl (conj eq_refl (conj eq_refl eq_refl))) Hin eq_refl S Kc H1 H2).
      - pose proof Kc as (w & f & pt & fid & _ & _ & _ & _ & _ & Ek & _). rewrite Ek in Hc |- *. destruct (Hc Ez (or_intror eq_refl)) as (H1 & H2).
        exact (@extract_runs_col KFullIntPt KFullElem 9 id b _ c h done (or_intror (conj eq_refl (conj eq_refl eq_refl))) Hin eq_refl S Kc H1 H2).
    Qed.
    Lemma block_cols id b : In (id, b) (kd_blocks d) -> exists cols, assoc Nat.eqb id (om_elem m) = Some cols /\ (forall c, In c cols -> column_kind tb words id (mb_num_elem (kb_mesh b)) c) /\
      assoc Nat.eqb id (om_sym m) = Some (flat_map (avg tb KSymIntPt id) words) /\ assoc Nat.eqb id (om_full m) = Some (flat_map (avg tb KFullIntPt id) words).
    Proof.
      intros Hin. destruct (@HR _ _ Hin _ (@HN _ _ Hin)) as (F & (cols & Ec & Sk) & A1 & A2). exists cols. split; auto. split; [|auto].
      intros c Hc. eapply bsk_kind; [exact F|]. rewrite <- Sk. now apply in_map.
    Qed.
    Lemma one_average kp ke wd i id b h done h' fid vr vu : (kp = KSymIntPt /\ ke = KSymElem /\ wd = 6 \/ kp = KFullIntPt /\ ke = KFullElem /\ wd = 9) ->
      nth_error (kd_blocks d) i = Some (id, b) -> nth_error (kd_gref d) i = Some vr -> nth_error (kd_gdisp d) i = Some vu ->
      In fid (flat_map (avg tb kp id) words) -> st h done -> average_field sched kp ke wd vr vu d id (mb_num_elem (kb_mesh b)) h fid = Ok h' ->
      (exists done', st h' done') /\ has ke id fid /\ good_shape id (mb_num_elem (kb_mesh b)).
    Proof.
      intros K Hi Hr Hu Hf S E.
      destruct (@average_tensor same N tb h0 X U T sched m d words Hs Hd HN HG HR kp ke wd i id b _ fid vr vu h done h' K (nth_error_In _ _ Hi) eq_refl Hi Hr Hu Hf S E) as (S' & WS).
      split; [eauto|]. split; [|exact WS]. unfold average_field in E. apply obind_ok in E. destruct E as (pv & _ & E). apply obind_ok in E. destruct E as (ed & E2 & _). exists ed. now rewrite <- Hd.
    Qed.
    Lemma compute_when : kd_heap d = h0 -> ((exists d', compute_element_data sched m d = Ok d') <-> forall id b, In (id, b) (kd_blocks d) -> needs id (mb_num_elem (kb_mesh b))).
    Proof.
      intros Hh.
      assert (VS : om_volume m = true -> forall e h done h', In e (numbered (kd_blocks d)) -> st h done -> volume_block sched m d h e = Ok h' -> exists done', st h' done').
      { intros Hm [i [id b]] h done h' Hi S E. destruct (@volume_st same N tb h0 X U T sched m d words Hs Hd HN HG HR HV h done h' i id b Hi Hm S E) as (S' & _). eauto. }
      assert (ES : forall e h done h', In e (kd_blocks d) -> st h done -> extract_block sched m d h e = Ok h' -> exists done', st h' done').
      { intros [id b] h done h' Hi S E. destruct (@extract_st same N tb h0 X U T sched m d words Hs Hd HN HG HR h done h' id b Hi S E) as (d' & S' & _). eauto. }
      assert (AS : forall e h done h', In e (numbered (kd_blocks d)) -> st h done -> average_block sched m d h e = Ok h' -> exists done', st h' done').
      { intros [i [id b]] h done h' Hi S E. destruct (@average_st same N tb h0 X U T sched m d words Hs Hd HN HG HR h done h' i id b Hi S E) as (d' & S' & _). eauto. }
      pose proof (@st_start N tb h0 X U) as S0.
      split.
      - intros (d' & E) id b Hin. unfold compute_element_data in E. apply obind_ok in E. destruct E as (h1 & E1 & E). apply obind_ok in E. destruct E as (h2 & E2 & E). apply obind_ok in E. destruct E as (h3 & E3 & _).
        rewrite Hh in E1. destruct (in_numbered _ _ Hin) as [i Hi]. pose proof (numbered_nth _ _ _ Hi) as Hi'. destruct (@HG _ _ _ Hi') as (vr & vu & R1 & R2 & _).
        assert (Q1 : (exists d1, st h1 d1) /\ (om_volume m = true -> has KScalarElem id (om_volume_id m) /\ good_shape id (mb_num_elem (kb_mesh b)))).
        { destruct (om_volume m) eqn:Em.
          - destruct (@fold_each _ _ _ (VS eq_refl) _ _ _ S0 E1) as (I1 & I2). split; auto. intros _. destruct (I2 _ Hi) as (ha & da & hb & Sa & Ea).
            destruct (@volume_st same N tb h0 X U T sched m d words Hs Hd HN HG HR HV ha da hb i id b Hi Em Sa Ea) as (_ & WS). split; [|exact WS].
            cbn [volume_block] in Ea. apply obind_ok in Ea. destruct Ea as (? & _ & Ea). apply obind_ok in Ea. destruct Ea as (? & _ & Ea). apply obind_ok in Ea. destruct Ea as (ed & Ed & _). exists ed. now rewrite <- Hd.
          - split; [|discriminate]. exists []. assert (h1 = h0) as -> by congruence. exact S0. }
        destruct Q1 as ((d1 & S1) & Q1). destruct (@fold_each _ _ _ ES _ _ _ S1 E2) as ((d2 & S2) & Q2). destruct (@fold_each _ _ _ AS _ _ _ S2 E3) as (_ & Q3).
        destruct (block_cols _ _ Hin) as (cols & Ec & Kc & A1 & A2). split; [exact Q1|]. split.
        + intros cols' c Hc Hic. assert (cols' = cols) as -> by congruence. destruct (Q2 _ Hin) as (ha & da & hb & Sa & Ea). unfold extract_block in Ea. cbn [fst snd] in Ea. unfold mat in Ea. rewrite Ec in Ea. cbn [obind] in Ea.
          destruct (@fold_each _ (extract_column sched d id (mb_num_elem (kb_mesh b))) cols) with (h := ha) (done := da) (h' := hb) as (_ & I2); [|exact Sa|exact Ea|].
          { intros c' hc dc hc' Hc' Sc E. exact (proj1 (@column_st id b hc dc hc' c' Hin (Kc _ Hc') Sc E)). }
          destruct (I2 _ Hic) as (hc & dc & hc' & Sc & E'). exact (proj2 (@column_st id b hc dc hc' c Hin (Kc _ Hic) Sc E')).
        + destruct (Q3 _ Hi) as (ha & da & hb & Sa & Ea). cbn [average_block] in Ea. unfold vat, mat in Ea. rewrite R1, R2 in Ea. cbn [obind] in Ea. rewrite A1, A2 in Ea. cbn [obind] in Ea.
          apply obind_ok in Ea. destruct Ea as (hm & Ea & Eb).
          assert (FS : forall kp ke wd, (kp = KSymIntPt /\ ke = KSymElem /\ wd = 6 \/ kp = KFullIntPt /\ ke = KFullElem /\ wd = 9) -> forall h done h', st h done ->
            ofold (average_field sched kp ke wd vr vu d id (mb_num_elem (kb_mesh b))) (flat_map (avg tb kp id) words) h = Ok h' ->
            (exists done', st h' done') /\ forall fid, In fid (flat_map (avg tb kp id) words) -> has ke id fid /\ good_shape id (mb_num_elem (kb_mesh b))).
          { intros kp ke wd K h done h' S E. destruct (@fold_each _ (average_field sched kp ke wd vr vu d id (mb_num_elem (kb_mesh b))) (flat_map (avg tb kp id) words)) with (h := h) (done := done) (h' := h') as (I1 & I2); [|exact S|exact E|].
            - intros fid hc dc hc' Hf Sc Ef. exact (proj1 (@one_average kp ke wd i id b hc dc hc' fid vr vu K Hi' R1 R2 Hf Sc Ef)).
            - split; [exact I1|]. intros fid Hf. destruct (I2 _ Hf) as (hc & dc & hc' & Sc & Ef). exact (proj2 (@one_average kp ke wd i id b hc dc hc' fid vr vu K Hi' R1 R2 Hf Sc Ef)). }
          destruct (FS KSymIntPt KSymElem 6 (or_introl (conj eq_refl (conj eq_refl eq_refl))) _ _ _ Sa Ea) as ((dm & Sm) & F1).
          destruct (FS KFullIntPt KFullElem 9 (or_intror (conj eq_refl (conj eq_refl eq_refl))) _ _ _ Sm Eb) as (_ & F2).
          intros kp ke fid [(-> & ->)|(-> & ->)]; auto.
      - intros Hn. unfold compute_element_data. rewrite Hh.
        assert (Q1 : exists h1 d1, (if om_volume m then ofold (volume_block sched m d) (numbered (kd_blocks d)) h0 else Ok h0) = Ok h1 /\ st h1 d1).
        { destruct (om_volume m) eqn:Em; [|exists h0, []; split; auto]. apply fold_run with (done := []); [exact (VS eq_refl)| |exact S0].
          intros [i [id b]] h done Hi S. destruct (Hn id b (nth_error_In _ _ (numbered_nth _ _ _ Hi))) as (N1 & _). destruct (N1 Em) as (H1 & H2). exact (@volume_runs h done i id b Hi S H1 H2). }
        destruct Q1 as (h1 & d1 & -> & S1). cbn [obind].
        assert (Q2 : exists h2 d2, ofold (extract_block sched m d) (kd_blocks d) h1 = Ok h2 /\ st h2 d2).
        { apply fold_run with (done := d1); [exact ES| |exact S1]. intros [id b] h done Hin S. destruct (Hn id b Hin) as (_ & N2 & _).
          destruct (block_cols _ _ Hin) as (cols & Ec & Kc & _). unfold extract_block. cbn [fst snd]. unfold mat. rewrite Ec. cbn [obind].
          destruct (@fold_run _ (extract_column sched d id (mb_num_elem (kb_mesh b))) cols) with (h := h) (done := done) as (h' & d' & E & _); [| |exact S|eauto].
          - intros c hc dc hc' Hc Sc E. exact (proj1 (@column_st id b hc dc hc' c Hin (Kc _ Hc) Sc E)).
          - intros c hc dc Hc Sc. exact (@column_runs id b hc dc c Hin (Kc _ Hc) Sc (N2 _ _ Ec Hc)). }
        destruct Q2 as (h2 & d2 & -> & S2). cbn [obind].
        assert (Q3 : exists h3 d3, ofold (average_block sched m d) (numbered (kd_blocks d)) h2 = Ok h3 /\ st h3 d3).
        { apply fold_run with (done := d2); [exact AS| |exact S2]. intros [i [id b]] h done Hi S. pose proof (numbered_nth _ _ _ Hi) as Hi'. pose proof (nth_error_In _ _ Hi') as Hin. destruct (Hn id b Hin) as (_ & _ & N3).
          destruct (@HG _ _ _ Hi') as (vr & vu & R1 & R2 & _). destruct (block_cols _ _ Hin) as (cols & Ec & Kc & A1 & A2).
          cbn [average_block]. unfold vat, mat. rewrite R1, R2. cbn [obind]. rewrite A1, A2. cbn [obind].
          assert (FS : forall kp ke wd, (kp = KSymIntPt /\ ke = KSymElem /\ wd = 6 \/ kp = KFullIntPt /\ ke = KFullElem /\ wd = 9) -> forall h done, st h done ->
            exists h' done', ofold (average_field sched kp ke wd vr vu d id (mb_num_elem (kb_mesh b))) (flat_map (avg tb kp id) words) h = Ok h' /\ st h' done').
          { intros kp ke wd K hh dd SS. apply fold_run with (done := dd); [| |exact SS].
            - intros fid hc dc hc' Hf Sc Ef. exact (proj1 (@one_average kp ke wd i id b hc dc hc' fid vr vu K Hi' R1 R2 Hf Sc Ef)).
            - intros fid hc dc Hf Sc. destruct (N3 kp ke fid) as (H1 & H2); [destruct K as [(-> & -> & _)|(-> & -> & _)]; auto|exact Hf|].
              exact (@average_runs kp ke wd i id b _ fid vr vu hc dc K Hin eq_refl Hi' R1 R2 Hf Sc H1 H2). }
          destruct (FS KSymIntPt KSymElem 6 (or_introl (conj eq_refl (conj eq_refl eq_refl))) _ _ S) as (ha & da & -> & Sa). cbn [obind].
          destruct (FS KFullIntPt KFullElem 9 (or_intror (conj eq_refl (conj eq_refl eq_refl))) _ _ Sa) as (hb & db & -> & Sb). eauto. }
        destruct Q3 as (h3 & d3 & -> & S3). cbn [obind]. eauto.
    Qed.
  End Block.
End Runs.
