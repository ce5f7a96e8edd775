(** Output manager: when writing succeeds. *)
From Coq Require Import Reals Lra.
From Verif Require Import Base Strings ListLemmas DataModel DataProofs Loops TensorModel TensorSpec ElementModel ElementSpec BlockModel InputModel InputProofs3 ElemDataModel ElemDataProofs4 KokkosModel KokkosSpec3 KokkosProofs KokkosProofs2 KokkosProofs7 KokkosProofs8 KokkosProofs9 KokkosProofs19
  KokkosOutModel KokkosOutSpec KokkosOutProofs1 KokkosOutProofs2 KokkosOutProofs3 KokkosOutProofs4 KokkosOutProofs5 KokkosOutProofs6 KokkosOutProofs7 KokkosOutProofs8 KokkosOutProofs9 KokkosOutProofs10.
Set Implicit Arguments.
Local Open Scope nat_scope.
Local Open Scope list_scope.
Local Notation length := List.length.

Lemma omapM_runs {A B} (f : A -> outcome B) l : (forall x, In x l -> exists y, f x = Ok y) -> exists l', omapM f l = Ok l'.
Proof.
  induction l as [|a l IH]; intros H; [eexists; reflexivity|]. destruct (H a (or_introl eq_refl)) as (y & E). destruct IH as (l' & El); [intros x Hx; apply H; now right|].
  cbn [omapM]. rewrite E. cbn [obind]. rewrite El. cbn [obind]. eauto.
Qed.
Lemma rd_runs h g c i : nth_error h g = Some c -> i < length c -> exists x, rd h (g, i) = Ok x.
Proof. intros H L. eexists. now apply (@rd_ok h g c i). Qed.

Section Tables.
  Variables (same : bool) (N : nat -> option nat) (tb : tables) (h : heap).
  Hypothesis T : tinv same N (tb, h).
  Lemma has_host ke id f : has tb ke id f <-> exists v, host_elem tb ke id (Some f) = Ok v.
  Proof.
    split; intros (v & E).
    - destruct (@dev_elem_look same N (tb, h) T ke id f v E) as (vh & L). destruct (look_elem _ _ _ L) as (Eh & _). eauto.
    - destruct (@host_elem_look same N (tb, h) T ke id f v E) as (vd & L). destruct (look_elem _ _ _ L) as (_ & Eh). exists vd. exact Eh.
  Qed.
  Lemma field_has ke id w i : assoc chars_eqb w (tb_labels tb) = Some i -> element_field tb ke id w <> None <-> has tb ke id i.
  Proof.
    intros El. rewrite has_host. unfold element_field, get_field_id. rewrite El. destruct (host_elem tb ke id (Some i)) as [v| | |] eqn:E; split; try congruence; try (intros (v' & H); congruence). eauto.
  Qed.
  Lemma node_runs words d cols : kd_tables d = tb -> shaped h (kd_heap d) -> map nsk cols = flat_map (ssk tb) words ++ flat_map (xsk tb) words -> exists cols', omapM (read_node_column d) cols = Ok cols'.
  Proof.
    intros Ht Sh Hc. apply omapM_runs. intros c Hi.
    assert (Q : exists v, host_node tb (nc_kind c) (Some (nc_id c)) = Ok v /\ length (nc_data c) = v_extent v /\ (nc_kind c = KScalarNode \/ nc_kind c = KVectorNode /\ nc_comp c < 3)).
    { assert (Hs : In (nsk c) (map nsk cols)) by now apply in_map. rewrite Hc in Hs. apply in_app_or in Hs. destruct Hs as [Hs|Hs]; apply in_flat_map in Hs; destruct Hs as (w & _ & Hs).
      - unfold ssk in Hs. destruct (assoc chars_eqb w (tb_labels tb)) as [i|]; [|destruct Hs]. destruct (host_node tb KScalarNode (Some i)) as [v| | |] eqn:Ev; try now destruct Hs.
        destruct Hs as [Hs|[]]. unfold nsk in Hs. assert (E1 : nc_id c = i) by congruence. assert (E2 : nc_kind c = KScalarNode) by congruence. assert (E3 : length (nc_data c) = v_extent v) by congruence.
        exists v. rewrite E1, E2. auto.
      - unfold xsk in Hs. destruct (assoc chars_eqb w (tb_labels tb)) as [i|]; [|destruct Hs]. destruct (host_node tb KVectorNode (Some i)) as [v| | |] eqn:Ev; try now destruct Hs.
        assert (E1 : nc_id c = i /\ nc_kind c = KVectorNode /\ length (nc_data c) = v_extent v /\ nc_comp c < 3).
        { unfold nsk in Hs. repeat (destruct Hs as [Hs|Hs]; [repeat split; try congruence; match type of Hs with (_, _, _, ?a, _) = _ => assert (Ec : nc_comp c = a) by congruence; rewrite Ec; vm_compute; lia end|]). destruct Hs. }
        destruct E1 as (E1 & E2 & E3 & E4). exists v. rewrite E1, E2. auto. }
    destruct Q as (v & Ev & El & Ek). unfold read_node_column. rewrite Ht, Ev. cbn [obind].
    destruct (@host_node_look same N (tb, h) T _ _ _ Ev) as (vd & L). destruct (g_pair (ti_good T) _ L) as ((cc & C & LC) & _). unfold vid, extent in *. cbn [fst snd kf_view kf_kind] in *.
    destruct (shaped_cell _ Sh C) as (y & Y & LY).
    destruct (@omapM_runs nat R (fun i => rd (kd_heap d) (v_id v, match nc_kind c with KVectorNode => i * 3 + nc_comp c | _ => i end)) (seq 0 (length (nc_data c)))) as (x & Ex).
    { intros i Hin. apply in_seq in Hin. apply (@rd_runs _ _ y); [exact Y|]. rewrite LY, LC. destruct Ek as [Ek|[Ek Hlt]]; rewrite Ek; cbn [width]; lia. }
    rewrite Ex. cbn [obind]. eauto.
  Qed.
End Tables.

Lemma blocks_run d ids : forall el, NoDup ids -> (forall id, In id ids -> exists cols cols', assoc Nat.eqb id el = Some cols /\ omapM (read_elem_column d id) cols = Ok cols') ->
  exists el', ofold (read_elem_block d) ids el = Ok el'.
Proof.
  induction ids as [|a ids IH]; intros el Hn H; [eexists; reflexivity|]. inversion_clear Hn as [|? ? Hna Hn'].
  destruct (H a (or_introl eq_refl)) as (cols & cols' & H1 & H2). cbn [ofold]. unfold read_elem_block at 1. unfold mat. rewrite H1. cbn [obind]. rewrite H2. cbn [obind].
  apply IH; auto. intros id Hi. destruct (H id (or_intror Hi)) as (c1 & c2 & J1 & J2). exists c1, c2. split; auto. rewrite assoc_put. destruct (Nat.eqb_spec id a) as [->|]; [contradiction|exact J1].
Qed.

Section Block.
  Variables (same : bool) (N : nat -> option nat) (tb : tables) (h0 : heap) (X U : nat -> list R).
  Hypothesis T : tinv same N (tb, h0).
  Variables (words : list chars) (m : omgr) (id n : nat).
  Hypothesis HN : N id = Some n.
  Hypothesis HR : block_done N words tb m id.
  Hypothesis HV : vol_ok tb m.
  Hypothesis Hvol : In (lit "volume") words <-> om_volume m = true.
  Variable cols : list ecol.
  Hypothesis Ec : assoc Nat.eqb id (om_elem m) = Some cols.
  Definition reads : Prop := forall c, In c cols -> has tb (ec_kind c) id (ec_id c).
  Lemma point_pf kp f : point_field tb kp id f <> None -> exists fid, pf tb kp id f = Some fid.
  Proof. rewrite pf_point. destruct (pf tb kp id f) as [fid|]; [eauto|congruence]. Qed.
  Lemma pf_point_some kp f fid : pf tb kp id f = Some fid -> point_field tb kp id f <> None.
  Proof.
    intros E. rewrite pf_point, E. unfold pf in E. destruct (assoc chars_eqb f (tb_labels tb)) as [i|]; [|discriminate]. destruct (dev_ipt tb kp id (Some i) STEP_NP1) eqn:Ev; try discriminate.
    assert (i = fid) as -> by congruence. rewrite Ev. discriminate.
  Qed.
  Lemma pf_label kp f fid : pf tb kp id f = Some fid -> assoc chars_eqb f (tb_labels tb) = Some fid.
  Proof. unfold pf. destruct (assoc chars_eqb f (tb_labels tb)) as [i|]; [|discriminate]. destruct (dev_ipt _ _ _ _ _); congruence. Qed.
  Lemma sk_has s : In s (bsk id n tb words) -> exists c, In c cols /\ sk c = s.
  Proof.
    intros H. destruct (HR HN) as (_ & (cols2 & Ec2 & Sk) & _). rewrite Ec in Ec2. assert (cols2 = cols) as -> by congruence. rewrite <- Sk in H. apply in_map_iff in H. destruct H as (c & H1 & H2). eauto.
  Qed.
  Lemma needs_when : (needs tb X U m words id n /\ reads) <-> computable tb id n (X id) (U id) words.
  Proof.
    destruct (HR HN) as (F & (cols2 & Ec2 & Sk) & _). rewrite Ec in Ec2. assert (cols2 = cols) as -> by congruence. clear Ec2.
    assert (KC : forall c, In c cols -> column_kind tb words id n c) by (intros c Hc; eapply bsk_kind; [exact F|]; rewrite <- Sk; now apply in_map).
    split.
    - intros ((N1 & N2 & N3) & Rd) w Hw. destruct (F w Hw) as (F1 & F2 & F3 & ((f & pt) & Ep)). split.
      + intros ->. pose proof (proj1 Hvol Hw) as Hm. destruct (N1 Hm) as (H1 & H2). split; [|exact H2]. apply (field_has T _ _ _ (HV Hm)). exact H1.
      + intros kp ke K. rewrite (parse_meaning _ Ep).
        assert (FK : forall fid, pf tb kp id f = Some fid -> exists i, assoc chars_eqb w (tb_labels tb) = Some i /\ has tb ke id i /\
          exists c, In c cols /\ ec_kind c = ke /\ ec_id c = i /\ ec_point c = ptz pt).
        { intros fid Ef. destruct K as [(-> & ->)|(-> & ->)].
          - assert (Et : tsk tb KSymIntPt KSymElem sym_suffixes id n w = map (fun x => (w ++ fst x, fid, idof tb w, KSymElem, ptz pt, snd x, n)) sym_suffixes) by (unfold tsk; now rewrite Ep, Ef).
            assert (Hne : assoc chars_eqb w (tb_labels tb) <> None) by (apply F2; rewrite Et; discriminate). unfold idof in Et. destruct (assoc chars_eqb w (tb_labels tb)) as [i|]; [|congruence].
            exists i. split; auto. destruct (sk_has (w ++ lit "_xx", fid, i, KSymElem, ptz pt, K_S_XX, n)) as (c & Hc & Es).
            { unfold bsk. apply in_or_app. right. apply in_or_app. left. apply in_flat_map. exists w. split; auto. rewrite Et. now left. }
            assert (E1 : ec_kind c = KSymElem) by (unfold sk in Es; congruence). assert (E2 : ec_id c = i) by (unfold sk in Es; congruence). assert (E3 : ec_point c = ptz pt) by (unfold sk in Es; congruence).
            split; [rewrite <- E1, <- E2; now apply Rd|]. exists c. auto.
          - assert (Et : tsk tb KFullIntPt KFullElem full_suffixes id n w = map (fun x => (w ++ fst x, fid, idof tb w, KFullElem, ptz pt, snd x, n)) full_suffixes) by (unfold tsk; now rewrite Ep, Ef).
            assert (Hne : assoc chars_eqb w (tb_labels tb) <> None) by (apply F3; rewrite Et; discriminate). unfold idof in Et. destruct (assoc chars_eqb w (tb_labels tb)) as [i|]; [|congruence].
            exists i. split; auto. destruct (sk_has (w ++ lit "_xx", fid, i, KFullElem, ptz pt, K_F_XX, n)) as (c & Hc & Es).
            { unfold bsk. apply in_or_app. right. apply in_or_app. right. apply in_flat_map. exists w. split; auto. rewrite Et. now left. }
            assert (E1 : ec_kind c = KFullElem) by (unfold sk in Es; congruence). assert (E2 : ec_id c = i) by (unfold sk in Es; congruence). assert (E3 : ec_point c = ptz pt) by (unfold sk in Es; congruence).
            split; [rewrite <- E1, <- E2; now apply Rd|]. exists c. auto. }
        destruct pt as [z|]; cbv beta iota; intros Hp; destruct (@point_pf _ _ Hp) as (fid & Ef); destruct (FK fid Ef) as (i & Ei & Hi & (c & Hc & C1 & C2 & C3)).
        * split; [now apply (field_has T _ _ _ Ei)|]. cbn [ptz] in C3. destruct (Z.eq_dec z (-1)) as [->|Hz]; [right; lia|].
          destruct (N2 cols c Ec Hc) as (_ & Rng); [congruence|rewrite C1; destruct K as [(_ & ->)|(_ & ->)]; auto|]. destruct Rng as [Rng|Rng]; [auto|right; lia].
        * pose proof (parse_none _ Ep) as Efw. subst f. split; [now apply (field_has T _ _ _ Ei)|]. apply (N3 kp ke fid); auto. apply in_flat_map. exists w. split; auto. unfold avg. rewrite Ep, Ef. now left.
    - intros C.
      assert (TC : forall kp ke c, kp = KSymIntPt /\ ke = KSymElem \/ kp = KFullIntPt /\ ke = KFullElem -> tensor_of tb words kp ke id n c -> has tb ke id (ec_id c) /\ (ec_point c <> (-1)%Z -> n = 0 \/ (0 <= ec_point c < 8)%Z)).
      { intros kp ke c K (w & f & pt & fid & Hw & Ep & Ef & El & _ & _ & Epo & _). destruct (C w Hw) as (_ & C2). specialize (C2 kp ke K). rewrite (parse_meaning _ Ep) in C2.
        pose proof (@pf_point_some _ _ _ Ef) as Hp. destruct pt as [z|]; cbv beta iota in C2; destruct (C2 Hp) as (H1 & H2).
        - split; [now apply (field_has T _ _ _ El)|]. rewrite Epo. cbn [ptz]. intros Hz. destruct H2 as [H2|H2]; [auto|right; lia].
        - pose proof (parse_none _ Ep) as Efw. subst f. split; [now apply (field_has T _ _ _ El)|]. rewrite Epo. intros H. now elim H. }
      assert (VC : In (lit "volume") words -> forall i, assoc chars_eqb (lit "volume") (tb_labels tb) = Some i -> has tb KScalarElem id i /\ all_shaped n (X id) (U id)).
      { intros Hw i El. destruct (C _ Hw) as (C1 & _). destruct (C1 eq_refl) as (H1 & H2). split; [now apply (field_has T _ _ _ El)|exact H2]. }
      split; [split; [|split]|].
      + intros Hm. apply VC; [now apply Hvol|now apply HV].
      + intros cols' c Hc Hi Hp Hk. assert (cols' = cols) as -> by congruence. destruct (KC c Hi) as [(_ & _ & _ & Kp & _)|[Kc|Kc]]; [contradiction| |].
        * pose proof Kc as (w & f & pt & fid & _ & _ & _ & _ & _ & Ek & _). destruct (TC _ _ _ (or_introl (conj eq_refl eq_refl)) Kc) as (H1 & H2). rewrite Ek. auto.
        * pose proof Kc as (w & f & pt & fid & _ & _ & _ & _ & _ & Ek & _). destruct (TC _ _ _ (or_intror (conj eq_refl eq_refl)) Kc) as (H1 & H2). rewrite Ek. auto.
      + intros kp ke fid K Hf. apply in_flat_map in Hf. destruct Hf as (w & Hw & Hf). unfold avg in Hf. destruct (parse_request w) as [[f [z|]]| | |] eqn:Ep; try now destruct Hf.
        pose proof (@parse_none _ _ Ep) as Efw. subst f. destruct (pf tb kp id w) as [fid'|] eqn:Ef; [|destruct Hf]. destruct Hf as [Hf|[]]. subst fid'.
        destruct (C w Hw) as (_ & C2). specialize (C2 kp ke K). rewrite (parse_meaning _ Ep) in C2. destruct (C2 (@pf_point_some _ _ _ Ef)) as (H1 & H2). split; [|exact H2]. now apply (field_has T _ _ _ (@pf_label _ _ _ Ef)).
      + intros c Hc. destruct (KC c Hc) as [(Hw & El & Ek & _)|[Kc|Kc]].
        * rewrite Ek. now apply VC.
        * pose proof Kc as (w & f & pt & fid & _ & _ & _ & _ & _ & Ek & _). rewrite Ek. now apply (TC _ _ _ (or_introl (conj eq_refl eq_refl)) Kc).
        * pose proof Kc as (w & f & pt & fid & _ & _ & _ & _ & _ & Ek & _). rewrite Ek. now apply (TC _ _ _ (or_intror (conj eq_refl eq_refl)) Kc).
  Qed.
  Lemma comp_lt c : In c cols -> ec_comp c < width (ec_kind c) /\ length (ec_data c) = n.
  Proof.
    intros Hc. destruct (HR HN) as (_ & (cols2 & Ec2 & Sk) & _). rewrite Ec in Ec2. assert (cols2 = cols) as -> by congruence.
    assert (H : In (sk c) (bsk id n tb words)) by (rewrite <- Sk; now apply in_map). unfold bsk in H. rewrite !in_app_iff, !in_flat_map in H. destruct H as [(w & _ & H)|[(w & _ & H)|(w & _ & H)]].
    - unfold vsk in H. destruct (chars_eqb w (lit "volume")); [|destruct H]. destruct H as [H|[]]. unfold sk in H. assert (E1 : ec_kind c = KScalarElem) by congruence. assert (E2 : ec_comp c = 0) by congruence. split; [rewrite E1, E2; simpl; lia|congruence].
    - unfold tsk in H. destruct (parse_request w) as [[f pt]| | |]; try now destruct H. destruct (pf tb KSymIntPt id f) as [fid|]; [|destruct H]. apply in_map_iff in H. destruct H as (x & H & Hx). unfold sk in H.
      assert (E1 : ec_kind c = KSymElem) by congruence. assert (E2 : ec_comp c = snd x) by congruence. split; [|congruence]. rewrite E1, E2. simpl in Hx. repeat (destruct Hx as [<-|Hx]; [vm_compute; lia|]). destruct Hx.
    - unfold tsk in H. destruct (parse_request w) as [[f pt]| | |]; try now destruct H. destruct (pf tb KFullIntPt id f) as [fid|]; [|destruct H]. apply in_map_iff in H. destruct H as (x & H & Hx). unfold sk in H.
      assert (E1 : ec_kind c = KFullElem) by congruence. assert (E2 : ec_comp c = snd x) by congruence. split; [|congruence]. rewrite E1, E2. simpl in Hx. repeat (destruct Hx as [<-|Hx]; [vm_compute; lia|]). destruct Hx.
  Qed.
  Lemma reads_run d : kd_tables d = tb -> shaped h0 (kd_heap d) -> reads <-> exists cols', omapM (read_elem_column d id) cols = Ok cols'.
  Proof.
    intros Ht Sh. split.
    - intros Rd. apply omapM_runs. intros c Hc. destruct (comp_lt c Hc) as (Hlt & Hlen). pose proof (Rd c Hc) as Hh. apply (has_host T) in Hh. destruct Hh as (v & Ev). unfold read_elem_column. rewrite Ht, Ev. cbn [obind].
      destruct (@host_elem_look same N (tb, h0) T _ _ _ _ Ev) as (vd & L). cbn [fst] in L.
      destruct (@elem_cell same N tb h0 T (kd_heap d) id _ _ n Sh L HN) as ((cc & C & LC) & _). unfold vid in C. cbn [fst kf_view kf_kind] in C, LC.
      destruct (@omapM_runs nat R (fun i => rd (kd_heap d) (v_id v, i * width (ec_kind c) + ec_comp c)) (seq 0 (length (ec_data c)))) as (x & Ex).
      { intros i Hin. apply in_seq in Hin. apply (@rd_runs _ _ cc); [exact C|]. rewrite LC. nia. }
      rewrite Ex. cbn [obind]. eauto.
    - intros (cols' & E) c Hc. destruct (omapM_each _ _ _ E Hc) as (y & Ey). unfold read_elem_column in Ey. apply obind_ok in Ey. destruct Ey as (v & Ev & _). apply (has_host T). rewrite Ht in Ev. eauto.
  Qed.
End Block.
Lemma copy_runs_ok words d m o : sinv words d m -> held_pair (kd_tables d) o -> exists d1, copy_views o d = Ok d1.
Proof.
  intros I Ho. destruct o as [[a b]|]; [|eexists; reflexivity]. destruct Ho as (i & L). pose proof (rd_inv (si_ready I)) as T.
  destruct (g_pair (ti_good T) _ L) as ((x & X1 & X2) & _ & _ & Ex & _). unfold vid, extent in *. cbn [fst snd kf_view kf_kind] in *.
  unfold copy_views, deep_copy, vget. rewrite <- Ex, Nat.eqb_refl, X1. cbn [obind]. eauto.
Qed.
Lemma write_when words d m sched : sinv words d m -> valid_sched sched -> (exists r, write_exodus_output sched d m = Ok r) <->
  forall i id b vr vu, nth_error (kd_blocks d) i = Some (id, b) -> nth_error (kd_gref d) i = Some vr -> nth_error (kd_gdisp d) i = Some vu ->
    computable (kd_tables d) id (mb_num_elem (kb_mesh b)) (held (kd_heap d) vr) (held (kd_heap d) vu) words.
Proof.
  intros I Hs.
  destruct (@copy_runs_ok _ _ _ _ I (si_disp I)) as (d1 & E1). destruct (@copy_inv _ _ _ _ _ I (si_disp I) E1) as (h1 & Ed1 & S1 & C1 & G1).
  assert (I1 : sinv words d1 m) by (rewrite Ed1; now apply sinv_heap).
  destruct (@copy_runs_ok _ _ _ _ I1 (si_vel I1)) as (d2 & E2). destruct (@copy_inv _ _ _ _ _ I1 (si_vel I1) E2) as (h2 & Ed2 & S2 & C2 & G2).
  assert (I2 : sinv words d2 m) by (rewrite Ed2; now apply sinv_heap).
  assert (Ed : d2 = with_heap d h2) by (rewrite Ed2, Ed1; reflexivity). rewrite Ed1 in G2. cbn [kd_heap kd_tables with_heap] in G2.
  assert (G : forall g, apart_from (kd_tables d) g -> nth_error h2 g = nth_error (kd_heap d) g) by (intros g Hg; rewrite G2, G1; auto).
  clear C1 C2 G1 G2 Ed1 Ed2 S1 S2. pose proof (rd_inv (si_ready I2)) as T.
  assert (Ht : kd_tables d2 = kd_tables d) by (rewrite Ed; reflexivity). assert (Hb : kd_blocks d2 = kd_blocks d) by (rewrite Ed; reflexivity).
  assert (Hh : kd_heap d2 = h2) by (rewrite Ed; reflexivity).
  assert (HN : forall id b, In (id, b) (kd_blocks d2) -> count d2 id = Some (mb_num_elem (kb_mesh b))).
  { intros id b Hi. unfold count. now rewrite (@nassoc_in _ _ _ _ (si_nodup I2) Hi). }
  assert (HG : forall i id b, nth_error (kd_blocks d2) i = Some (id, b) -> exists vr vu, nth_error (kd_gref d2) i = Some vr /\ nth_error (kd_gdisp d2) i = Some vu /\
      nth_error (kd_heap d2) (v_id vr) = Some (gat d2 (kd_gref d2) id) /\ nth_error (kd_heap d2) (v_id vu) = Some (gat d2 (kd_gdisp d2) id) /\
      length (gat d2 (kd_gref d2) id) = mb_num_elem (kb_mesh b) * 24 /\ length (gat d2 (kd_gdisp d2) id) = mb_num_elem (kb_mesh b) * 24 /\
      outside (kd_tables d2) (v_id vr) /\ outside (kd_tables d2) (v_id vu)).
  { intros i id b Hi. destruct (si_gather I2 i Hi) as (vr & vu & xr & xu & R1 & R2 & R3 & R4 & R5 & R6 & R7 & R8). exists vr, vu.
    rewrite (@gat_ok _ _ _ _ _ _ (si_nodup I2) Hi R1), (@gat_ok _ _ _ _ _ _ (si_nodup I2) Hi R2). unfold held. rewrite (nth_error_nth _ _ _ R3), (nth_error_nth _ _ _ R4).
    refine (conj R1 (conj R2 (conj R3 (conj R4 (conj R5 (conj R6 (conj _ _))))))); intros b' id' p Hp; [exact (R7 _ _ Hp)|exact (R8 _ _ Hp)]. }
  assert (HR : forall id b, In (id, b) (kd_blocks d2) -> block_done (count d2) words (kd_tables d2) m id).
  { intros id b Hi. apply (rd_blocks (si_ready I2)). change id with (fst (id, b)). now apply in_map. }
  pose proof (rd_vol (si_ready I2)) as HV.
  assert (CW : (forall i id b vr vu, nth_error (kd_blocks d) i = Some (id, b) -> nth_error (kd_gref d) i = Some vr -> nth_error (kd_gdisp d) i = Some vu ->
      computable (kd_tables d) id (mb_num_elem (kb_mesh b)) (held (kd_heap d) vr) (held (kd_heap d) vu) words) <->
    forall id b, In (id, b) (kd_blocks d2) -> computable (kd_tables d2) id (mb_num_elem (kb_mesh b)) (gat d2 (kd_gref d2) id) (gat d2 (kd_gdisp d2) id) words).
  { assert (Q : forall i id b vr vu, nth_error (kd_blocks d) i = Some (id, b) -> nth_error (kd_gref d) i = Some vr -> nth_error (kd_gdisp d) i = Some vu -> gat d2 (kd_gref d2) id = held (kd_heap d) vr /\ gat d2 (kd_gdisp d2) id = held (kd_heap d) vu).
    { intros i id b vr vu Hi Hr Hu.
      assert (Hr2 : nth_error (kd_gref d2) i = Some vr) by (rewrite Ed; exact Hr). assert (Hu2 : nth_error (kd_gdisp d2) i = Some vu) by (rewrite Ed; exact Hu).
      destruct (si_gather I i Hi) as (vr' & vu' & xr & xu & R1 & R2 & _ & _ & _ & _ & R7 & R8). assert (vr' = vr) as -> by congruence. assert (vu' = vu) as -> by congruence.
      rewrite <- Hb in Hi. rewrite (@gat_ok _ _ _ _ _ _ (si_nodup I2) Hi Hr2), (@gat_ok _ _ _ _ _ _ (si_nodup I2) Hi Hu2). rewrite Hh. split; apply held_eq, G; assumption. }
    rewrite Ht, Hb. split.
    - intros H id b Hin. apply In_nth_error in Hin. destruct Hin as (i & Hi). destruct (si_gather I i Hi) as (vr & vu & xr & xu & R1 & R2 & _). destruct (Q _ _ _ _ _ Hi R1 R2) as [-> ->]. eapply H; eauto.
    - intros H i id b vr vu Hi Hr Hu. destruct (Q _ _ _ _ _ Hi Hr Hu) as [Q1 Q2]. rewrite <- Q1, <- Q2. apply H. eapply nth_error_In; eauto. }
  rewrite CW. clear CW.
  assert (BW : forall id b, In (id, b) (kd_blocks d2) -> exists cols, assoc Nat.eqb id (om_elem m) = Some cols /\
    ((needs (kd_tables d2) (gat d2 (kd_gref d2)) (gat d2 (kd_gdisp d2)) m words id (mb_num_elem (kb_mesh b)) /\ reads (kd_tables d2) id cols) <->
     computable (kd_tables d2) id (mb_num_elem (kb_mesh b)) (gat d2 (kd_gref d2) id) (gat d2 (kd_gdisp d2) id) words) /\
    forall d', kd_tables d' = kd_tables d2 -> shaped (kd_heap d2) (kd_heap d') -> reads (kd_tables d2) id cols <-> exists cols', omapM (read_elem_column d' id) cols = Ok cols').
  { intros id b Hin. destruct (HR id b Hin _ (HN id b Hin)) as (_ & (cols & Ec & _) & _). exists cols. split; [exact Ec|].
    assert (Hvw : In (lit "volume") words <-> om_volume m = true).
    { split; [|exact (rd_asked (si_ready I2))]. intros Hw. apply (rd_volume (si_ready I2) Hw). intros Hnil. apply map_eq_nil in Hnil. rewrite Hnil in Hin. destruct Hin. }
    split.
    - exact (@needs_when (kd_same d2) (count d2) (kd_tables d2) (kd_heap d2) (gat d2 (kd_gref d2)) (gat d2 (kd_gdisp d2)) T words m id _ (HN id b Hin) (HR id b Hin) HV Hvw cols Ec).
    - intros d' Ht' Sh. exact (@reads_run (kd_same d2) (count d2) (kd_tables d2) (kd_heap d2) (fun _ => []) (fun _ => []) T words m id _ (HN id b Hin) (HR id b Hin) Hvw cols Ec d' Ht' Sh). }
  pose proof (@compute_when (kd_same d2) (count d2) (kd_tables d2) (kd_heap d2) (gat d2 (kd_gref d2)) (gat d2 (kd_gdisp d2)) T sched m d2 words Hs eq_refl HN HG HR HV eq_refl) as CW.
  assert (WE : (exists r, write_exodus_output sched d m = Ok r) <-> exists d3, compute_element_data sched m d2 = Ok d3 /\
      (exists nc, omapM (read_node_column d3) (om_node m) = Ok nc) /\ exists ec, ofold (read_elem_block d3) (block_ids (kd_tables d3)) (om_elem m) = Ok ec).
  { unfold write_exodus_output, update_with_new_displacement. rewrite E1. cbn [obind]. unfold update_with_new_velocity. rewrite E2. cbn [obind]. split.
    - intros (r & E). apply obind_ok in E. destruct E as (d3 & E3 & E). apply obind_ok in E. destruct E as (nc & E4 & E). apply obind_ok in E. destruct E as (ec & E5 & _). exists d3. eauto 10.
    - intros (d3 & E3 & (nc & E4) & (ec & E5)). rewrite E3. cbn [obind]. rewrite E4. cbn [obind]. rewrite E5. cbn [obind]. eauto. }
  rewrite WE. clear WE.
  assert (D3 : forall d3, compute_element_data sched m d2 = Ok d3 -> kd_tables d3 = kd_tables d2 /\ shaped (kd_heap d2) (kd_heap d3) /\ block_ids (kd_tables d3) = map fst (kd_blocks d2)).
  { intros d3 E3. destruct (@compute_ok (kd_same d2) (count d2) (kd_tables d2) (kd_heap d2) (gat d2 (kd_gref d2)) (gat d2 (kd_gdisp d2)) T sched m d2 words Hs eq_refl HN HG HR HV d3 eq_refl E3)
      as (done & Ed3 & S & _). assert (Ht3 : kd_tables d3 = kd_tables d2) by (rewrite Ed3; reflexivity). split; [exact Ht3|]. split; [exact (st_shape S)|]. rewrite Ht3. exact (si_ids I2). }
  split.
  - intros (d3 & E3 & _ & (ec & E5)) id b Hin. destruct (D3 d3 E3) as (Ht3 & Sh & Ebl). rewrite Ebl in E5. destruct (@blocks_read _ _ _ _ (si_nodup I2) E5) as (B1 & _).
    destruct (BW id b Hin) as (cols & Ec & Q1 & Q2). apply Q1. split; [exact (proj1 CW (ex_intro _ d3 E3) id b Hin)|]. apply (Q2 d3 Ht3 Sh).
    destruct (B1 id) as (cols2 & cols' & J1 & J2 & _); [change id with (fst (id, b)); now apply in_map|]. assert (cols2 = cols) as -> by congruence. eauto.
  - intros C. destruct (proj2 CW) as (d3 & E3).
    { intros id b Hin. destruct (BW id b Hin) as (cols & Ec & Q1 & _). exact (proj1 (proj2 Q1 (C id b Hin))). }
    exists d3. split; auto. destruct (D3 d3 E3) as (Ht3 & Sh & Ebl). split.
    + exact (@node_runs (kd_same d2) (count d2) (kd_tables d2) (kd_heap d2) T words d3 (om_node m) Ht3 Sh (rd_nodes (si_ready I2))).
    + rewrite Ebl. apply blocks_run; [exact (si_nodup I2)|]. intros id Hi. destruct (nassoc_some _ _ Hi) as (b & _ & Hin). destruct (BW id b Hin) as (cols & Ec & Q1 & Q2). exists cols.
      destruct (proj1 (Q2 d3 Ht3 Sh) (proj2 (proj2 Q1 (C id b Hin)))) as (cols' & Em). eauto.
Qed.
