(** Output manager: the columns of a block. *)
From Coq Require Import Reals Lra.
From Verif Require Import Base Strings ListLemmas DataModel DataProofs Loops InputModel InputProofs3 ElemDataModel ElemDataProofs4 KokkosModel KokkosSpec3 KokkosProofs KokkosProofs7 KokkosProofs8 KokkosProofs9 KokkosProofs19
  KokkosOutModel KokkosOutProofs1 KokkosOutProofs2.
Set Implicit Arguments.
Local Open Scope nat_scope.
Local Open Scope list_scope.
Local Notation length := List.length.

(** a column without its values *)
Definition skel : Type := (chars * nat * nat * kind * Z * nat * nat)%type.
Definition sk (c : ecol) : skel := (ec_label c, ec_ipt_id c, ec_id c, ec_kind c, ec_point c, ec_comp c, length (ec_data c)).
Definition idof (tb : tables) (w : chars) : nat := match assoc chars_eqb w (tb_labels tb) with Some i => i | None => 0 end.
Definition ptz (p : option Z) : Z := match p with Some p => p | None => (-1)%Z end.
Definition tsk (tb : tables) (kp ke : kind) (suffixes : list (chars * nat)) (b n : nat) (w : chars) : list skel :=
  match parse_request w with
  | Ok (f, pt) => match pf tb kp b f with
                  | Some fid => map (fun x => (w ++ fst x, fid, idof tb w, ke, ptz pt, snd x, n)) suffixes
                  | None => []
                  end
  | _ => []
  end.
Definition avg (tb : tables) (kp : kind) (b : nat) (w : chars) : list nat :=
  match parse_request w with
  | Ok (f, None) => match pf tb kp b f with Some fid => [fid] | None => [] end
  | _ => []
  end.
Definition vsk (tb : tables) (n : nat) (w : chars) : list skel :=
  if chars_eqb w (lit "volume") then [(w, idof tb w, idof tb w, KScalarElem, (-1)%Z, 0, n)] else [].

(** what is appended to the lists of block b *)
Record ext (b : nat) (m m' : omgr) (cs : list skel) (sy fu : list nat) : Prop := {
  e_node : om_node m' = om_node m;
  e_elem : forall c, assoc Nat.eqb b (om_elem m) = Some c -> exists c', assoc Nat.eqb b (om_elem m') = Some (c ++ c') /\ map sk c' = cs;
  e_elem_other : forall b', b' <> b -> assoc Nat.eqb b' (om_elem m') = assoc Nat.eqb b' (om_elem m);
  e_sym : forall a, assoc Nat.eqb b (om_sym m) = Some a -> assoc Nat.eqb b (om_sym m') = Some (a ++ sy);
  e_sym_other : forall b', b' <> b -> assoc Nat.eqb b' (om_sym m') = assoc Nat.eqb b' (om_sym m);
  e_full : forall a, assoc Nat.eqb b (om_full m) = Some a -> assoc Nat.eqb b (om_full m') = Some (a ++ fu);
  e_full_other : forall b', b' <> b -> assoc Nat.eqb b' (om_full m') = assoc Nat.eqb b' (om_full m);
  e_keys : In b (map fst (om_elem m)) -> forall x, In x (map fst (om_elem m')) <-> In x (map fst (om_elem m))
}.
Lemma ext_refl b m : ext b m m [] [] [].
Proof. constructor; auto; try tauto. - intros c H. exists []. rewrite app_nil_r. auto. - intros a. rewrite app_nil_r. auto. - intros a. rewrite app_nil_r. auto. Qed.
Lemma ext_trans b m1 m2 m3 cs sy fu cs' sy' fu' : ext b m1 m2 cs sy fu -> ext b m2 m3 cs' sy' fu' -> ext b m1 m3 (cs ++ cs') (sy ++ sy') (fu ++ fu').
Proof.
  intros [A1 A2 A3 A4 A5 A6 A7 A8] [B1 B2 B3 B4 B5 B6 B7 B8]. constructor; try congruence.
  - intros c H. destruct (A2 c H) as (c1 & H1 & H2). destruct (B2 _ H1) as (c2 & H3 & H4). exists (c1 ++ c2). rewrite app_assoc, map_app, H2, H4. auto.
  - intros b' H. rewrite B3, A3; auto.
  - intros a H. rewrite (B4 _ (A4 _ H)). now rewrite app_assoc.
  - intros b' H. rewrite B5, A5; auto.
  - intros a H. rewrite (B6 _ (A6 _ H)). now rewrite app_assoc.
  - intros b' H. rewrite B7, A7; auto.
  - intros H x. rewrite B8; [now apply A8|]. now apply A8.
Qed.
Lemma push_same {A} k (xs : list A) m l : assoc Nat.eqb k m = Some l -> assoc Nat.eqb k (push_all k xs m) = Some (l ++ xs).
Proof. intros H. unfold push_all. rewrite assoc_put, Nat.eqb_refl, H. reflexivity. Qed.
Lemma push_other {A} k (xs : list A) m k' : k' <> k -> assoc Nat.eqb k' (push_all k xs m) = assoc Nat.eqb k' m.
Proof. intros H. unfold push_all. rewrite assoc_put. now destruct (Nat.eqb_spec k' k). Qed.
Lemma push_keys {A} k (xs : list A) m : In k (map fst m) -> forall x, In x (map fst (push_all k xs m)) <-> In x (map fst m).
Proof. intros H x. unfold push_all. rewrite put_keys. split; [intros [->|H']; auto|auto]. Qed.

Section Block.
  Variables (same : bool) (N : nat -> option nat) (b n : nat).
  Hypothesis HN : N b = Some n.
  Section Tensor.
    Variables (kp ke : kind) (len : length_t) (suffixes : list (chars * nat)).
    Hypothesis Hke : elem_kind len = Some ke.
    Definition sy_of (l : list nat) : list nat := match ke with KSymElem => l | _ => [] end.
    Definition fu_of (l : list nat) : list nat := match ke with KSymElem => [] | _ => l end.
    Lemma parse_none w f : parse_request w = Ok (f, None) -> f = w.
    Proof. unfold parse_request. destruct (chars_eqb _ _); [|now intros [= <-]]. unfold substr_from.
      destruct (6 <=? length w); [|discriminate]. cbn [obind]. destruct (4 <=? length w); [|discriminate]. cbn [obind]. destruct (atoi _); discriminate. Qed.
    Lemma specify_field_ok w f pt s m s' m' : tinv same N s -> parse_request w = Ok (f, pt) ->
      specify_field same kp ke len suffixes b w f pt (s, m) = Ok (s', m') ->
      grow same N s s' /\ assoc chars_eqb w (tb_labels (fst s')) <> None /\ pf (fst s) kp b f <> None /\
      ext b m m' (tsk (fst s') kp ke suffixes b n w) (sy_of (avg (fst s') kp b w)) (fu_of (avg (fst s') kp b w)) /\
      om_volume m' = om_volume m /\ om_volume_id m' = om_volume_id m.
    Proof.
      destruct s as [tb h]. intros T Hp E. unfold specify_field in E. apply obind_ok in E. destruct E as (fid & E1 & E). apply obind_ok in E. destruct E as (v & E2 & E).
      cbv zeta in E. apply obind_ok in E. destruct E as (a & E3 & E).
      unfold get_field_id in E1. destruct (assoc chars_eqb f (tb_labels tb)) as [fid'|] eqn:Ef; [|discriminate]. injection E1 as ->.
      assert (Hpf : pf tb kp b f = Some fid) by (unfold pf; now rewrite Ef, E2).
      assert (Hv : v_extent v = n).
      { destruct (@dev_ipt_look same N (tb, h) T kp b fid v E2) as [vh L]. destruct (g_pair (ti_good T) _ L) as (_ & _ & _ & X & _). unfold extent in X. cbn [fst snd kf_view] in X. rewrite <- X.
        exact (@ti_ipt _ _ _ T b fid STEP_NP1 _ n L HN). }
      rewrite Hv in *.
      assert (G : grow same N (tb, h) (fst a) /\ assoc chars_eqb w (tb_labels (fst (fst a))) = Some (snd a)).
      { destruct pt as [p|].
        - destruct a as [sa ida]. cbn [fst snd]. now apply (@element_grow same N (tb, h) b len w n sa ida ke).
        - apply parse_none in Hp. subst f. injection E3 as <-. cbn [fst snd]. split; [now apply grow_refl|exact Ef]. }
      destruct G as [G Ga]. assert (Es : s' = fst a) by congruence. rewrite Es in *. split; [exact G|]. split; [congruence|]. split; [cbn [fst]; congruence|].
      assert (Ht : tsk (fst (fst a)) kp ke suffixes b n w = map (fun x => (w ++ fst x, fid, snd a, ke, ptz pt, snd x, n)) suffixes).
      { unfold tsk, idof. rewrite Hp, (pf_grow _ _ _ T G), Ga. cbn [fst]. now rewrite Hpf. }
      assert (Hav : avg (fst (fst a)) kp b w = match pt with Some _ => [] | None => [fid] end).
      { unfold avg. rewrite Hp. destruct pt; auto. rewrite (pf_grow _ _ _ T G). cbn [fst]. now rewrite Hpf. }
      rewrite Ht, Hav. set (cols := map (fun x => ECol (w ++ fst x) fid (snd a) ke (match pt with Some p => p | None => (-1)%Z end) (snd x) (repeat 0%R n)) suffixes) in E.
      assert (Hc : map sk cols = map (fun x => (w ++ fst x, fid, snd a, ke, ptz pt, snd x, n)) suffixes).
      { unfold cols. rewrite map_map. apply map_ext. intros x. unfold sk. cbn [ec_label ec_ipt_id ec_id ec_kind ec_point ec_comp ec_data]. now rewrite repeat_length. }
      set (m0 := match pt with Some _ => m | None => _ end) in E.
      assert (Em : m' = OM (om_volume m0) (om_volume_id m0) (om_node m0) (push_all b cols (om_elem m0)) (om_sym m0) (om_full m0)) by congruence. subst m'. clear E.
      assert (M0 : om_volume m0 = om_volume m /\ om_volume_id m0 = om_volume_id m /\ om_node m0 = om_node m /\ om_elem m0 = om_elem m).
      { unfold m0. destruct pt; auto. destruct ke; auto. }
      destruct M0 as (M1 & M2 & M3 & M4). cbn [om_volume om_volume_id]. rewrite M1, M2. split; [|auto]. constructor; cbn [om_node om_elem om_sym om_full]; rewrite ?M3, ?M4; auto.
      - intros c Hcc. exists cols. split; [now apply push_same|exact Hc].
      - intros b' Hb. now apply push_other.
      - intros l Hl. unfold sy_of, m0. destruct pt; [destruct ke; now rewrite app_nil_r|]. destruct ke; cbn [om_sym]; try (now rewrite app_nil_r). now apply push_same.
      - intros b' Hb. unfold m0. destruct pt; auto. destruct ke; cbn [om_sym]; auto. now apply push_other.
      - intros l Hl. unfold fu_of, m0. destruct pt; [destruct ke; now rewrite app_nil_r|]. destruct ke; cbn [om_full]; try (now apply push_same). now rewrite app_nil_r.
      - intros b' Hb. unfold m0. destruct pt; auto. destruct ke; cbn [om_full]; auto; now apply push_other.
      - intros Hk. now apply push_keys.
    Qed.
    Lemma tsk_grow s s' w : tinv same N s -> grow same N s s' -> (tsk (fst s) kp ke suffixes b n w <> [] -> assoc chars_eqb w (tb_labels (fst s)) <> None) ->
      tsk (fst s') kp ke suffixes b n w = tsk (fst s) kp ke suffixes b n w.
    Proof.
      intros T G H. unfold tsk, idof in *. destruct (parse_request w) as [[f pt]| | |]; auto. rewrite (pf_grow _ _ _ T G). destruct (pf (fst s) kp b f) as [fid|]; auto.
      destruct suffixes as [|x l]; auto. destruct (assoc chars_eqb w (tb_labels (fst s))) as [i|] eqn:Ei; [now rewrite (gr_labels G _ Ei)|]. exfalso. now apply H.
    Qed.
    Lemma avg_grow s s' w : tinv same N s -> grow same N s s' -> avg (fst s') kp b w = avg (fst s) kp b w.
    Proof. intros T G. unfold avg. destruct (parse_request w) as [[f [p|]]| | |]; auto. now rewrite (pf_grow _ _ _ T G). Qed.
    (** the words one after the other *)
    Variable step : (tables * heap) * omgr -> chars -> outcome ((tables * heap) * omgr).
    Variable labels : list chars.
    Variable s0 : tables * heap.
    Hypothesis T0 : tinv same N s0.
    Hypothesis Hlab : NoDup labels /\ forall x, In x labels <-> pf (fst s0) kp b x <> None.
    Hypothesis Hstep : forall s m w s' m', step (s, m) w = Ok (s', m') -> (labels = [] /\ s' = s /\ m' = m) \/
      exists f pt, parse_request w = Ok (f, pt) /\ (if mem f labels then specify_field same kp ke len suffixes b w f pt (s, m) else Ok (s, m)) = Ok (s', m').
    Lemma words_ok words : forall s m s' m', grow same N s0 s -> ofold step words (s, m) = Ok (s', m') ->
      grow same N s s' /\ (forall w, In w words -> tsk (fst s') kp ke suffixes b n w <> [] -> assoc chars_eqb w (tb_labels (fst s')) <> None) /\
      ext b m m' (flat_map (tsk (fst s') kp ke suffixes b n) words) (sy_of (flat_map (avg (fst s') kp b) words)) (fu_of (flat_map (avg (fst s') kp b) words)) /\
      om_volume m' = om_volume m /\ om_volume_id m' = om_volume_id m.
    Proof.
      induction words as [|w words IH]; intros s m s' m' G E.
      - cbn [ofold] in E. assert (s' = s /\ m' = m) as [-> ->] by (split; congruence). split; [apply grow_refl, (gr_inv G)|]. split; [intros w []|].
        split; [|auto]. cbn [flat_map]. unfold sy_of, fu_of. destruct ke; apply ext_refl.
      - cbn [ofold] in E. apply obind_ok in E. destruct E as ([s1 m1] & E1 & E). pose proof (gr_inv G) as T.
        assert (X : grow same N s s1 /\ (tsk (fst s1) kp ke suffixes b n w <> [] -> assoc chars_eqb w (tb_labels (fst s1)) <> None) /\
          ext b m m1 (tsk (fst s1) kp ke suffixes b n w) (sy_of (avg (fst s1) kp b w)) (fu_of (avg (fst s1) kp b w)) /\
          om_volume m1 = om_volume m /\ om_volume_id m1 = om_volume_id m).
        { assert (None_case : s1 = s -> m1 = m -> (forall f pt, parse_request w = Ok (f, pt) -> pf (fst s0) kp b f = None) ->
            grow same N s s1 /\ (tsk (fst s1) kp ke suffixes b n w <> [] -> assoc chars_eqb w (tb_labels (fst s1)) <> None) /\
            ext b m m1 (tsk (fst s1) kp ke suffixes b n w) (sy_of (avg (fst s1) kp b w)) (fu_of (avg (fst s1) kp b w)) /\
            om_volume m1 = om_volume m /\ om_volume_id m1 = om_volume_id m).
          { intros -> -> Hf. split; [now apply grow_refl|].
            assert (Z1 : tsk (fst s) kp ke suffixes b n w = []).
            { unfold tsk. destruct (parse_request w) as [[f pt]| | |] eqn:Ep; auto. rewrite (pf_grow _ _ _ T0 G), (Hf f pt); auto. }
            assert (Z2 : avg (fst s) kp b w = []).
            { unfold avg. destruct (parse_request w) as [[f [p|]]| | |] eqn:Ep; auto. rewrite (pf_grow _ _ _ T0 G), (Hf f None); auto. }
            rewrite Z1, Z2. split; [congruence|]. split; [|auto]. unfold sy_of, fu_of. destruct ke; apply ext_refl. }
          destruct (Hstep E1) as [(H1 & -> & ->)|(f & pt & Ep & H2)].
          - apply None_case; auto. intros f pt _. destruct (pf (fst s0) kp b f) eqn:Epf; auto. exfalso. assert (In f labels) by (apply Hlab; congruence). rewrite H1 in H. destruct H.
          - destruct (mem f labels) eqn:Em.
            + destruct (@specify_field_ok w f pt s m s1 m1 T Ep H2) as (F1 & F2 & F3 & F4 & F5). auto.
            + apply None_case; try congruence. intros f' pt' E'. assert (f' = f) as -> by congruence. destruct (pf (fst s0) kp b f) eqn:Epf; auto. exfalso.
              assert (In f labels) by (apply Hlab; congruence). apply mem_spec in H. congruence. }
        destruct X as (X1 & X2 & X3 & X4 & X5). destruct (IH s1 m1 s' m' (grow_trans G X1) E) as (Y1 & Y2 & Y3 & Y4 & Y5).
        pose proof (@tsk_grow s1 s' w (gr_inv X1) Y1 X2) as Z1. pose proof (@avg_grow s1 s' w (gr_inv X1) Y1) as Z2.
        split; [eapply grow_trans; eauto|]. split; [|split; [|split; congruence]].
        + intros w' [<-|Hw]; [|now apply Y2]. rewrite Z1. intros H. apply X2 in H. destruct (assoc chars_eqb w (tb_labels (fst s1))) as [i|] eqn:Ei; [|congruence]. rewrite (gr_labels Y1 _ Ei). discriminate.
        + cbn [flat_map]. rewrite Z1, Z2. pose proof (ext_trans X3 Y3) as X. unfold sy_of, fu_of in *. destruct ke; exact X.
    Qed.
  End Tensor.
  Lemma sym_step labels s m w s' m' : NoDup labels -> specify_sym same b labels (s, m) w = Ok (s', m') -> (labels = [] /\ s' = s /\ m' = m) \/
    exists f pt, parse_request w = Ok (f, pt) /\ (if mem f labels then specify_field same KSymIntPt KSymElem SYMMETRIC_TENSOR sym_suffixes b w f pt (s, m) else Ok (s, m)) = Ok (s', m').
  Proof.
    intros Hn E. unfold specify_sym in E. destruct labels as [|x labels].
    - left. cbn [ofold] in E. repeat split; congruence.
    - right. destruct (parse_request w) as [[f pt]| | |] eqn:Ep; try discriminate. exists f, pt. split; auto. rewrite <- E. symmetry.
      exact (@fold_one _ (fun label s => specify_field same KSymIntPt KSymElem SYMMETRIC_TENSOR sym_suffixes b w label pt s) f (x :: labels) Hn (s, m)).
  Qed.
  Lemma full_step labels s m w s' m' : NoDup labels -> specify_full same b labels (s, m) w = Ok (s', m') ->
    exists f pt, parse_request w = Ok (f, pt) /\ (if mem f labels then specify_field same KFullIntPt KFullElem FULL_TENSOR full_suffixes b w f pt (s, m) else Ok (s, m)) = Ok (s', m').
  Proof.
    intros Hn E. unfold specify_full in E. apply obind_ok in E. destruct E as ([f pt] & Ep & E). exists f, pt. split; auto. rewrite <- E. symmetry.
    exact (@fold_one _ (fun label s => specify_field same KFullIntPt KFullElem FULL_TENSOR full_suffixes b w label pt s) f labels Hn (s, m)).
  Qed.
  (** volumes *)
  Lemma volume_ok words : forall s m s' m', tinv same N s -> ofold (specify_volume b) words (s, m) = Ok (s', m') ->
    s' = s /\ (In (lit "volume") words -> assoc chars_eqb (lit "volume") (tb_labels (fst s)) <> None) /\ ext b m m' (flat_map (vsk (fst s) n) words) [] [] /\
    (om_volume m' = om_volume m /\ om_volume_id m' = om_volume_id m /\ ~ In (lit "volume") words \/
     om_volume m' = true /\ om_volume_id m' = idof (fst s) (lit "volume") /\ assoc chars_eqb (lit "volume") (tb_labels (fst s)) <> None /\ In (lit "volume") words).
  Proof.
    induction words as [|w words IH]; intros s m s' m' T E.
    - cbn [ofold] in E. assert (s' = s /\ m' = m) as [-> ->] by (split; congruence). split; auto. split; [intros []|]. split; [apply ext_refl|]. left. auto.
    - cbn [ofold] in E. apply obind_ok in E. destruct E as ([s1 m1] & E1 & E). destruct s as [tb h]. cbn [specify_volume] in E1. cbn [flat_map fst].
      destruct (chars_eqb w (lit "volume")) eqn:Ew.
      + apply obind_ok in E1. destruct E1 as (id & Ei & E1). apply obind_ok in E1. destruct E1 as (v & Ev & E1).
        apply chars_eqb_eq in Ew. unfold get_field_id in Ei. destruct (assoc chars_eqb w (tb_labels tb)) as [id'|] eqn:Ea; [|discriminate]. injection Ei as ->.
        assert (Hv : v_extent v = n).
        { destruct (@dev_elem_look same N (tb, h) T _ _ _ _ Ev) as [vh L]. destruct (g_pair (ti_good T) _ L) as (_ & _ & _ & X & _). unfold extent in X. cbn [fst snd kf_view] in X. rewrite <- X.
          exact (@ti_elem _ _ _ T b id _ n L HN). }
        rewrite Hv in E1. assert (Es : s1 = (tb, h)) by congruence. subst s1.
        match type of E1 with Ok (_, _, ?mm) = _ => assert (Em : m1 = mm) by congruence end. clear E1.
        destruct (IH (tb, h) m1 s' m' T E) as (I1 & I2 & I3 & I4). split; auto. cbn [fst] in *. assert (Hid : idof tb w = id) by (unfold idof; now rewrite Ea).
        split; [intros _; rewrite <- Ew; congruence|]. split.
        * assert (X : ext b m m1 (vsk tb n w) [] []).
          { subst m1. unfold vsk. rewrite (proj2 (chars_eqb_eq w (lit "volume")) Ew), Hid. constructor; cbn [om_node om_elem om_sym om_full]; auto.
            - intros c Hc. eexists. split; [now apply push_same|]. cbn [map]. unfold sk. cbn [ec_label ec_ipt_id ec_id ec_kind ec_point ec_comp ec_data]. now rewrite repeat_length.
            - intros. now apply push_other.
            - intros a. now rewrite app_nil_r.
            - intros a. now rewrite app_nil_r.
            - intros. now apply push_keys. }
          exact (ext_trans X I3).
        * right. destruct I4 as [(A & B & _)|(A & B & C & _)]; [|split; [exact A|split; [exact B|split; [exact C|now left]]]]. rewrite A, B. subst m1. cbn [om_volume om_volume_id]. split; auto. rewrite <- Ew. split; [auto|split; [congruence|now left]].
      + assert (Es : s1 = (tb, h)) by congruence. assert (Em : m1 = m) by congruence. subst s1 m1. destruct (IH (tb, h) m s' m' T E) as (I1 & I2 & I3 & I4). cbn [fst] in *.
        assert (Hne : w <> lit "volume") by (intros Hw; apply chars_eqb_eq in Hw; congruence).
        split; auto. split; [intros [Hw|Hw]; [contradiction|auto]|]. split; [unfold vsk at 1; rewrite Ew; exact I3|].
        destruct I4 as [(A & B & C)|(A & B & C & C')]; [left|right; split; [exact A|split; [exact B|split; [exact C|now right]]]]. split; [exact A|split; [exact B|]]. intros [Hw|Hw]; contradiction.
  Qed.
  Lemma vsk_grow s s' w : grow same N s s' -> (w = lit "volume" -> assoc chars_eqb w (tb_labels (fst s)) <> None) -> vsk (fst s') n w = vsk (fst s) n w.
  Proof.
    intros G H. unfold vsk, idof. destruct (chars_eqb w (lit "volume")) eqn:E; auto. apply chars_eqb_eq in E. specialize (H E).
    destruct (assoc chars_eqb w (tb_labels (fst s))) as [i|] eqn:Ei; [|congruence]. now rewrite (gr_labels G _ Ei).
  Qed.
  (** all columns of the block *)
  Definition bsk (tb : tables) (words : list chars) : list skel :=
    flat_map (vsk tb n) words ++ flat_map (tsk tb KSymIntPt KSymElem sym_suffixes b n) words ++ flat_map (tsk tb KFullIntPt KFullElem full_suffixes b n) words.
  Definition fixed (tb : tables) (words : list chars) : Prop := forall w, In w words ->
    (w = lit "volume" -> assoc chars_eqb w (tb_labels tb) <> None) /\
    (tsk tb KSymIntPt KSymElem sym_suffixes b n w <> [] -> assoc chars_eqb w (tb_labels tb) <> None) /\
    (tsk tb KFullIntPt KFullElem full_suffixes b n w <> [] -> assoc chars_eqb w (tb_labels tb) <> None) /\ exists r, parse_request w = Ok r.
  Lemma flat_map_in {A B} (f g : A -> list B) l : (forall x, In x l -> f x = g x) -> flat_map f l = flat_map g l.
  Proof. induction l as [|x l IH]; intros H; simpl; auto. rewrite H by now left. rewrite IH; auto. intros; apply H; now right. Qed.
  Lemma bsk_grow s s' words : tinv same N s -> grow same N s s' -> fixed (fst s) words ->
    bsk (fst s') words = bsk (fst s) words /\ fixed (fst s') words /\ (forall kp, flat_map (avg (fst s') kp b) words = flat_map (avg (fst s) kp b) words).
  Proof.
    intros T G F.
    assert (L : forall w, assoc chars_eqb w (tb_labels (fst s)) <> None -> assoc chars_eqb w (tb_labels (fst s')) <> None).
    { intros w H. destruct (assoc chars_eqb w (tb_labels (fst s))) as [i|] eqn:Ei; [|congruence]. rewrite (gr_labels G _ Ei). discriminate. }
    assert (P : forall w, In w words -> vsk (fst s') n w = vsk (fst s) n w /\ tsk (fst s') KSymIntPt KSymElem sym_suffixes b n w = tsk (fst s) KSymIntPt KSymElem sym_suffixes b n w /\
      tsk (fst s') KFullIntPt KFullElem full_suffixes b n w = tsk (fst s) KFullIntPt KFullElem full_suffixes b n w).
    { intros w Hw. destruct (F w Hw) as (F1 & F2 & F3 & F4). split; [now apply vsk_grow|]. split; apply tsk_grow; auto. }
    split; [|split].
    - unfold bsk. f_equal; [|f_equal]; apply flat_map_in; intros w Hw; now apply P.
    - intros w Hw. destruct (P w Hw) as (P1 & P2 & P3). destruct (F w Hw) as (F1 & F2 & F3 & F4). rewrite P2, P3. auto 10.
    - intros kp. apply flat_map_in. intros w Hw. now apply avg_grow.
  Qed.
  Lemma full_parses labels words : forall s m s' m', NoDup labels -> ofold (specify_full same b labels) words (s, m) = Ok (s', m') -> forall w, In w words -> exists r, parse_request w = Ok r.
  Proof.
    induction words as [|x words IH]; intros s m s' m' Hn E w Hw; [destruct Hw|]. cbn [ofold] in E. apply obind_ok in E. destruct E as ([s1 m1] & E1 & E).
    destruct Hw as [<-|Hw]; [|eapply IH; eauto]. destruct (full_step s m x Hn E1) as (f & pt & Ep & _). eauto.
  Qed.
  Lemma block_ok words s m s' m' : tinv same N s -> specify_block same words (s, m) b = Ok (s', m') ->
    grow same N s s' /\ fixed (fst s') words /\
    ext b m m' (bsk (fst s') words) (flat_map (avg (fst s') KSymIntPt b) words) (flat_map (avg (fst s') KFullIntPt b) words) /\
    (om_volume m' = om_volume m /\ om_volume_id m' = om_volume_id m /\ ~ In (lit "volume") words \/
     om_volume m' = true /\ om_volume_id m' = idof (fst s') (lit "volume") /\ assoc chars_eqb (lit "volume") (tb_labels (fst s')) <> None /\ In (lit "volume") words).
  Proof.
    intros T E. unfold specify_block in E. apply obind_ok in E. destruct E as ([s1 m1] & E1 & E). apply obind_ok in E. destruct E as (sym & E2 & E).
    apply obind_ok in E. destruct E as ([s2 m2] & E3 & E). apply obind_ok in E. destruct E as (full & E4 & E5). cbn [fst] in E2, E4.
    destruct (@volume_ok words s m s1 m1 T E1) as (V1 & V2 & V3 & V4). subst s1.
    pose proof (ipt_labels_ok _ _ T E2) as L2. pose proof (grow_refl T) as G0.
    destruct (@words_ok KSymIntPt KSymElem SYMMETRIC_TENSOR sym_suffixes eq_refl (specify_sym same b sym) sym s T L2 (fun s m w s' m' => @sym_step sym s m w s' m' (proj1 L2)) words s m1 s2 m2 G0 E3) as (S1 & S2 & S3 & S4 & S5).
    pose proof (gr_inv S1) as T2. pose proof (ipt_labels_ok _ _ T2 E4) as L4. pose proof (grow_refl T2) as G2.
    destruct (@words_ok KFullIntPt KFullElem FULL_TENSOR full_suffixes eq_refl (specify_full same b full) full s2 T2 L4 (fun s m w s' m' H => or_intror (@full_step full s m w s' m' (proj1 L4) H)) words s2 m2 s' m' G2 E5) as (F1 & F2 & F3 & F4 & F5).
    assert (L : forall s s' w, grow same N s s' -> assoc chars_eqb w (tb_labels (fst s)) <> None -> assoc chars_eqb w (tb_labels (fst s')) <> None).
    { intros sa sb w G H. destruct (assoc chars_eqb w (tb_labels (fst sa))) as [i|] eqn:Ei; [|congruence]. rewrite (gr_labels G _ Ei). discriminate. }
    pose proof (grow_trans S1 F1) as G.
    assert (Hv : forall w, In w words -> w = lit "volume" -> assoc chars_eqb w (tb_labels (fst s)) <> None) by (intros w Hw ->; now apply V2).
    assert (P1 : flat_map (vsk (fst s') n) words = flat_map (vsk (fst s) n) words) by (apply flat_map_in; intros w Hw; apply vsk_grow; auto).
    assert (P2 : flat_map (tsk (fst s') KSymIntPt KSymElem sym_suffixes b n) words = flat_map (tsk (fst s2) KSymIntPt KSymElem sym_suffixes b n) words) by (apply flat_map_in; intros w Hw; apply tsk_grow; auto).
    assert (P3 : flat_map (avg (fst s') KSymIntPt b) words = flat_map (avg (fst s2) KSymIntPt b) words) by (apply flat_map_in; intros w Hw; now apply avg_grow).
    split; [exact G|]. split; [|split].
    - intros w Hw. split; [intros Hw'; apply (L s); auto|]. split; [|split; [now apply F2|eapply full_parses; [exact (proj1 L4)|exact E5|exact Hw]]].
      assert (Q : tsk (fst s') KSymIntPt KSymElem sym_suffixes b n w = tsk (fst s2) KSymIntPt KSymElem sym_suffixes b n w) by (apply tsk_grow; auto).
      rewrite Q. intros H. apply (L s2); auto.
    - unfold bsk. rewrite P1, P2, P3. pose proof (ext_trans V3 (ext_trans S3 F3)) as X. unfold sy_of, fu_of in X. rewrite !app_nil_l, app_nil_r in X. exact X.
    - rewrite F4, F5, S4, S5. destruct V4 as [V4|(A & B & Hn & Hin)]; [left; exact V4|]. right. split; auto. rewrite B. split; [|split; [now apply (L s)|exact Hin]].
      unfold idof. destruct (assoc chars_eqb (lit "volume") (tb_labels (fst s))) as [i|] eqn:Ei; [|congruence]. now rewrite (gr_labels G _ Ei).
  Qed.
End Block.
