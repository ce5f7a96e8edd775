(** Output manager: invariants of the tables of fields. *)
From Coq Require Import Reals Lra.
From Verif Require Import Base Strings ListLemmas DataModel DataProofs Loops InputProofs3 ElemDataProofs4 KokkosModel KokkosSpec3 KokkosProofs KokkosProofs7 KokkosProofs8 KokkosProofs9 KokkosProofs19.
Set Implicit Arguments.
Local Open Scope nat_scope.
Local Open Scope list_scope.
Local Notation length := List.length.

Lemma obind_ok {A B} (x : outcome A) (f : A -> outcome B) r : obind x f = Ok r -> exists a, x = Ok a /\ f a = Ok r.
Proof. destruct x; try discriminate. eauto. Qed.
(** host and device lists are filled together *)
Definition ttwin (t : table) : Prop := t_hidx t = t_didx t /\ length (t_host t) = length (t_dev t).
Definition itwin (t : itable) : Prop := i_hidx t = i_didx t /\ length (i_hn t) = length (i_dn t).
Definition twin (tb : tables) : Prop := ttwin (tb_node tb) /\ Forall ttwin (tb_elem tb) /\ Forall itwin (tb_ipt tb).
(** [N b]: elements of block b *)
Record tinv (same : bool) (N : nat -> option nat) (s : tables * heap) : Prop := {
  ti_good : good same s;
  ti_nodup : NoDup (map fst (tb_labels (fst s)));
  ti_twin : twin (fst s);
  ti_elem : forall b id p n, look (fst s) (KElem b id) = Some p -> N b = Some n -> extent (fst p) = n;
  ti_ipt : forall b id st p n, look (fst s) (KIpt b id st) = Some p -> N b = Some n -> extent (fst p) = n;
  ti_owned : forall b id st p, look (fst s) (KIpt b id st) = Some p -> id < length (tb_labels (fst s));
  ti_nown : forall id p, look (fst s) (KNode id) = Some p -> id < length (tb_labels (fst s))
}.
Lemma set_keys {V} k (v : V) m : assoc chars_eqb k m = None -> map fst (assoc_set chars_eqb k v m) = map fst m ++ [k].
Proof. induction m as [|[a b] m IH]; simpl; auto. destruct (chars_eqb k a); [discriminate|]. intros H. simpl. now rewrite IH. Qed.
Lemma assoc_none {V} k (m : list (chars * V)) : assoc chars_eqb k m = None -> ~ In k (map fst m).
Proof.
  induction m as [|[a b] m IH]; simpl; auto. destruct (chars_eqb k a) eqn:E; [discriminate|]. intros H [<-|Hi]; [|now apply IH].
  now rewrite (proj2 (chars_eqb_eq a a) eq_refl) in E.
Qed.
Lemma label_keys l x l' id : label_id l x = (l', id) -> NoDup (map fst l) -> NoDup (map fst l') /\ length l <= length l' /\ (assoc chars_eqb x l = None -> id = length l).
Proof.
  unfold label_id. destruct (assoc chars_eqb x l) as [i|] eqn:E; intros [= <- <-] H; [repeat split; auto; discriminate|].
  rewrite (set_keys x (length l) l E), assoc_set_len by assumption. split; [|split; [lia|auto]]. apply NoDup_app_remove_r || idtac.
  assert (Hn : ~ In x (map fst l)) by now apply assoc_none. clear E.
  induction (map fst l) as [|a m IH]; simpl; [constructor; auto|]. inversion_clear H. constructor.
  - rewrite in_app_iff. intros [Hi|[<-|[]]]; [contradiction|]. apply Hn. now left.
  - apply IH; auto. intros Hi. apply Hn. now right.
Qed.
Lemma in_assoc (l : list (chars * nat)) x i : NoDup (map fst l) -> In (x, i) l -> assoc chars_eqb x l = Some i.
Proof.
  induction l as [|[a b] l IH]; simpl; [tauto|]. intros Hn [E|Hi]; inversion_clear Hn.
  - injection E as -> ->. now rewrite (proj2 (chars_eqb_eq x x) eq_refl).
  - destruct (chars_eqb x a) eqn:E; [|auto]. apply chars_eqb_eq in E. subst. exfalso. apply H. change a with (fst (a, i)). now apply in_map.
Qed.
Lemma assoc_in (l : list (chars * nat)) x i : assoc chars_eqb x l = Some i -> In (x, i) l.
Proof.
  induction l as [|[a b] l IH]; simpl; [discriminate|]. destruct (chars_eqb x a) eqn:E; [|auto]. intros [= ->]. apply chars_eqb_eq in E. subst. auto.
Qed.

Lemma table_add_twin same h t id k n h' t' : ttwin t -> table_add same h t id k n = (h', t') -> ttwin t'.
Proof.
  intros [A B]. unfold table_add, mirror, new_view. destruct same; intros [= <- <-]; split; cbn [t_hidx t_didx t_host t_dev]; rewrite ?A, ?B, ?app_length; auto; simpl; lia.
Qed.
Lemma Forall_set {A} (P : A -> Prop) l i x : Forall P l -> P x -> Forall P (list_set l i x).
Proof. intros H Hx. revert i. induction H as [|a l Ha Hl IH]; intros [|i]; simpl; auto. Qed.
Lemma allocate_twin same s a s' id : allocate same s a = Ok (s', id) -> twin (fst s) -> twin (fst s').
Proof.
  destruct s as [tb h], a as [p len label n iv]. unfold allocate. cbn [al_home al_len al_label al_n al_init fst]. intros E (T1 & T2 & T3).
  destruct p as [|b|b].
  - unfold allocate_node_data in E. destruct (label_id _ _) as [labels i]. apply obind_ok in E. destruct E as (k & _ & E).
    destruct (table_add _ _ _ _ _ _) as [h' t'] eqn:Et. injection E as <- <-. repeat split; cbn [fst tb_node tb_elem tb_ipt]; auto; eapply table_add_twin; eauto.
  - unfold allocate_element_data in E. destruct (label_id _ _) as [labels i].
    destruct (match assoc Nat.eqb b (tb_eidx tb) with Some _ => _ | None => _ end) as [eidx elem] eqn:Ee.
    assert (F : Forall ttwin elem).
    { destruct (assoc Nat.eqb b (tb_eidx tb)); injection Ee as <- <-; auto. apply Forall_app. split; auto. constructor; [split; reflexivity|constructor]. }
    apply obind_ok in E. destruct E as (bi & _ & E). apply obind_ok in E. destruct E as (k & _ & E). apply obind_ok in E. destruct E as (t & Ht & E).
    destruct (table_add _ _ _ _ _ _) as [h' t'] eqn:Et. injection E as <- <-. repeat split; cbn [fst tb_node tb_elem tb_ipt]; auto; try apply T1.
    apply Forall_set; auto. eapply table_add_twin; [|exact Et]. unfold vat in Ht. destruct (nth_error elem bi) eqn:En; [|discriminate]. injection Ht as <-.
    eapply Forall_forall; [exact F|]. eapply nth_error_In; eauto.
  - unfold allocate_ipt_data in E. destruct (label_id _ _) as [labels i].
    destruct (match assoc Nat.eqb b (tb_iidx tb) with Some _ => _ | None => _ end) as [iidx ipt] eqn:Ee.
    assert (F : Forall itwin ipt).
    { destruct (assoc Nat.eqb b (tb_iidx tb)); injection Ee as <- <-; auto. apply Forall_app. split; auto. constructor; [split; reflexivity|constructor]. }
    apply obind_ok in E. destruct E as (bi & _ & E). apply obind_ok in E. destruct E as (k & _ & E). apply obind_ok in E. destruct E as (t & Ht & E).
    destruct (new_view _ _ _) as [h1 dn]. destruct (new_view h1 _ _) as [h2 dnp1]. destruct (mirror _ h2 _ _) as [h3 hn]. destruct (mirror _ h3 _ _) as [h4 hnp1].
    apply obind_ok in E. destruct E as (h5 & _ & E). injection E as <- <-. repeat split; cbn [fst tb_node tb_elem tb_ipt]; auto; try apply T1.
    apply Forall_set; auto. unfold vat in Ht. destruct (nth_error ipt bi) eqn:En; [|discriminate]. injection Ht as <-.
    assert (TW : itwin i0) by (eapply Forall_forall; [exact F|]; eapply nth_error_In; eauto). destruct TW as [A B].
    split; cbn [i_hidx i_didx i_hn i_dn]; rewrite ?A, ?B, ?app_length; auto; simpl; lia.
Qed.
Lemma allocate_labels same s a s' id : allocate same s a = Ok (s', id) -> NoDup (map fst (tb_labels (fst s))) ->
  NoDup (map fst (tb_labels (fst s'))) /\ length (tb_labels (fst s)) <= length (tb_labels (fst s')) /\
  (forall y i, assoc chars_eqb y (tb_labels (fst s')) = Some i -> assoc chars_eqb y (tb_labels (fst s)) = Some i \/ length (tb_labels (fst s)) <= i).
Proof.
  intros E. assert (L : exists i, label_id (tb_labels (fst s)) (al_label a) = (tb_labels (fst s'), i)).
  { destruct s as [tb h], a as [p len label n iv]. unfold allocate in E. cbn [al_home al_len al_label al_n al_init fst] in *. destruct p as [|b|b].
    - unfold allocate_node_data in E. destruct (label_id _ _) as [labels i]. apply obind_ok in E. destruct E as (k & _ & E).
      destruct (table_add _ _ _ _ _ _) as [h' t'] eqn:Et. injection E as <- <-. exists i. reflexivity.
    - unfold allocate_element_data in E. destruct (label_id _ _) as [labels i].
      destruct (match assoc Nat.eqb b (tb_eidx tb) with Some _ => _ | None => _ end) as [eidx elem] eqn:Ee.
      apply obind_ok in E. destruct E as (bi & _ & E). apply obind_ok in E. destruct E as (k & _ & E). apply obind_ok in E. destruct E as (t & Ht & E).
      destruct (table_add _ _ _ _ _ _) as [h' t'] eqn:Et. injection E as <- <-. exists i. reflexivity.
    - unfold allocate_ipt_data in E. destruct (label_id _ _) as [labels i].
      destruct (match assoc Nat.eqb b (tb_iidx tb) with Some _ => _ | None => _ end) as [iidx ipt] eqn:Ee.
      apply obind_ok in E. destruct E as (bi & _ & E). apply obind_ok in E. destruct E as (k & _ & E). apply obind_ok in E. destruct E as (t & Ht & E).
      destruct (new_view _ _ _) as [h1 dn]. destruct (new_view h1 _ _) as [h2 dnp1]. destruct (mirror _ h2 _ _) as [h3 hn]. destruct (mirror _ h3 _ _) as [h4 hnp1].
      apply obind_ok in E. destruct E as (h5 & _ & E). injection E as <- <-. exists i. reflexivity. }
  destruct L as [i L]. intros Hn. destruct (label_keys _ _ L Hn) as (A & B & C). split; auto. split; auto.
  unfold label_id in L. destruct (assoc chars_eqb (al_label a) (tb_labels (fst s))) as [j|] eqn:Ej; injection L as L _; rewrite <- L; [auto|].
  intros y k. rewrite assoc_assoc_set by (intros; apply chars_eqb_eq). destruct (chars_eqb y (al_label a)); [intros [= <-]; auto|auto].
Qed.
(** one allocation *)
Lemma allocate_tinv same N s a s' id : tinv same N s -> acceptable a ->
  (forall b n, al_home a = OnElements b \/ al_home a = AtPoints b -> N b = Some n -> al_n a = n) ->
  allocate same s a = Ok (s', id) -> tinv same N s'.
Proof.
  intros [T1 T2 T3 T4 T5 T6 T7] Ha Hn E. destruct (@allocate_labels _ _ _ _ _ E T2) as (L1 & L2 & L3).
  destruct (allocate_spec T1 Ha) as (s2 & id2 & k & E2 & Hk & A). rewrite E in E2. injection E2 as <- <-.
  destruct A as [A1 A2 A3 A4 A5 A6]. constructor; auto.
  - eapply allocate_twin; eauto.
  - intros b i p n Hp HN. destruct (in_dec key_dec (KElem b i) [key_of (al_home a) id STEP_N; key_of (al_home a) id STEP_NP1]) as [Hi|Hi].
    + destruct (A5 _ Hi) as (q & Q1 & _ & _ & Q2 & _). rewrite Hp in Q1. injection Q1 as <-. rewrite Q2. apply (Hn b); auto.
      destruct (al_home a); simpl in Hi; destruct Hi as [Hi|[Hi|[]]]; try discriminate; injection Hi as -> _; auto.
    + rewrite A4 in Hp by assumption. eapply T4; eauto.
  - intros b i st p n Hp HN. destruct (in_dec key_dec (KIpt b i st) [key_of (al_home a) id STEP_N; key_of (al_home a) id STEP_NP1]) as [Hi|Hi].
    + destruct (A5 _ Hi) as (q & Q1 & _ & _ & Q2 & _). rewrite Hp in Q1. injection Q1 as <-. rewrite Q2. apply (Hn b); auto.
      destruct (al_home a); simpl in Hi; destruct Hi as [Hi|[Hi|[]]]; try discriminate; injection Hi as -> _; auto.
    + rewrite A4 in Hp by assumption. eapply T5; eauto.
  - intros b i st p Hp. destruct (in_dec key_dec (KIpt b i st) [key_of (al_home a) id STEP_N; key_of (al_home a) id STEP_NP1]) as [Hi|Hi].
    + assert (i = id) as -> by (destruct (al_home a); simpl in Hi; destruct Hi as [Hi|[Hi|[]]]; try discriminate; injection Hi as _ <-; auto).
      destruct (g_wf A1) as ((W & _) & _). eapply W; eauto.
    + rewrite A4 in Hp by assumption. apply T6 in Hp. lia.
  - intros i p Hp. destruct (in_dec key_dec (KNode i) [key_of (al_home a) id STEP_N; key_of (al_home a) id STEP_NP1]) as [Hi|Hi].
    + assert (i = id) as -> by (destruct (al_home a); simpl in Hi; destruct Hi as [Hi|[Hi|[]]]; try discriminate; injection Hi as <-; auto).
      destruct (g_wf A1) as ((W & _) & _). eapply W; eauto.
    + rewrite A4 in Hp by assumption. apply T7 in Hp. lia.
Qed.
Lemma all_tinv same N l s ids : Forall acceptable l ->
  (forall a b n, In a l -> al_home a = OnElements b \/ al_home a = AtPoints b -> N b = Some n -> al_n a = n) ->
  allocate_all same l = Ok (s, ids) -> tinv same N s.
Proof.
  revert s ids. induction l as [|a l IH] using rev_ind; intros s ids Ha Hn E.
  - injection E as <- _. constructor; [apply good_none|constructor|repeat split; constructor| | | |]; try (intros; discriminate).
  - apply Forall_app in Ha. destruct Ha as [Hl Ha]. inversion_clear Ha as [|? ? Ha' _]. unfold allocate_all in E. rewrite ofold_app in E. apply obind_ok in E. destruct E as ([s1 ids1] & E1 & E).
    cbn [ofold fst snd] in E. destruct (allocate same s1 a) as [[s2 id]| | |] eqn:Ea; try discriminate. injection E as <- <-. cbn [fst].
    eapply allocate_tinv; [|exact Ha'| |exact Ea].
    + eapply IH; eauto. intros. eapply Hn; eauto. rewrite in_app_iff. auto.
    + intros. eapply Hn; eauto. rewrite in_app_iff. simpl. auto.
Qed.
(** ** Look-ups *)
Lemma cast_inv k f v : cast k f = Ok v -> f = KF k v.
Proof. unfold cast. destruct f as [k' v']. cbn [kf_kind kf_view]. destruct (kind_eq_dec k' k); [intros [= <-]; now subst|discriminate]. Qed.
Section Looks.
  Variables (same : bool) (N : nat -> option nat) (s : tables * heap).
  Hypothesis T : tinv same N s.
  Lemma pair_kind k p : look (fst s) k = Some p -> kf_kind (fst p) = kf_kind (snd p).
  Proof. intros H. destruct (g_pair (ti_good T) k H) as (_ & _ & E & _). exact E. Qed.
  Lemma dev_elem_look k b id v : dev_elem (fst s) k b (Some id) = Ok v -> exists vh, look (fst s) (KElem b id) = Some (KF k vh, KF k v).
  Proof.
    intros E. unfold dev_elem in E. apply obind_ok in E. destruct E as (bi & Eb & E). apply obind_ok in E. destruct E as (t & Et & E).
    apply obind_ok in E. destruct E as (i & Ei & E). apply obind_ok in E. destruct E as (f & Ef & E). apply cast_inv in E. subst f.
    unfold mat in Eb. destruct (assoc Nat.eqb b (tb_eidx (fst s))) eqn:Eb'; [|discriminate]. injection Eb as ->.
    unfold vat in Et. destruct (nth_error (tb_elem (fst s)) bi) eqn:Et'; [|discriminate]. injection Et as ->.
    assert (TW : ttwin t) by (eapply Forall_forall; [exact (proj1 (proj2 (ti_twin T)))|]; eapply nth_error_In; eauto). destruct TW as [A B].
    unfold mat_id, mat in Ei. destruct (assoc Nat.eqb id (t_didx t)) eqn:Ei'; [|discriminate]. injection Ei as ->.
    unfold vat in Ef. destruct (nth_error (t_dev t) i) eqn:Ef'; [|discriminate]. injection Ef as ->.
    assert (X : exists f, look (fst s) (KElem b id) = Some (f, KF k v)).
    { unfold look, sub. rewrite Eb', Et'. unfold tlook, pair_at. rewrite A, Ei', Ef'.
      destruct (nth_error (t_host t) i) eqn:Eh; [eauto|]. apply nth_error_None in Eh. apply nth_some_lt in Ef'. lia. }
    destruct X as [[k' vh] X]. pose proof (pair_kind _ X) as K. cbn [fst snd kf_kind] in K. subst k'. eauto.
  Qed.
  Lemma host_elem_look k b id v : host_elem (fst s) k b (Some id) = Ok v -> exists vd, look (fst s) (KElem b id) = Some (KF k v, KF k vd).
  Proof.
    intros E. unfold host_elem in E. apply obind_ok in E. destruct E as (bi & Eb & E). apply obind_ok in E. destruct E as (t & Et & E).
    apply obind_ok in E. destruct E as (i & Ei & E). apply obind_ok in E. destruct E as (f & Ef & E). apply cast_inv in E. subst f.
    unfold mat in Eb. destruct (assoc Nat.eqb b (tb_eidx (fst s))) eqn:Eb'; [|discriminate]. injection Eb as ->.
    unfold vat in Et. destruct (nth_error (tb_elem (fst s)) bi) eqn:Et'; [|discriminate]. injection Et as ->.
    assert (TW : ttwin t) by (eapply Forall_forall; [exact (proj1 (proj2 (ti_twin T)))|]; eapply nth_error_In; eauto). destruct TW as [A B].
    unfold mat_id, mat in Ei. destruct (assoc Nat.eqb id (t_hidx t)) eqn:Ei'; [|discriminate]. injection Ei as ->.
    unfold vat in Ef. destruct (nth_error (t_host t) i) eqn:Ef'; [|discriminate]. injection Ef as ->.
    assert (X : exists f, look (fst s) (KElem b id) = Some (KF k v, f)).
    { unfold look, sub. rewrite Eb', Et'. unfold tlook, pair_at. rewrite <- A, Ei', Ef'.
      destruct (nth_error (t_dev t) i) eqn:Eh; [eauto|]. apply nth_error_None in Eh. apply nth_some_lt in Ef'. lia. }
    destruct X as [[k' vh] X]. pose proof (pair_kind _ X) as K. cbn [fst snd kf_kind] in K. subst k'. eauto.
  Qed.
  Lemma host_node_look k id v : host_node (fst s) k (Some id) = Ok v -> exists vd, look (fst s) (KNode id) = Some (KF k v, KF k vd).
  Proof.
    intros E. unfold host_node in E. apply obind_ok in E. destruct E as (i & Ei & E). apply obind_ok in E. destruct E as (f & Ef & E). apply cast_inv in E. subst f.
    destruct (proj1 (ti_twin T)) as [A B]. set (t := tb_node (fst s)) in *.
    unfold mat_id, mat in Ei. destruct (assoc Nat.eqb id (t_hidx t)) eqn:Ei'; [|discriminate]. injection Ei as ->.
    unfold vat in Ef. destruct (nth_error (t_host t) i) eqn:Ef'; [|discriminate]. injection Ef as ->.
    assert (X : exists f, look (fst s) (KNode id) = Some (KF k v, f)).
    { unfold look. fold t. unfold tlook, pair_at. rewrite <- A, Ei', Ef'.
      destruct (nth_error (t_dev t) i) eqn:Eh; [eauto|]. apply nth_error_None in Eh. apply nth_some_lt in Ef'. lia. }
    destruct X as [[k' vh] X]. pose proof (pair_kind _ X) as K. cbn [fst snd kf_kind] in K. subst k'. eauto.
  Qed.
  Lemma dev_ipt_look k b id v : dev_ipt (fst s) k b (Some id) STEP_NP1 = Ok v -> exists vh, look (fst s) (KIpt b id STEP_NP1) = Some (KF k vh, KF k v).
  Proof.
    intros E. unfold dev_ipt in E. apply obind_ok in E. destruct E as (bi & Eb & E). apply obind_ok in E. destruct E as (t & Et & E).
    apply obind_ok in E. destruct E as (i & Ei & E). apply obind_ok in E. destruct E as (f & Ef & E). apply cast_inv in E. subst f.
    unfold mat in Eb. destruct (assoc Nat.eqb b (tb_iidx (fst s))) eqn:Eb'; [|discriminate]. injection Eb as ->.
    unfold vat in Et. destruct (nth_error (tb_ipt (fst s)) bi) eqn:Et'; [|discriminate]. injection Et as ->.
    assert (TW : itwin t) by (eapply Forall_forall; [exact (proj2 (proj2 (ti_twin T)))|]; eapply nth_error_In; eauto). destruct TW as [A B].
    assert (IW : iwf t) by (destruct (g_wf (ti_good T)) as (_ & _ & _ & (_ & _ & F)); eapply Forall_forall; [exact F|]; eapply nth_error_In; eauto).
    destruct IW as (_ & _ & _ & _ & I5 & I6).
    unfold mat_id, mat in Ei. destruct (assoc Nat.eqb id (i_didx t)) eqn:Ei'; [|discriminate]. injection Ei as ->.
    unfold vat in Ef. destruct (nth_error (i_dnp1 t) i) eqn:Ef'; [|discriminate]. injection Ef as ->.
    assert (X : exists f, look (fst s) (KIpt b id STEP_NP1) = Some (f, KF k v)).
    { unfold look, sub. rewrite Eb', Et'. unfold ilook, pair_at. rewrite A, Ei', Ef'.
      destruct (nth_error (i_hnp1 t) i) eqn:Eh; [eauto|]. apply nth_error_None in Eh. apply nth_some_lt in Ef'. lia. }
    destruct X as [[k' vh] X]. pose proof (pair_kind _ X) as K. cbn [fst snd kf_kind] in K. subst k'. eauto.
  Qed.
End Looks.
