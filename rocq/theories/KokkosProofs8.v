(** The memory invariant of the tables, and the effect of the three allocation functions. *)
From Coq Require Import Reals Lra.
From Verif Require Import Base Strings ListLemmas DataModel DataProofs Loops InputProofs3 ElemDataProofs4 KokkosModel KokkosProofs KokkosProofs7.
Set Implicit Arguments.
Local Open Scope nat_scope.
Local Open Scope list_scope.
Local Notation length := List.length.

Definition vid (f : kfield) : nat := v_id (kf_view f).
Definition extent (f : kfield) : nat := v_extent (kf_view f).
Definition stored (h : heap) (f : kfield) : Prop := exists d, nth_error h (vid f) = Some d /\ length d = extent f * width (kf_kind f).
(** host and device view of one field *)
Definition pair_ok (same : bool) (h : heap) (p : kfield * kfield) : Prop :=
  stored h (fst p) /\ stored h (snd p) /\ kf_kind (fst p) = kf_kind (snd p) /\ extent (fst p) = extent (snd p) /\
  (if same then fst p = snd p else vid (fst p) <> vid (snd p)).
Definition apart (p q : kfield * kfield) : Prop :=
  forall a b, In a [fst p; snd p] -> In b [fst q; snd q] -> vid a <> vid b.
Record good (same : bool) (s : tables * heap) : Prop := {
  g_wf : wft (fst s);
  g_pair : forall k p, look (fst s) k = Some p -> pair_ok same (snd s) p;
  g_apart : forall k1 k2 p q, look (fst s) k1 = Some p -> look (fst s) k2 = Some q -> k1 <> k2 -> apart p q
}.
(** older memory is not touched *)
Definition keeps (h h' : heap) : Prop := length h <= length h' /\ forall g, g < length h -> nth_error h' g = nth_error h g.
Lemma keeps_refl h : keeps h h. Proof. split; auto. Qed.
Lemma keeps_trans h1 h2 h3 : keeps h1 h2 -> keeps h2 h3 -> keeps h1 h3.
Proof. intros [A B] [C D]. split; [lia|]. intros g Hg. rewrite D by lia. now apply B. Qed.
Lemma keeps_app h e : keeps h (h ++ e).
Proof. split; [rewrite app_length; lia|]. intros. now apply nth_error_app1. Qed.
Lemma keeps_stored h h' f : keeps h h' -> stored h f -> stored h' f.
Proof. intros [A B] (d & H1 & H2). exists d. split; auto. rewrite B; auto. eapply nth_some_lt; eauto. Qed.
Lemma stored_lt h f : stored h f -> vid f < length h.
Proof. intros (d & H & _). eapply nth_some_lt; eauto. Qed.
Lemma keeps_pair same h h' p : keeps h h' -> pair_ok same h p -> pair_ok same h' p.
Proof. intros K (A & B & C). repeat split; try apply C; eapply keeps_stored; eauto. Qed.

(** what an allocation does: new views under [keys], everything else as before *)
Record allocated (same : bool) (s s' : tables * heap) (label : chars) (id : nat) (keys : list key) (k : kind) (n : nat) (init : list R) : Prop := {
  a_good : good same s';
  a_label : assoc chars_eqb label (tb_labels (fst s')) = Some id;
  a_labels : forall y i, assoc chars_eqb y (tb_labels (fst s)) = Some i -> assoc chars_eqb y (tb_labels (fst s')) = Some i;
  a_other : forall x, ~ In x keys -> look (fst s') x = look (fst s) x;
  a_new : forall x, In x keys -> exists p, look (fst s') x = Some p /\ kf_kind (fst p) = k /\ kf_kind (snd p) = k /\ extent (fst p) = n /\ extent (snd p) = n /\
    nth_error (snd s') (vid (fst p)) = Some init /\ nth_error (snd s') (vid (snd p)) = Some init /\ length (snd s) <= vid (fst p) /\ length (snd s) <= vid (snd p);
  a_heap : keeps (snd s) (snd s')
}.
Lemma good_extend same s s' keys : good same s -> wft (fst s') -> keeps (snd s) (snd s') ->
  (forall x, ~ In x keys -> look (fst s') x = look (fst s) x) ->
  (forall x p, In x keys -> look (fst s') x = Some p -> pair_ok same (snd s') p /\ length (snd s) <= vid (fst p) /\ length (snd s) <= vid (snd p)) ->
  (forall x y p q, In x keys -> In y keys -> x <> y -> look (fst s') x = Some p -> look (fst s') y = Some q -> apart p q) -> good same s'.
Proof.
  intros G W K Ho Hn Ha. constructor; auto.
  - intros x p Hp. destruct (in_dec key_dec x keys) as [Hi|Hi]; [now apply (Hn x)|]. rewrite Ho in Hp by assumption.
    eapply keeps_pair; [exact K|]. eapply g_pair; eauto.
  - assert (New : forall x y p q, In x keys -> ~ In y keys -> look (fst s') x = Some p -> look (fst s') y = Some q -> apart p q /\ apart q p).
    { intros x y p q Hx Hy Hp Hq. rewrite (Ho y Hy) in Hq. destruct (Hn x p Hx Hp) as (_ & A & B). destruct (g_pair G y Hq) as (C & D & _).
      apply stored_lt in C. apply stored_lt in D. split; intros a b [<-|[<-|[]]] [<-|[<-|[]]]; lia. }
    intros x y p q Hp Hq Hne. destruct (in_dec key_dec x keys) as [Hx|Hx], (in_dec key_dec y keys) as [Hy|Hy].
    + now apply (Ha x y).
    + exact (proj1 (New x y p q Hx Hy Hp Hq)).
    + exact (proj2 (New y x q p Hy Hx Hq Hp)).
    + rewrite Ho in Hp, Hq by assumption. eapply (g_apart G); eauto.
Qed.

(** ** table_add *)
Lemma table_add_spec same h t id k n h' t' : twf t -> table_add same h t id k n = (h', t') ->
  twf t' /\ keeps h h' /\ exists p, (forall id', tlook t' id' = if id' =? id then Some p else tlook t id') /\
    kf_kind (fst p) = k /\ kf_kind (snd p) = k /\ extent (fst p) = n /\ extent (snd p) = n /\ pair_ok same h' p /\
    nth_error h' (vid (fst p)) = Some (repeat 0%R (n * width k)) /\ nth_error h' (vid (snd p)) = Some (repeat 0%R (n * width k)) /\
    length h <= vid (fst p) /\ length h <= vid (snd p).
Proof.
  intros [W1 W2]. unfold table_add, mirror, new_view. set (z := repeat 0%R (n * width k)).
  assert (Hz : length z = n * width k) by (unfold z; now rewrite repeat_length).
  destruct same; intros [= <- <-].
  - split; [split; simpl; now apply in_range_add|]. split; [apply keeps_app|]. exists (KF k (View (length h) n), KF k (View (length h) n)).
    assert (E : nth_error (h ++ [z]) (length h) = Some z) by apply nth_error_snoc_last.
    unfold pair_ok, stored, vid, extent. simpl. split; [intros; unfold tlook; simpl; now apply pair_at_add|].
    repeat split; auto; exists z; auto.
  - split; [split; simpl; now apply in_range_add|]. split; [rewrite <- app_assoc; apply keeps_app|].
    exists (KF k (View (length (h ++ [z])) n), KF k (View (length h) n)).
    assert (E1 : nth_error ((h ++ [z]) ++ [z]) (length (h ++ [z])) = Some z) by apply nth_error_snoc_last.
    assert (E2 : nth_error ((h ++ [z]) ++ [z]) (length h) = Some z).
    { rewrite nth_error_app1 by (rewrite app_length; simpl; lia). apply nth_error_snoc_last. }
    unfold pair_ok, stored, vid, extent. simpl. split; [intros; unfold tlook; simpl; now apply pair_at_add|].
    repeat split; auto; try (exists z; auto); rewrite app_length; simpl; lia.
Qed.

(** ** AllocateNodeData *)
Definition node_kind (len : length_t) : option kind := match len with SCALAR => Some KScalarNode | VECTOR => Some KVectorNode | _ => None end.
Definition elem_kind (len : length_t) : option kind := match len with SCALAR => Some KScalarElem | SYMMETRIC_TENSOR => Some KSymElem | FULL_TENSOR => Some KFullElem | _ => None end.
Definition ipt_kind (len : length_t) : option kind :=
  match len with SCALAR => Some KScalarNode | VECTOR => Some KVectorNode | SYMMETRIC_TENSOR => Some KSymIntPt | FULL_TENSOR => Some KFullIntPt | _ => None end.
Lemma node_spec same s len label n k : good same s -> node_kind len = Some k ->
  exists s' id, allocate_node_data same s len label n = Ok (s', id) /\ allocated same s s' label id [KNode id] k n (repeat 0%R (n * width k)).
Proof.
  destruct s as [tb h]. intros G Hk. pose proof (g_wf G) as W. destruct W as (W1 & W2 & W3 & W4). cbn [fst] in *.
  unfold allocate_node_data. destruct (label_id (tb_labels tb) label) as [labels id] eqn:El.
  destruct (label_spec _ W1 El) as (L1 & L2 & L3).
  assert (E : (match len with SCALAR => Ok KScalarNode | VECTOR => Ok KVectorNode | _ => Throw end) = Ok k) by (destruct len; simpl in Hk; congruence).
  rewrite E. cbn [obind]. destruct (table_add same h (tb_node tb) id k n) as [h' t'] eqn:Et.
  destruct (@table_add_spec same h (tb_node tb) id k n h' t' W2 Et) as (T1 & T2 & p & T3 & T4 & T5 & T6 & T7 & T8 & T9 & T10 & T11 & T12).
  eexists _, id. split; [reflexivity|].
  set (tb' := Tabs labels t' (tb_eidx tb) (tb_elem tb) (tb_iidx tb) (tb_ipt tb)).
  assert (New : look tb' (KNode id) = Some p) by (simpl; rewrite T3, Nat.eqb_refl; reflexivity).
  assert (Ho : forall x, ~ In x [KNode id] -> look tb' x = look tb x).
  { intros [i|b i|b i st] Hx; try reflexivity. simpl. rewrite T3. destruct (Nat.eqb_spec i id) as [->|]; auto. exfalso. apply Hx. now left. }
  constructor; cbn [fst snd]; auto.
  - eapply (@good_extend same (tb, h) (tb', h') [KNode id]); cbn [fst snd]; auto.
    + repeat split; try apply L1; try apply T1; try apply W3; try apply W4.
    + intros x q [<-|[]] Hq. rewrite New in Hq. injection Hq as <-. auto.
    + intros x y q r [<-|[]] [<-|[]] Hne. congruence.
  - intros x [<-|[]]. exists p. repeat split; auto.
Qed.
(** ** AllocateElementData *)
Lemma elem_spec same s b len label n k : good same s -> elem_kind len = Some k ->
  exists s' id, allocate_element_data same s b len label n = Ok (s', id) /\ allocated same s s' label id [KElem b id] k n (repeat 0%R (n * width k)).
Proof.
  destruct s as [tb h]. intros G Hk. pose proof (g_wf G) as W. destruct W as (W1 & W2 & W3 & W4). cbn [fst] in *.
  unfold allocate_element_data. destruct (label_id (tb_labels tb) label) as [labels id] eqn:El.
  destruct (label_spec _ W1 El) as (L1 & L2 & L3).
  destruct (match assoc Nat.eqb b (tb_eidx tb) with Some _ => (tb_eidx tb, tb_elem tb) | None => _ end) as [eidx elem] eqn:Ee.
  assert (Hm : exists bi t0, mat eidx b = Ok bi /\ vat elem bi = Ok t0).
  { unfold mat, vat. destruct (assoc Nat.eqb b (tb_eidx tb)) as [i|] eqn:Eb; injection Ee as <- <-.
    - rewrite Eb. destruct (nth_error (tb_elem tb) i) as [t0|] eqn:Ei; [exists i, t0; split; auto; now rewrite Ei|]. apply nth_error_None in Ei. apply (proj1 W3) in Eb. lia.
    - rewrite assoc_put, Nat.eqb_refl. exists (length (tb_elem tb)), no_table. split; auto. now rewrite nth_error_snoc_last. }
  destruct Hm as (bi & t0 & Hm & Hv).
  destruct (@sub_spec table twf (tb_eidx tb) (tb_elem tb) b no_table t0 eidx elem bi) as (S1 & S2 & S3); auto.
  { split; intros i j H; discriminate. }
  assert (E : (match len with SCALAR => Ok KScalarElem | SYMMETRIC_TENSOR => Ok KSymElem | FULL_TENSOR => Ok KFullElem | _ => Throw end) = Ok k) by (destruct len; simpl in Hk; congruence).
  rewrite Hm. cbn [obind]. rewrite E. cbn [obind]. rewrite Hv. cbn [obind].
  destruct (table_add same h t0 id k n) as [h' t'] eqn:Et.
  destruct (@table_add_spec same h t0 id k n h' t' S2 Et) as (T1 & T2 & p & T3 & T4 & T5 & T6 & T7 & T8 & T9 & T10 & T11 & T12).
  destruct (S3 t' T1) as [S4 S5].
  eexists _, id. split; [reflexivity|].
  set (tb' := Tabs labels (tb_node tb) eidx (list_set elem bi t') (tb_iidx tb) (tb_ipt tb)).
  assert (New : look tb' (KElem b id) = Some p) by (simpl; rewrite S5, Nat.eqb_refl, T3, Nat.eqb_refl; reflexivity).
  assert (Ho : forall x, ~ In x [KElem b id] -> look tb' x = look tb x).
  { intros [i|b' i|b' i st] Hx; try reflexivity. simpl. rewrite S5. destruct (Nat.eqb_spec b' b) as [->|]; auto. rewrite T3.
    destruct (Nat.eqb_spec i id) as [->|]; [exfalso; apply Hx; now left|]. rewrite S1. destruct (sub (tb_eidx tb) (tb_elem tb) b); auto. }
  constructor; cbn [fst snd]; auto.
  - eapply (@good_extend same (tb, h) (tb', h') [KElem b id]); cbn [fst snd]; auto.
    + repeat split; try apply L1; try apply W2; try apply S4; try apply W4.
    + intros x q [<-|[]] Hq. rewrite New in Hq. injection Hq as <-. auto.
    + intros x y q r [<-|[]] [<-|[]] Hne. congruence.
  - intros x [<-|[]]. exists p. repeat split; auto.
Qed.
(** ** AllocateIntegrationPointData *)
Definition initial (k : kind) (iv : list R) (n : nat) (data : list R) : Prop :=
  (iv = [] /\ data = repeat 0%R (n * width k)) \/
  (iv <> [] /\ initial_entries (fst (ipt_shape k)) (snd (ipt_shape k)) iv n = Ok data /\ length data = n * width k).
Lemma set_fresh h e i x : keeps h (list_set (h ++ e) (length h + i) x).
Proof.
  split; [rewrite list_set_length, app_length; lia|]. intros g Hg. rewrite nth_set_other by lia. now apply nth_error_app1.
Qed.
Lemma keeps_set h h' g x : keeps h h' -> length h <= g -> keeps h (list_set h' g x).
Proof. intros [A B] Hg. split; [now rewrite list_set_length|]. intros i Hi. rewrite nth_set_other by lia. now apply B. Qed.
Lemma ipt_spec same s b len label n k iv data : good same s -> ipt_kind len = Some k -> initial k iv n data ->
  exists s' id, allocate_ipt_data same s b len label n iv = Ok (s', id) /\ allocated same s s' label id [KIpt b id STEP_N; KIpt b id STEP_NP1] k n data.
Proof.
  destruct s as [tb h]. intros G Hk Hini. pose proof (g_wf G) as W. destruct W as (W1 & W2 & W3 & W4). cbn [fst] in *.
  unfold allocate_ipt_data. destruct (label_id (tb_labels tb) label) as [labels id] eqn:El.
  destruct (label_spec _ W1 El) as (L1 & L2 & L3).
  destruct (match assoc Nat.eqb b (tb_iidx tb) with Some _ => (tb_iidx tb, tb_ipt tb) | None => _ end) as [iidx ipt] eqn:Ee.
  assert (Hm : exists bi t0, mat iidx b = Ok bi /\ vat ipt bi = Ok t0).
  { unfold mat, vat. destruct (assoc Nat.eqb b (tb_iidx tb)) as [i|] eqn:Eb; injection Ee as <- <-.
    - rewrite Eb. destruct (nth_error (tb_ipt tb) i) as [t0|] eqn:Ei; [exists i, t0; split; auto; now rewrite Ei|]. apply nth_error_None in Ei. apply (proj1 W4) in Eb. lia.
    - rewrite assoc_put, Nat.eqb_refl. exists (length (tb_ipt tb)), no_itable. split; auto. now rewrite nth_error_snoc_last. }
  destruct Hm as (bi & t0 & Hm & Hv).
  destruct (@sub_spec itable iwf (tb_iidx tb) (tb_ipt tb) b no_itable t0 iidx ipt bi) as (S1 & S2 & S3); auto.
  { repeat split; intros i j H; discriminate. }
  assert (E : (match len with SCALAR => Ok KScalarNode | VECTOR => Ok KVectorNode | SYMMETRIC_TENSOR => Ok KSymIntPt | FULL_TENSOR => Ok KFullIntPt | _ => Throw end) = Ok k) by (destruct len; simpl in Hk; congruence).
  rewrite Hm. cbn [obind]. rewrite E. cbn [obind]. rewrite Hv. cbn [obind].
  unfold new_view at 1 2. cbn [fst snd]. set (z := repeat 0%R (n * width k)). set (dn := View (length h) n). set (dnp1 := View (length (h ++ [z])) n).
  (* the four views and the memory at the end *)
  assert (X : exists hn hnp1 h4 h5,
    (let '(h3, hn) := mirror same ((h ++ [z]) ++ [z]) dn (width k) in let '(h4, hnp1) := mirror same h3 dnp1 (width k) in (h4, hn, hnp1)) = (h4, hn, hnp1) /\
    (match iv with [] => Ok h4 | _ => do v <- initial_entries (fst (ipt_shape k)) (snd (ipt_shape k)) iv n;
        let h := list_set h4 (v_id hn) v in let h := list_set h (v_id hnp1) v in do h <- deep_copy h dn hn; deep_copy h dnp1 hnp1 end) = Ok h5 /\
    v_extent hn = n /\ v_extent hnp1 = n /\ keeps h h5 /\ length h <= v_id hn /\ length h <= v_id hnp1 /\
    nth_error h5 (v_id hn) = Some data /\ nth_error h5 (v_id hnp1) = Some data /\ nth_error h5 (v_id dn) = Some data /\ nth_error h5 (v_id dnp1) = Some data /\
    (if same then hn = dn /\ hnp1 = dnp1 else v_id hn <> v_id dn /\ v_id hnp1 <> v_id dnp1) /\
    v_id hn <> v_id hnp1 /\ v_id hn <> v_id dnp1 /\ v_id hnp1 <> v_id dn /\ v_id dn <> v_id dnp1).
  { unfold mirror. destruct same.
    - set (h4 := (h ++ [z]) ++ [z]). assert (Ld : v_id dn = length h) by reflexivity. assert (Ld1 : v_id dnp1 = length h + 1) by (unfold dnp1; simpl; rewrite app_length; reflexivity).
      assert (L4 : length h4 = length h + 2) by (unfold h4; rewrite !app_length; simpl; lia).
      assert (K4 : keeps h h4) by (unfold h4; rewrite <- app_assoc; apply keeps_app).
      destruct Hini as [[-> ->]|(Hne & He & Hl)].
      + exists dn, dnp1, h4, h4. split; [reflexivity|]. split; [reflexivity|]. fold z.
        assert (E1 : nth_error h4 (v_id dn) = Some z) by (unfold h4; rewrite Ld, nth_error_app1 by (rewrite app_length; simpl; lia); apply nth_error_snoc_last).
        assert (E2 : nth_error h4 (v_id dnp1) = Some z) by (unfold h4; unfold dnp1; simpl; apply nth_error_snoc_last).
        repeat split; auto; try lia; apply K4.
      +
        set (h6 := list_set h4 (v_id dn) data). set (h7 := list_set h6 (v_id dnp1) data).
        assert (E1 : nth_error h7 (v_id dn) = Some data) by (unfold h7; rewrite nth_set_other by lia; unfold h6; apply nth_set_same; lia).
        assert (E2 : nth_error h7 (v_id dnp1) = Some data) by (unfold h7; apply nth_set_same; unfold h6; rewrite list_set_length; lia).
        exists dn, dnp1, h4, h7. split; [reflexivity|]. split.
        * destruct iv; [congruence|]. rewrite He. cbn [obind]. cbv zeta. unfold deep_copy. simpl v_extent. rewrite !Nat.eqb_refl. fold h6. fold h7. unfold vget at 1. rewrite E1. cbn [obind]. rewrite (list_set_self _ _ E1). unfold vget. rewrite E2. cbn [obind]. now rewrite (list_set_self _ _ E2).
        * assert (K7 : keeps h h7) by (unfold h7, h6; apply keeps_set; [apply keeps_set; [exact K4|lia]|lia]).
          repeat split; auto; try lia; apply K7.
    - unfold new_view. simpl v_extent. set (h4 := (((h ++ [z]) ++ [z]) ++ [z]) ++ [z]). set (hn := View (length ((h ++ [z]) ++ [z])) n). set (hnp1 := View (length (((h ++ [z]) ++ [z]) ++ [z])) n).
      assert (Ld : v_id dn = length h) by reflexivity. assert (Ld1 : v_id dnp1 = length h + 1) by (unfold dnp1; simpl; rewrite app_length; reflexivity).
      assert (Lh : v_id hn = length h + 2) by (unfold hn; simpl; rewrite !app_length; simpl; lia). assert (Lh1 : v_id hnp1 = length h + 3) by (unfold hnp1; simpl; rewrite !app_length; simpl; lia).
      assert (L4 : length h4 = length h + 4) by (unfold h4; rewrite !app_length; simpl; lia).
      assert (Eh4 : h4 = h ++ [z; z; z; z]) by (unfold h4; now rewrite <- !app_assoc).
      assert (K4 : keeps h h4) by (rewrite Eh4; apply keeps_app).
      assert (Z : forall i, i < 4 -> nth_error h4 (length h + i) = Some z).
      { intros i Hi. rewrite Eh4, nth_error_app2 by lia. replace (length h + i - length h) with i by lia. destruct i as [|[|[|[|]]]]; try reflexivity. lia. }
      destruct Hini as [[-> ->]|(Hne & He & Hl)].
      + exists hn, hnp1, h4, h4. split; [reflexivity|]. split; [reflexivity|]. fold z.
        assert (Z0 : nth_error h4 (length h) = Some z) by (rewrite <- (Nat.add_0_r (length h)); apply Z; lia).
        rewrite Ld, Ld1, Lh, Lh1, !Z, Z0 by lia. repeat split; auto; try lia; apply K4.
      +
        set (h6 := list_set h4 (v_id hn) data). set (h7 := list_set h6 (v_id hnp1) data).
        assert (L7 : length h7 = length h + 4) by (unfold h7, h6; rewrite !list_set_length; exact L4).
        set (h8 := list_set h7 (v_id dn) data). set (h9 := list_set h8 (v_id dnp1) data).
        assert (L8 : length h8 = length h + 4) by (unfold h8; now rewrite list_set_length).
        assert (E1 : nth_error h7 (v_id hn) = Some data) by (unfold h7; rewrite nth_set_other by lia; unfold h6; apply nth_set_same; lia).
        assert (E2 : nth_error h8 (v_id hnp1) = Some data) by (unfold h8; rewrite nth_set_other by lia; unfold h7; apply nth_set_same; unfold h6; rewrite list_set_length; lia).
        exists hn, hnp1, h4, h9. split; [reflexivity|]. split.
        * destruct iv; [congruence|]. rewrite He. cbn [obind]. cbv zeta. unfold deep_copy. simpl v_extent. rewrite !Nat.eqb_refl. fold h6. fold h7. unfold vget at 1. rewrite E1. cbn [obind]. fold h8. unfold vget. rewrite E2. reflexivity.
        * assert (K9 : keeps h h9) by (unfold h9, h8, h7, h6; apply keeps_set; [apply keeps_set; [apply keeps_set; [apply keeps_set; [exact K4|lia]|lia]|lia]|lia]).
          assert (A1 : nth_error h9 (v_id hn) = Some data) by (unfold h9; rewrite nth_set_other by lia; unfold h8; rewrite nth_set_other by lia; exact E1).
          assert (A2 : nth_error h9 (v_id hnp1) = Some data) by (unfold h9; rewrite nth_set_other by lia; exact E2).
          assert (A3 : nth_error h9 (v_id dn) = Some data) by (unfold h9; rewrite nth_set_other by lia; unfold h8; apply nth_set_same; lia).
          assert (A4 : nth_error h9 (v_id dnp1) = Some data) by (unfold h9; apply nth_set_same; lia).
          repeat split; auto; try lia; apply K9. }
  destruct X as (hn & hnp1 & h4 & h5 & X1 & X2 & X3 & X4 & X5 & X6 & X7 & X8 & X9 & X10 & X11 & X12 & X13 & X14 & X15 & X16).
  assert (Ldata : length data = n * width k) by (destruct Hini as [[_ ->]|(_ & _ & H)]; [apply repeat_length|exact H]).
  fold z in X1. destruct (mirror same ((h ++ [z]) ++ [z]) dn (width k)) as [h3 hn'] eqn:M1.
  destruct (mirror same h3 dnp1 (width k)) as [h4' hnp1'] eqn:M2. injection X1 as -> -> ->.
  match goal with |- context [obind ?e _] => replace e with (Ok h5) by (symmetry; exact X2) end. cbn [obind].
  set (t' := ITab (i_hn t0 ++ [KF k hn]) (i_hnp1 t0 ++ [KF k hnp1]) (i_dn t0 ++ [KF k dn]) (i_dnp1 t0 ++ [KF k dnp1]) (map_put id (length (i_hn t0)) (i_hidx t0)) (map_put id (length (i_dn t0)) (i_didx t0))).
  destruct S2 as (Q1 & Q2 & Q3 & Q4 & Q5 & Q6).
  assert (T' : iwf t').
  { unfold t'. repeat split; simpl; try (now apply in_range_add); try (rewrite !app_length; simpl; lia).
    - rewrite Q5. now apply in_range_add. - rewrite Q6. now apply in_range_add. }
  assert (IL : forall id' st, ilook t' id' st = if id' =? id then Some (match st with STEP_N => (KF k hn, KF k dn) | STEP_NP1 => (KF k hnp1, KF k dnp1) end) else ilook t0 id' st).
  { intros id' []; unfold ilook, t'; simpl; [now apply pair_at_add|]. rewrite Q5, Q6. now apply pair_at_add. }
  destruct (S3 t' T') as [S4 S5].
  eexists _, id. split; [reflexivity|].
  set (tb' := Tabs labels (tb_node tb) (tb_eidx tb) (tb_elem tb) iidx (list_set ipt bi t')).
  assert (New : forall st, look tb' (KIpt b id st) = Some (match st with STEP_N => (KF k hn, KF k dn) | STEP_NP1 => (KF k hnp1, KF k dnp1) end)).
  { intros st. simpl. rewrite S5, Nat.eqb_refl, IL, Nat.eqb_refl. reflexivity. }
  assert (Ho : forall x, ~ In x [KIpt b id STEP_N; KIpt b id STEP_NP1] -> look tb' x = look tb x).
  { intros [i|b' i|b' i st] Hx; try reflexivity. simpl. rewrite S5. destruct (Nat.eqb_spec b' b) as [->|]; auto. rewrite IL.
    destruct (Nat.eqb_spec i id) as [->|]; [exfalso; apply Hx; destruct st; simpl; auto|]. rewrite S1. destruct (sub (tb_iidx tb) (tb_ipt tb) b); auto. now destruct st. }
  assert (D0 : length h <= v_id dn) by (simpl; lia). assert (D1 : length h <= v_id dnp1) by (simpl; rewrite app_length; lia).
  constructor; cbn [fst snd]; auto.
  - eapply (@good_extend same (tb, h) (tb', h5) [KIpt b id STEP_N; KIpt b id STEP_NP1]); cbn [fst snd]; auto.
    + repeat split; try apply L1; try apply W2; try apply S4; try apply W3.
    + intros x q Hx Hq.
      assert (B : q = (KF k hn, KF k dn) \/ q = (KF k hnp1, KF k dnp1)) by (destruct Hx as [<-|[<-|[]]]; rewrite New in Hq; injection Hq as <-; auto).
      unfold pair_ok, stored, vid, extent. destruct B as [->| ->]; simpl; repeat split; auto; try (rewrite app_length; lia); try lia;
        try (exists data; split; [assumption|]; rewrite Ldata; simpl; congruence); destruct same; try (destruct X12; congruence); try (f_equal; apply X12); try apply X12.
    + intros x y q r Hx Hy Hne Hq Hr. unfold apart, vid.
      destruct Hx as [<-|[<-|[]]], Hy as [<-|[<-|[]]]; try congruence; rewrite New in Hq, Hr; injection Hq as <-; injection Hr as <-;
        intros a0 b0 [<-|[<-|[]]] [<-|[<-|[]]]; simpl; auto.
  - intros x Hx. destruct Hx as [<-|[<-|[]]]; rewrite New; eexists; (split; [reflexivity|]); unfold vid, extent; simpl; repeat split; auto; rewrite app_length; lia.
Qed.
