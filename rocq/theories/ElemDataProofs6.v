(** The set-up of all blocks. *)
From Verif Require Import Base ListLemmas Strings DataModel DataSpec DataProofs Loops ElemDataModel ElemDataSpec ElemDataModel2 ElemDataProofs ElemDataProofs2 ElemDataProofs3 ElemDataProofs4 ElemDataProofs5.
From Coq Require Import NArith Sorted.
Set Implicit Arguments.
Local Open Scope nat_scope.
Local Open Scope list_scope.
Local Notation length := List.length.

Section Setup.
  Context {T : Type} (zero one : T) (of_int : Z -> T).
  Variable bs : list (block T).
  Hypothesis Hgood : forall b, In b bs -> good_states (b_labels b).
  Hypothesis Hcase : case_consistent bs.
  Hypothesis Hipt : forall b s, In b bs -> In s (b_labels b) -> starts_with (lit "ipt") s = false \/ s = lit "ipt_id".
  Hypothesis Hnd : NoDup (map (@b_id T) bs).
  Hypothesis Hnip : forall b, In b bs -> b_nip b <> 0 /\ (N.of_nat (b_nip b) <= INT_MAX)%N.

  Lemma ids_unique b b' : In b bs -> In b' bs -> b_id b = b_id b' -> b = b'.
  Proof.
    intros Hb Hb' E. clear - Hnd Hb Hb' E. induction bs as [|x l IH]; [destruct Hb|]. cbn [map] in Hnd. inversion Hnd as [|? ? Hn Hd]; subst.
    destruct Hb as [->|Hb], Hb' as [->|Hb']; auto.
    - exfalso. apply Hn. rewrite E. now apply in_map.
    - exfalso. apply Hn. rewrite <- E. now apply in_map.
  Qed.
  Definition counts := map (fun b : block T => (b_id b, length (b_elems b))) bs.
  Lemma counts_assoc b : In b bs -> assoc Nat.eqb (b_id b) counts = Some (length (b_elems b)).
  Proof.
    intros Hb. unfold counts. pose proof ids_unique as Hu. revert Hb Hu. clear - Hnd. intros Hb Hu.
    assert (G : forall l, incl l bs -> In b l -> assoc Nat.eqb (b_id b) (map (fun b : block T => (b_id b, length (b_elems b))) l) = Some (length (b_elems b))).
    { induction l as [|x l IH]; intros Hi Hl; [destruct Hl|]. cbn [map assoc]. destruct (Nat.eqb_spec (b_id b) (b_id x)) as [E|E].
      - apply Hu in E; auto. now subst. apply Hi. now left.
      - destruct Hl as [->|Hl]; [congruence|]. apply IH; auto. intros y Hy. apply Hi. now right. }
    apply G; auto. intros y Hy; auto.
  Qed.

  Variable t0 : list (nat * field).
  Hypothesis Ht0 : table_good bs t0.
  Variable nodes_out : list chars.
  Definition fresh : elem_data T := ED 3 t0 [] [] [] [] [] nodes_out [] [].

  Lemma allocate_ok : exists d1 d2, declare_all fresh bs = Ok d1 /\ allocate_element_data zero d1 counts = Ok d2 /\
    ready bs d2 /\ (forall b, In b bs -> allocated zero d2 b) /\ keys_sorted (ed_labels d2) /\
    (forall x, In x (map fst (ed_labels d2)) <-> In x (map (@b_id T) bs)).
  Proof.
    destruct (@declare_all_spec T bs Hgood Hcase bs fresh) as (d1 & E1 & G1 & G2 & G3 & G4 & G5 & G6 & G7 & G8 & G9 & G10 & G11 & G12 & G13); auto.
    { intros x Hx; exact Hx. } { constructor. }
    exists d1. unfold allocate_element_data.
    assert (Hk : forall x, In x (map fst (ed_block_fields d1)) <-> In x (map (@b_id T) bs)).
    { intros x. split; intros H.
      - destruct (in_dec Nat.eq_dec x (map (@b_id T) bs)) as [|Hn]; auto. exfalso. specialize (G12 x Hn). cbn in G12.
        apply in_map_iff in H as ((k & v) & <- & H). cbn in G12. apply assoc_in_nat in H; auto. congruence.
      - apply in_map_iff in H as (b & <- & Hb). destruct (G11 b Hb) as (ids & E & _). apply assoc_in_nat in E; auto. apply in_map_iff. exists (b_id b, ids). auto. }
    destruct (@allocate_fold T zero bs Hgood counts (ed_block_fields d1) (ed_fields d1) (ed_block_fields d1) d1)
      as (d2 & E2 & H1 & H2 & H3 & H4 & H5 & H6 & H7 & H8 & H9); auto.
    { intros bid ids Hin. assert (Hb : In bid (map (@b_id T) bs)) by (apply Hk, in_map_iff; exists (bid, ids); auto).
      apply in_map_iff in Hb as (b & <- & Hb). destruct (G11 b Hb) as (ids' & E & Hf). apply assoc_in_nat in Hin; auto.
      assert (ids' = ids) by congruence. subst ids'. exists b. split; [auto|]. split; [auto|]. split; [auto|]. now apply counts_assoc. }
    { intros b b'. apply ids_unique. }
    exists d2. split; [exact E1|]. split; [exact E2|].
    assert (Ha : forall b, In b bs -> allocated zero d2 b) by (intros b Hb; apply H6; auto; apply Hk; now apply in_map).
    assert (Hs : keys_sorted (ed_labels d2)) by (apply H8; rewrite G5; constructor).
    assert (Hl : forall x, In x (map fst (ed_labels d2)) <-> In x (map (@b_id T) bs)).
    { intros x. rewrite H9, G5, Hk. cbn. tauto. }
    split; [|split; [|split]]; auto. constructor.
    - exact H1.
    - rewrite H2. exact G1.
    - intros (bid & ls) Hin. assert (Hb : In bid (map (@b_id T) bs)) by (apply Hl, in_map_iff; exists (bid, ls); auto).
      apply in_map_iff in Hb as (b & <- & Hb). exists b. split; auto. f_equal. apply assoc_in_nat in Hin; auto. destruct (Ha b Hb) as (E & _). congruence.
    - intros x. rewrite H5, G4. cbn [app ed_block_ids fresh]. intros Hx. apply Hk in Hx. apply in_map_iff in Hx as (b & <- & Hb). eauto.
    - intros b Hb. destruct (Ha b Hb) as (_ & Eo & Ed & _). exists [], []. repeat split; auto.
  Qed.

  Definition block_map := fold_left (fun m (b : block T) => map_put (b_id b) b m) bs [].
  Lemma block_map_spec : keys_sorted block_map /\ (forall k b, In (k, b) block_map -> In b bs /\ k = b_id b) /\ (forall b, In b bs -> In (b_id b, b) block_map).
  Proof.
    assert (G : forall l m, incl l bs -> keys_sorted m -> (forall k b, assoc Nat.eqb k m = Some b -> In b bs /\ k = b_id b) ->
      let r := fold_left (fun m (b : block T) => map_put (b_id b) b m) l m in
      keys_sorted r /\ (forall k b, assoc Nat.eqb k r = Some b -> In b bs /\ k = b_id b) /\
      (forall b, In b bs -> In b l \/ assoc Nat.eqb (b_id b) m = Some b -> assoc Nat.eqb (b_id b) r = Some b)).
    { induction l as [|x l IH]; intros m Hi Hm Hp; cbn [fold_left].
      - cbn. split; auto. split; auto. intros b Hb [[]|H]; auto.
      - assert (Hx : In x bs) by (apply Hi; now left).
        assert (Hi' : incl l bs) by (intros y Hy; apply Hi; now right).
        assert (Hm' : keys_sorted (map_put (b_id x) x m)) by now apply put_sorted.
        destruct (IH (map_put (b_id x) x m) Hi' Hm') as (A & B & C).
        { intros k b. rewrite assoc_put. destruct (Nat.eqb_spec k (b_id x)) as [->|]; [intros [= <-]; auto|auto]. }
        cbn. split; auto. split; auto. intros b Hb [[->|Hl]|Ha]; apply C; auto; right; rewrite assoc_put.
        + now rewrite Nat.eqb_refl.
        + destruct (Nat.eqb_spec (b_id b) (b_id x)) as [E|]; auto. f_equal. symmetry. now apply ids_unique. }
    destruct (G bs [] (fun x H => H) (SSorted_nil _)) as (A & B & C); [discriminate|]. fold block_map in A, B, C. split; auto. split.
    - intros k b Hin. apply assoc_in_nat in Hin; auto.
    - intros b Hb. apply assoc_in_nat; auto.
  Qed.

  (** What the set-up of a block achieves. *)
  Definition set_up (d : elem_data T) (os : list (nat * offsets)) (b : block T) : Prop := exists v lo ld o,
    assoc Nat.eqb (b_id b) (ed_n d) = Some v /\ assoc Nat.eqb (b_id b) (ed_np1 d) = Some v /\ length v = b_size b /\
    (forall e i q, e < length (b_elems b) -> i < b_nip b -> valid (b_labels b) q ->
       stored v (b_nip b) (b_labels b) e i q = Some (start_value zero one of_int b e i q)) /\
    assoc Nat.eqb (b_id b) (ed_labels d) = Some (all_labels (b_nip b) (b_labels b)) /\
    assoc Nat.eqb (b_id b) (ed_out d) = Some lo /\ assoc Nat.eqb (b_id b) (ed_derived d) = Some ld /\
    Forall (out_label b) lo /\ Forall (derived_label b) ld /\
    assoc Nat.eqb (b_id b) os = Some o /\
    determine_data_offsets 3 (b_nip b) (b_labels b) (all_labels (b_nip b) (b_labels b)) ld = Ok o.

  Lemma setup_loop d2 : ready bs d2 -> (forall b, In b bs ->
      assoc Nat.eqb (b_id b) (ed_labels d2) = Some (all_labels (b_nip b) (b_labels b)) /\
      assoc Nat.eqb (b_id b) (ed_n d2) = Some (repeat zero (b_size b)) /\ assoc Nat.eqb (b_id b) (ed_np1 d2) = Some (repeat zero (b_size b))) ->
    exists d os, ofold (fun (s : elem_data T * list (nat * offsets)) kb =>
      do r <- setup_block zero one of_int (fst s) (snd kb);
      Ok (fst r, map_put (fst kb) (snd r) (snd s))) block_map (d2, []) = Ok (d, os) /\ (forall b, In b bs -> set_up d os b) /\
      ed_dim d = ed_dim d2 /\ ed_fields d = ed_fields d2 /\ ed_labels d = ed_labels d2 /\ ed_out d = ed_out d2 /\ ed_derived d = ed_derived d2 /\ ed_node_out d = ed_node_out d2.
  Proof.
    intros Hr Ha. destruct block_map_spec as (Hs & Hin & Hall).
    assert (Hndk : NoDup (map fst block_map)).
    { unfold keys_sorted in Hs. clear - Hs. induction Hs as [|x l Hs IH Hf]; constructor; auto. intros H. rewrite Forall_forall in Hf. apply Hf in H. lia. }
    destruct (@ofold_ind _ _ (fun pre (s : elem_data T * list (nat * offsets)) => let d := fst s in
        (ed_dim d = ed_dim d2 /\ ed_fields d = ed_fields d2 /\ ed_labels d = ed_labels d2 /\ ed_out d = ed_out d2 /\ ed_derived d = ed_derived d2 /\ ed_node_out d = ed_node_out d2) /\
        forall b, In b bs -> (In (b_id b) (map fst pre) -> set_up d (snd s) b) /\
          (~ In (b_id b) (map fst pre) -> assoc Nat.eqb (b_id b) (ed_n d) = Some (repeat zero (b_size b)) /\ assoc Nat.eqb (b_id b) (ed_np1 d) = Some (repeat zero (b_size b))))
      (fun (s : elem_data T * list (nat * offsets)) kb =>
        do r <- setup_block zero one of_int (fst s) (snd kb); Ok (fst r, map_put (fst kb) (snd r) (snd s))) block_map (d2, [])) as ((d & os) & E & HP1 & HP2).
    - cbn [fst]. split; [repeat split|]. intros b Hb. split; [intros []|]. intros _. apply Ha; auto.
    - intros pre (k & b) post (d & os) El (Hsame & HP). cbn [fst snd] in *.
      destruct (Hin k b) as (Hb & ->). { rewrite El. apply in_or_app. right. now left. }
      rewrite El, map_app in Hndk. cbn [map fst] in Hndk. apply NoDup_remove_2 in Hndk.
      assert (Hnew : ~ In (b_id b) (map fst pre)) by (intros H; apply Hndk, in_or_app; auto).
      destruct (HP b Hb) as (_ & Hu). destruct (Hu Hnew) as (En & Enp1). destruct Hsame as (S1 & S2 & S3 & S4 & S5 & S6).
      destruct (Ha b Hb) as (Elab & _). destruct (rd_out Hr b Hb) as (lo & ld & Eo & Ed & Fo & Fd).
      unfold setup_block, at_key. rewrite En, Enp1, S3, Elab, S5, Ed. cbn [obind].
      destruct (@init_spec T zero one of_int b (Hgood _ Hb) (fun s Hsn => Hipt b s Hb Hsn) (proj2 (Hnip b Hb)) (repeat zero (b_size b)) (repeat zero (b_size b)))
        as (v & Ev & Lv & Hv); try (rewrite repeat_length; reflexivity).
      rewrite Ev. cbn [obind fst snd].
      destruct (@offsets_spec (b_nip b) (b_labels b) ld (Hgood _ Hb) (proj1 (Hnip b Hb))) as (o & Eoff & _).
      { intros l Hl. rewrite Forall_forall in Fd. apply Fd in Hl. exact Hl. }
      rewrite Eoff. cbn [obind fst snd]. eexists. split; [reflexivity|]. cbn [fst snd ed_dim ed_fields ed_labels ed_out ed_derived ed_node_out]. split; [repeat split; congruence|].
      intros b' Hb'. rewrite map_app. cbn [map fst]. split.
      + intros Hi. destruct (Nat.eq_dec (b_id b') (b_id b)) as [Eq|Ne].
        * apply ids_unique in Eq; auto. subst b'. exists v, lo, ld, o. cbn. rewrite !assoc_put, !Nat.eqb_refl, S4.
          split; [reflexivity|]. split; [reflexivity|]. split; [exact Lv|]. split; [exact Hv|]. rewrite ?S3, ?S5. repeat split; auto.
        * destruct (HP b' Hb') as (Hp & _). destruct Hp as (v' & lo' & ld' & o' & W).
          { apply in_app_or in Hi as [Hi|[Hi|[]]]; auto. congruence. }
          exists v', lo', ld', o'. cbn. rewrite !assoc_put. apply Nat.eqb_neq in Ne. rewrite !Ne, <- S3, <- S5. exact W.
      + intros Hn. destruct (HP b' Hb') as (_ & Hp). cbn. rewrite !assoc_put.
        destruct (Nat.eqb_spec (b_id b') (b_id b)) as [Eq|Ne]; [exfalso; apply Hn, in_or_app; right; left; auto|]. apply Hp. intros H. apply Hn, in_or_app. auto.
    - exists d, os. split; [exact E|]. cbn [fst snd] in *. split; auto. intros b Hb. apply HP2; auto. apply in_map_iff. exists (b_id b, b). auto.
  Qed.

  Lemma initialize_ok request :
    (exists d os, initialize_blocks zero one of_int fresh bs request = Ok (d, os) /\ forall b, In b bs -> set_up d os b) \/
    initialize_blocks zero one of_int fresh bs request = Abort.
  Proof.
    destruct allocate_ok as (d1 & d2 & E1 & E2 & Hr & Ha & _). unfold initialize_blocks. rewrite E1. cbn [obind]. fold counts. rewrite E2. cbn [obind].
    destruct (@specify_ok T bs ids_unique d2 request Hr) as [(d3 & -> & Hst)| ->]; [|now right]. left. cbn [obind]. fold block_map.
    assert (Hr3 : ready bs d3) by (eapply stays_ready; eauto).
    destruct (@setup_loop d3 Hr3) as (d & os & E & H & _).
    - intros b Hb. destruct (Ha b Hb) as (A & _ & _ & B & C). destruct Hst as ((_ & _ & _ & _ & -> & -> & ->) & _). auto.
    - exists d, os. auto.
  Qed.
  Lemma initialize_plain : exists d os, initialize_blocks zero one of_int fresh bs [] = Ok (d, os).
  Proof.
    destruct (initialize_ok []) as [(d & os & H & _)|H]; [eauto|]. exfalso.
    destruct allocate_ok as (d1 & d2 & E1 & E2 & Hr & Ha & _). unfold initialize_blocks in H. rewrite E1 in H. cbn [obind] in H. fold counts in H. rewrite E2 in H. cbn [obind] in H.
    unfold specify_output_fields in H. rewrite (rd_dim Hr) in H. destruct (@collect_ok T bs _ (rd_fields Hr)) as (ll & E & _). rewrite E in H. cbn [obind split_blank ofold] in H.
    fold block_map in H. destruct (@setup_loop d2 Hr) as (d & os & E' & _).
    - intros b Hb. destruct (Ha b Hb) as (A & _ & _ & B & C). auto.
    - rewrite E' in H. discriminate.
  Qed.
End Setup.
