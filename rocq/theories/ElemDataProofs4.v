(** Registration and allocation of element data. *)
From Verif Require Import Base ListLemmas Strings DataModel DataSpec DataProofs Loops ElemDataModel ElemDataSpec ElemDataModel2 ElemDataProofs ElemDataProofs2.
From Coq Require Import NArith Sorted.
Set Implicit Arguments.
Local Open Scope nat_scope.
Local Open Scope list_scope.
Local Notation length := List.length.

(** ** std::map with natural keys *)
Definition keys_sorted {V} (m : list (nat * V)) : Prop := StronglySorted lt (map fst m).
Lemma assoc_put {V} k (v : V) m k' : assoc Nat.eqb k' (map_put k v m) = if k' =? k then Some v else assoc Nat.eqb k' m.
Proof.
  destruct (Nat.eqb_spec k' k) as [->|Hne]; [|now apply assoc_map_put_other].
  rewrite assoc_map_put by auto. now rewrite Nat.eqb_refl.
Qed.
Lemma put_keys {V} k (v : V) m x : In x (map fst (map_put k v m)) <-> x = k \/ In x (map fst m).
Proof.
  induction m as [|(a & w) m IH]; cbn [map_put map fst In]; [intuition|].
  destruct (k <? a); cbn [map fst In]; [intuition|]. destruct (Nat.eqb_spec k a) as [->|]; cbn [map fst In]; [intuition|].
  rewrite IH. intuition.
Qed.
Lemma put_sorted {V} k (v : V) m : keys_sorted m -> keys_sorted (map_put k v m).
Proof.
  unfold keys_sorted. induction m as [|(a & w) m IH]; cbn [map_put map fst]; intros H; [repeat constructor|].
  inversion H as [|? ? Hs Hf]; subst. destruct (Nat.ltb_spec k a); cbn [map fst].
  - constructor; auto. constructor; auto. eapply Forall_impl; [|exact Hf]. cbn. lia.
  - destruct (Nat.eqb_spec k a) as [->|Hne]; cbn [map fst]; [constructor; auto|]. constructor; auto.
    apply Forall_forall. intros x Hx. apply put_keys in Hx. destruct Hx as [->|Hx]; [lia|]. rewrite Forall_forall in Hf. auto.
Qed.
Lemma assoc_in_nat {V} (m : list (nat * V)) k v : keys_sorted m -> (In (k, v) m <-> assoc Nat.eqb k m = Some v).
Proof.
  unfold keys_sorted. induction m as [|(a & w) m IH]; cbn [map fst In assoc]; intros H; [intuition discriminate|].
  inversion H as [|? ? Hs Hf]; subst. destruct (Nat.eqb_spec k a) as [->|Hne].
  - split; [|intros [= ->]; auto]. intros [[= ->]|Hin]; auto. exfalso.
    rewrite Forall_forall in Hf. apply (in_map fst) in Hin. apply Hf in Hin. cbn in Hin. lia.
  - rewrite <- IH by auto. split; [intros [[= ? ?]|?]; [congruence|auto]|auto].
Qed.
Lemma list_at_put {V} k (v : list V) m k' : list_at k' (map_put k v m) = if k' =? k then v else list_at k' m.
Proof. unfold list_at. rewrite assoc_put. now destruct (k' =? k). Qed.

(** ** Lower case *)
Lemma tolower_digit c : is_digit c = true -> tolower_char c = c.
Proof.
  unfold is_digit, tolower_char. intros H. apply andb_prop in H as [H1 H2].
  destruct (65 <=? N_of_ascii c)%N eqn:E; cbn [andb]; auto. lia.
Qed.
Lemma tolower_digits l : Forall (fun c => is_digit c = true) l -> tolower l = l.
Proof. induction 1 as [|c l Hc _ IH]; [reflexivity|]. unfold tolower in *. cbn [map]. now rewrite tolower_digit, IH. Qed.
Lemma tolower_app a b : tolower (a ++ b) = tolower a ++ tolower b.
Proof. apply map_app. Qed.
Lemma tolower_prefix l n : tolower (add_ipt_prefix l (Z.of_N n)) = add_ipt_prefix (tolower l) (Z.of_N n).
Proof. rewrite !add_ipt_form, !tolower_app, (tolower_digits (digits_of_digits n)). reflexivity. Qed.

Section Register.
  Context {T : Type} (zero : T).
  Variable bs : list (block T).
  Hypothesis Hgood : forall b, In b bs -> good_states (b_labels b).
  Hypothesis Hcase : case_consistent bs.

  Definition wanted (l : chars) (len : length_t) : Prop :=
    exists b i x, In b bs /\ In (x, len) (material_labels (b_labels b)) /\ l = add_ipt_prefix x (Z.of_nat (i + 1)).
  Lemma material_label_cases (b : block T) x len : In (x, len) (material_labels (b_labels b)) ->
    (x = lit "deformation_gradient" /\ len = FULL_TENSOR) \/ (x = lit "stress" /\ len = SYMMETRIC_TENSOR) \/ (In x (b_labels b) /\ len = SCALAR).
  Proof.
    intros [E|[E|H]]; [left|right; left|right; right].
    - apply pair_equal_spec in E as [<- <-]. auto.
    - apply pair_equal_spec in E as [<- <-]. auto.
    - apply in_map_iff in H as (s & E & Hs). apply pair_equal_spec in E as [<- <-]. auto.
  Qed.
  Lemma wanted_unique l len l' len' : wanted l len -> wanted l' len' -> tolower l = tolower l' -> l = l' /\ len = len'.
  Proof.
    intros (b & i & x & Hb & Hx & ->) (b' & i' & x' & Hb' & Hx' & ->). rewrite !Z_N_ipt, !tolower_prefix. intros E.
    apply add_prefix_inj in E as [E Ei]. apply Nat2N.inj in Ei.
    assert (G : x = x' /\ len = len').
    { destruct (Hgood _ Hb) as (_ & Hr & _). destruct (Hgood _ Hb') as (_ & Hr' & _).
      apply material_label_cases in Hx. apply material_label_cases in Hx'.
      destruct Hx as [[-> ->]|[[-> ->]|[Hx ->]]], Hx' as [[-> ->]|[[-> ->]|[Hx' ->]]]; try (now split); try (exfalso; discriminate E).
      - exfalso. apply (proj1 (Hr' _ Hx')). now rewrite <- E.
      - exfalso. apply (proj2 (Hr' _ Hx')). now rewrite <- E.
      - exfalso. apply (proj1 (Hr _ Hx)). now rewrite E.
      - exfalso. apply (proj2 (Hr _ Hx)). now rewrite E.
      - split; auto. eapply Hcase; [exact Hb|exact Hb'|exact Hx|exact Hx'|exact E]. }
    destruct G as [-> ->]. rewrite Ei. auto.
  Qed.

  (** Every field in the table is a node field or one the blocks want. *)
  Definition table_good (t : list (nat * field)) : Prop :=
    table_ok t /\ forall k f, In (k, f) t ->
      (f_relation f = NODE /\ starts_with (lit "ipt") (tolower (f_label f)) = false) \/ (f_relation f = ELEMENT /\ wanted (f_label f) (f_length f)).
  Lemma table_assoc t k f : table_ok t -> (In (k, f) t <-> assoc Nat.eqb k t = Some f).
  Proof.
    intros Ht. apply assoc_in_nat. unfold keys_sorted. rewrite (to_keys Ht). apply StronglySorted_seq.
  Qed.
  Lemma wanted_ipt l len : wanted l len -> starts_with (lit "ipt") (tolower l) = true.
  Proof. intros (b & i & x & _ & _ & ->). rewrite Z_N_ipt, tolower_prefix, add_ipt_form. apply starts_with_app. Qed.
  Lemma assign_wanted t l len : table_good t -> wanted l len ->
    exists t' id, assign_field_id t l ELEMENT len = Ok (t', id) /\ table_good t' /\
      assoc Nat.eqb id t' = Some (Field id l ELEMENT len) /\ (forall k f, assoc Nat.eqb k t = Some f -> assoc Nat.eqb k t' = Some f).
  Proof.
    intros (Ht & Hg) Hw. pose proof (@assign_spec t l ELEMENT len Ht) as Ha.
    destruct (find_field (tolower l) t) as [f|] eqn:E.
    - apply find_field_spec in E as (k & Hin & El). destruct (Hg _ _ Hin) as [[_ Hn]|[Hr Hwf]].
      + exfalso. rewrite El, (wanted_ipt Hw) in Hn. discriminate.
      + destruct (wanted_unique Hwf Hw El) as [El2 Elen]. exists t, (f_id f). split; [apply Ha; congruence|]. split; [now split|].
        split; auto. rewrite (to_ids Ht _ _ Hin). apply table_assoc; auto.
        replace (Field k l ELEMENT len) with f; auto. destruct f as [i lab r n]. cbn in *. rewrite <- El2, <- Elen, Hr.
        f_equal. now apply (to_ids Ht) in Hin.
    - exists (t ++ [(length t, Field (length t) l ELEMENT len)]), (length t). split; [exact Ha|].
      pose proof (table_ok_snoc _ ELEMENT len Ht E) as Ht'. split; [|split].
      + split; auto. intros k f Hin. apply in_app_or in Hin as [Hin|[[= <- <-]|[]]]; [eapply Hg; eauto|]. right. now split.
      + apply table_assoc; auto. apply in_or_app. right. now left.
      + intros k f Hk. apply table_assoc; auto. apply table_assoc in Hk; auto. apply in_or_app. now left.
  Qed.

  Definition registered (t : list (nat * field)) (id : nat) (e : chars * length_t) : Prop :=
    assoc Nat.eqb id t = Some (Field id (fst e) ELEMENT (snd e)).
  Lemma declare_fold bid entries : forall t m, table_good t -> keys_sorted m -> Forall (fun e => wanted (fst e) (snd e)) entries ->
    In bid (map fst m) ->
    exists t' m' ids, ofold (fun (s : list (nat * field) * list (nat * list nat)) e =>
              do a <- assign_field_id (fst s) (fst e) ELEMENT (snd e);
              Ok (fst a, map_put bid (list_at bid (snd s) ++ [snd a]) (snd s))) entries (t, m) = Ok (t', m') /\
      table_good t' /\ keys_sorted m' /\ (forall k f, assoc Nat.eqb k t = Some f -> assoc Nat.eqb k t' = Some f) /\
      list_at bid m' = list_at bid m ++ ids /\ Forall2 (registered t') ids entries /\
      (forall x, x <> bid -> assoc Nat.eqb x m' = assoc Nat.eqb x m) /\
      (forall x, In x (map fst m') <-> In x (map fst m)).
  Proof.
    induction entries as [|e entries IH]; intros t m Ht Hm Hw Hk.
    - exists t, m, []. cbn. rewrite app_nil_r. split; [reflexivity|]. split; [auto|]. split; [auto|]. split; [auto|].
      split; [auto|]. split; [constructor|]. split; [auto|]. tauto.
    - inversion Hw as [|? ? Hw1 Hw2]; subst. destruct (assign_wanted Ht Hw1) as (t1 & id & E1 & Ht1 & Hid & Hext).
      cbn [ofold fst snd]. rewrite E1. cbn [obind fst snd].
      destruct (IH t1 (map_put bid (list_at bid m ++ [id]) m)) as (t2 & m2 & ids & E2 & Ht2 & Hm2 & Hext2 & Hl & Hf & Ho & Hkk); auto using put_sorted.
      { apply put_keys. now left. }
      exists t2, m2, (id :: ids). split; [exact E2|]. split; [auto|]. split; [auto|]. split; [auto|].
      split. { rewrite Hl, list_at_put, Nat.eqb_refl, <- app_assoc. reflexivity. }
      split. { constructor; auto. unfold registered. now apply Hext2. }
      split. { intros x Hx. rewrite Ho by auto. rewrite assoc_put. apply Nat.eqb_neq in Hx. now rewrite Hx. }
      intros x. rewrite Hkk, put_keys. split; [intros [->|?]; auto|auto].
  Qed.

  (** One block's declaration *)
  Lemma declare_block (d : elem_data T) b : In b bs -> table_good (ed_fields d) -> keys_sorted (ed_block_fields d) ->
    assoc Nat.eqb (b_id b) (ed_block_fields d) = None ->
    exists t' m' ids, declare_element_data d (b_id b) (data_labels_and_lengths (b_nip b) (b_labels b)) =
        Ok (ED (ed_dim d) t' m' (ed_block_ids d) (ed_labels d) (ed_out d) (ed_derived d) (ed_node_out d) (ed_n d) (ed_np1 d)) /\
      table_good t' /\ keys_sorted m' /\ (forall k f, assoc Nat.eqb k (ed_fields d) = Some f -> assoc Nat.eqb k t' = Some f) /\
      assoc Nat.eqb (b_id b) m' = Some ids /\ Forall2 (registered t') ids (data_labels_and_lengths (b_nip b) (b_labels b)) /\
      (forall x, x <> b_id b -> assoc Nat.eqb x m' = assoc Nat.eqb x (ed_block_fields d)).
  Proof.
    intros Hb Ht Hm Hn. unfold declare_element_data. rewrite Hn.
    destruct (@declare_fold (b_id b) (data_labels_and_lengths (b_nip b) (b_labels b)) (ed_fields d) (map_put (b_id b) [] (ed_block_fields d)))
      as (t' & m' & ids & E & H1 & H2 & H3 & H4 & H5 & H6 & H7); auto using put_sorted.
    { apply Forall_forall. intros e He. apply in_flat_map in He as (i & _ & He). apply in_map_iff in He as ((x & len) & <- & Hx).
      exists b, i, x. auto. }
    { apply put_keys. now left. }
    exists t', m', ids. rewrite E. cbn [obind fst snd]. split; [reflexivity|]. split; [auto|]. split; [auto|]. split; [auto|].
    split.
    { rewrite list_at_put, Nat.eqb_refl in H4. cbn in H4. unfold list_at in H4.
      destruct (assoc Nat.eqb (b_id b) m') as [v|] eqn:Ev; [congruence|].
      exfalso. assert (Hin : In (b_id b) (map fst m')) by (apply H7, put_keys; now left).
      apply in_map_iff in Hin as ((k & v) & Ek & Hin). cbn in Ek. subst k. apply assoc_in_nat in Hin; auto. congruence. }
    split; auto. intros x Hx. rewrite H6 by auto. rewrite assoc_put. apply Nat.eqb_neq in Hx. now rewrite Hx.
  Qed.

  Definition has_ids (d : elem_data T) (b : block T) : Prop :=
    exists ids, assoc Nat.eqb (b_id b) (ed_block_fields d) = Some ids /\ Forall2 (registered (ed_fields d)) ids (data_labels_and_lengths (b_nip b) (b_labels b)).
  Lemma declare_all_spec l : forall d : elem_data T, incl l bs -> table_good (ed_fields d) -> keys_sorted (ed_block_fields d) ->
    NoDup (map (@b_id T) l) -> (forall b, In b l -> assoc Nat.eqb (b_id b) (ed_block_fields d) = None) ->
    exists d', declare_all d l = Ok d' /\ table_good (ed_fields d') /\ keys_sorted (ed_block_fields d') /\
      ed_dim d' = ed_dim d /\ ed_block_ids d' = ed_block_ids d /\ ed_labels d' = ed_labels d /\ ed_out d' = ed_out d /\
      ed_derived d' = ed_derived d /\ ed_node_out d' = ed_node_out d /\ ed_n d' = ed_n d /\ ed_np1 d' = ed_np1 d /\
      (forall b, In b l -> has_ids d' b) /\
      (forall x, ~ In x (map (@b_id T) l) -> assoc Nat.eqb x (ed_block_fields d') = assoc Nat.eqb x (ed_block_fields d)) /\
      (forall k f, assoc Nat.eqb k (ed_fields d) = Some f -> assoc Nat.eqb k (ed_fields d') = Some f).
  Proof.
    induction l as [|b l IH]; intros d Hi Ht Hm Hnd Hfresh.
    - exists d. split; [reflexivity|]. do 10 (split; [auto|]). split; [intros ? []|]. auto.
    - cbn [map] in Hnd. inversion Hnd as [|? ? Hni Hnd']; subst.
      destruct (@declare_block d b) as (t1 & m1 & ids & E & H1 & H2 & H3 & H4 & H5 & H6); auto.
      { apply Hi. now left. } { apply Hfresh. now left. }
      unfold declare_all. cbn [ofold]. rewrite E. cbn [obind].
      set (d1 := ED _ _ _ _ _ _ _ _ _ _) in *.
      destruct (IH d1) as (d2 & E2 & G1 & G2 & G3 & G4 & G5 & G6 & G7 & G8 & G9 & G10 & G11 & G12 & G13); auto.
      { intros x Hx. apply Hi. now right. }
      { intros b' Hb'. cbn. rewrite H6. apply Hfresh; now right. intros E'. apply Hni. rewrite <- E'. now apply in_map. }
      exists d2. unfold declare_all in E2. split; [exact E2|]. split; [auto|]. split; [auto|].
      do 8 (split; [assumption|]). split; [|split].
      + intros b' [<-|Hb']; [|auto]. exists ids. rewrite G12 by auto. split; [exact H4|].
        clear - H5 G13. unfold d1 in G13. cbn [ed_fields] in G13. induction H5; constructor; auto. unfold registered in *. auto.
      + intros x Hx. cbn [map In] in Hx. rewrite G12 by tauto. cbn. apply H6. intros ->. tauto.
      + intros k f Hk. apply G13. cbn. auto.
  Qed.

  (** ** Allocation *)
  Lemma prefix_components l len i : get_component_labels (add_ipt_prefix l (Z.of_nat (i + 1))) len 3 = map (fun x => add_ipt_prefix x (Z.of_nat (i + 1))) (get_component_labels l len 3).
  Proof.
    unfold get_component_labels. rewrite map_map. apply map_ext. intros s. rewrite Z_N_ipt, !add_ipt_form, <- !app_assoc. reflexivity.
  Qed.
  Lemma point_components states i :
    flat_map (fun e => get_component_labels (fst e) (snd e) 3) (map (fun e => (add_ipt_prefix (fst e) (Z.of_nat (i + 1)), snd e)) (material_labels states)) =
    map (point_label states i) (quantities (length states)).
  Proof.
    rewrite flat_map_concat_map, map_map. cbn [fst snd]. unfold material_labels, quantities. rewrite !map_app. cbn [map fst snd].
    rewrite concat_app. cbn [List.concat]. rewrite !prefix_components, app_nil_r, <- app_assoc. f_equal. f_equal.
    rewrite !map_map. cbn [fst snd].
    transitivity (map (fun s => add_ipt_prefix s (Z.of_nat (i + 1))) states).
    - induction states as [|s states IHs]; [reflexivity|]. cbn [map List.concat fst snd]. rewrite IHs.
      unfold get_component_labels. cbn [map app component_suffixes]. now rewrite app_nil_r.
    - unfold point_label. cbn [plain_label]. clear. 
      rewrite <- (map_map (fun k => nth k states []) (fun s => add_ipt_prefix s (Z.of_nat (i + 1)))). f_equal.
      apply nth_ext with (d := []) (d' := []); [now rewrite map_length, seq_length|]. intros k Hk.
      rewrite (nth_indep (map _ _) [] (nth 0 states [])) by now rewrite map_length, seq_length.
      rewrite (map_nth (fun k => nth k states [])), seq_nth by auto. reflexivity.
  Qed.
  Lemma all_components nip states :
    flat_map (fun e => get_component_labels (fst e) (snd e) 3) (data_labels_and_lengths nip states) = all_labels nip states.
  Proof.
    unfold data_labels_and_lengths, all_labels. generalize (seq 0 nip). induction l as [|i l IH]; [reflexivity|].
    cbn [flat_map]. rewrite flat_map_app, IH. f_equal. apply point_components.
  Qed.
  Lemma entries_length l : Forall (fun e : chars * length_t => snd e = FULL_TENSOR \/ snd e = SYMMETRIC_TENSOR \/ snd e = SCALAR) l ->
    exists n, forall ids t a ls, Forall2 (registered t) ids l ->
      ofold (fun (s : nat * list chars) field_id =>
                do f <- at_key field_id t;
                do l <- length_to_int (f_length f) 3;
                Ok (fst s + l, snd s ++ get_component_labels (f_label f) (f_length f) 3)) ids (a, ls) =
      Ok (a + n, ls ++ flat_map (fun e => get_component_labels (fst e) (snd e) 3) l) /\
      n = length (flat_map (fun e => get_component_labels (fst e) (snd e) 3) l).
  Proof.
    induction 1 as [|e l He Hl IH].
    - exists 0. intros ids t a ls H. inversion H; subst. cbn. now rewrite Nat.add_0_r, app_nil_r.
    - destruct IH as (n & IH).
      destruct (length_to_int (snd e) 3) as [k| | |] eqn:Ek; try (destruct He as [He|[He|He]]; rewrite He in Ek; discriminate).
      exists (k + n). intros ids t a ls H. inversion H as [|id ? ids' ? Hr Hf]; subst. cbn [ofold]. unfold at_key at 1.
      unfold registered in Hr. rewrite Hr. cbn [obind f_length f_label fst snd]. rewrite Ek. cbn [obind].
      destruct (IH ids' t (a + k) (ls ++ get_component_labels (fst e) (snd e) 3) Hf) as (E & En). rewrite E. cbn [flat_map].
      rewrite app_length, <- En, (@component_count (snd e) 3 (fst e) k) by auto. rewrite <- app_assoc. split; [f_equal; f_equal; lia|reflexivity].
  Qed.
  Lemma block_fold nip states t ids : Forall2 (registered t) ids (data_labels_and_lengths nip states) ->
    ofold (fun (s : nat * list chars) field_id =>
                do f <- at_key field_id t;
                do l <- length_to_int (f_length f) 3;
                Ok (fst s + l, snd s ++ get_component_labels (f_label f) (f_length f) 3)) ids (0, []) = Ok (per_element nip states, all_labels nip states).
  Proof.
    intros H. destruct (@entries_length (data_labels_and_lengths nip states)) as (n & Hn).
    - apply Forall_forall. intros e He. apply in_flat_map in He as (i & _ & He). apply in_map_iff in He as (x & <- & Hx). cbn [snd].
      unfold material_labels in Hx. apply in_app_or in Hx as [[<-|[<-|[]]]|Hx]; [auto|auto|].
      apply in_map_iff in Hx as (s & <- & _). auto.
    - destruct (Hn ids t 0 [] H) as (E & En). rewrite E, En, all_components. cbn [Nat.add app]. now rewrite all_labels_length.
  Qed.

  Definition allocated (d : elem_data T) (b : block T) : Prop :=
    assoc Nat.eqb (b_id b) (ed_labels d) = Some (all_labels (b_nip b) (b_labels b)) /\
    assoc Nat.eqb (b_id b) (ed_out d) = Some [] /\ assoc Nat.eqb (b_id b) (ed_derived d) = Some [] /\
    assoc Nat.eqb (b_id b) (ed_n d) = Some (repeat zero (b_size b)) /\ assoc Nat.eqb (b_id b) (ed_np1 d) = Some (repeat zero (b_size b)).
  Lemma allocate_fold num F t : forall l (d : elem_data T), ed_dim d = 3 -> ed_fields d = t -> ed_block_fields d = F -> StronglySorted lt (map fst l) ->
    (forall bid ids, In (bid, ids) l -> exists b, In b bs /\ b_id b = bid /\ Forall2 (registered t) ids (data_labels_and_lengths (b_nip b) (b_labels b)) /\
       assoc Nat.eqb bid num = Some (length (b_elems b))) ->
    (forall b b', In b bs -> In b' bs -> b_id b = b_id b' -> b = b') ->
    exists d', ofold (fun d e =>
      let block_id := fst e in
      do r <- ofold (fun (s : nat * list chars) field_id =>
                do f <- at_key field_id (ed_fields d);
                do l <- length_to_int (f_length f) (ed_dim d);
                Ok (fst s + l, snd s ++ get_component_labels (f_label f) (f_length f) (ed_dim d))) (snd e) (0, []);
      do n <- at_key block_id num;
      let array_length := fst r * n in
      Ok (ED (ed_dim d) (ed_fields d) (ed_block_fields d) (ed_block_ids d ++ [block_id])
            (map_put block_id (snd r) (ed_labels d)) (map_put block_id [] (ed_out d)) (map_put block_id [] (ed_derived d))
            (ed_node_out d)
            (map_put block_id (repeat zero array_length) (ed_n d)) (map_put block_id (repeat zero array_length) (ed_np1 d)))) l d = Ok d' /\
      ed_dim d' = 3 /\ ed_fields d' = t /\ ed_block_fields d' = F /\ ed_node_out d' = ed_node_out d /\ ed_block_ids d' = ed_block_ids d ++ map fst l /\
      (forall b, In b bs -> In (b_id b) (map fst l) -> allocated d' b) /\
      (forall b, In b bs -> ~ In (b_id b) (map fst l) -> allocated d b -> allocated d' b) /\
      (keys_sorted (ed_labels d) -> keys_sorted (ed_labels d')) /\ (forall x, In x (map fst (ed_labels d')) <-> In x (map fst (ed_labels d)) \/ In x (map fst l)).
  Proof.
    induction l as [|(bid & ids) l IH]; intros d Hdim Ht HF Hs Hl Hu.
    - exists d. cbn [ofold map]. rewrite app_nil_r. split; [reflexivity|]. do 5 (split; [auto|]).
      split; [intros ? ? []|]. split; [auto|]. split; [auto|]. cbn. tauto.
    - cbn [map fst] in Hs. inversion Hs as [|? ? Hs' Hlt]; subst.
      destruct (Hl bid ids) as (b & Hb & <- & Hr & Hnum); [now left|].
      cbn [ofold fst snd]. rewrite Hdim. rewrite (block_fold _ _ Hr). cbn [obind]. unfold at_key at 1. rewrite Hnum. cbn [obind fst snd].
      match goal with |- context [ofold _ l ?x] => set (d1 := x) end.
      destruct (IH d1) as (d2 & E & G1 & G2 & G3 & G4 & G5 & G6 & G7 & G8 & G9); auto.
      { intros bid' ids' Hin. apply Hl. now right. }
      assert (Hfresh : ~ In (b_id b) (map fst l)).
      { intros Hin. rewrite Forall_forall in Hlt. apply Hlt in Hin. lia. }
      assert (A1 : allocated d1 b).
      { unfold allocated, d1. cbn. rewrite !assoc_put, !Nat.eqb_refl. replace (per_element (b_nip b) (b_labels b) * length (b_elems b)) with (b_size b) by (unfold b_size; lia). repeat split. }
      exists d2. split; [exact E|]. split; [auto|]. split; [auto|]. split; [auto|]. split; [auto|].
      split. { rewrite G5. unfold d1. cbn [ed_block_ids map fst]. now rewrite <- app_assoc. }
      split; [|split; [|split]].
      + intros b' Hb' [Heq|Hin]; [|now apply G6]. assert (b = b') by (apply Hu; auto). subst b'. apply G7; auto.
      + intros b' Hb' Hn Ha. cbn [map fst In] in Hn. apply G7; auto.
        unfold allocated, d1 in *. cbn. rewrite !assoc_put. destruct (Nat.eqb_spec (b_id b') (b_id b)) as [Heq|]; [exfalso; apply Hn; auto|exact Ha].
      + intros Hk. apply G8. unfold d1. cbn. now apply put_sorted.
      + intros x. rewrite G9. unfold d1. cbn [ed_labels map fst In]. rewrite put_keys. intuition congruence.
  Qed.
End Register.
