(** Proofs about labels, component labels and the field table. *)
From Verif Require Import Base ListLemmas Strings DataModel DataSpec.
From Coq Require Import NArith.
Local Open Scope nat_scope.
Local Open Scope list_scope.
Set Implicit Arguments.

(** ** Integration point labels *)
Definition digits_of (n : N) : chars :=
  if List.length (dec n) =? 1 then digit 0 :: dec n else dec n.

Lemma add_ipt_form label n :
  add_ipt_prefix label (Z.of_N n) = lit "ipt" ++ digits_of n ++ lit "_" ++ label.
Proof.
  unfold add_ipt_prefix, digits_of.
  assert (E : show_int (Z.of_N n) = dec n).
  { destruct n; simpl; auto. }
  rewrite E. destruct (List.length (dec n) =? 1); reflexivity.
Qed.

Lemma digits_of_digits n : Forall (fun c => is_digit c = true) (digits_of n).
Proof.
  unfold digits_of. pose proof (dec_digits n).
  destruct (List.length (dec n) =? 1); auto.
Qed.
Lemma undec_digits_of n : undec (digits_of n) = n.
Proof.
  unfold digits_of. destruct (List.length (dec n) =? 1).
  - rewrite undec_zero. apply undec_dec.
  - apply undec_dec.
Qed.

Lemma take_digits_prefix n label :
  take_digits (digits_of n ++ lit "_" ++ label) = digits_of n.
Proof. apply take_digits_app; [apply digits_of_digits|reflexivity]. Qed.

Lemma skipn_ipt s : skipn 3 (lit "ipt" ++ s) = s.
Proof. reflexivity. Qed.

Lemma remove_add label n : remove_ipt_prefix (add_ipt_prefix label (Z.of_N n)) = Ok label.
Proof.
  rewrite add_ipt_form. unfold remove_ipt_prefix. rewrite starts_with_app, skipn_ipt, take_digits_prefix.
  unfold substr_from. rewrite !app_length.
  replace (1 + List.length (digits_of n) <=? _) with true.
  2:{ symmetry. apply Nat.leb_le. simpl. lia. }
  f_equal. rewrite skipn_app, skipn_all2 by lia.
  replace (1 + List.length (digits_of n) - List.length (digits_of n)) with 1 by lia. reflexivity.
Qed.

Lemma number_add label n : (n <= INT_MAX)%N ->
  label_to_ipt_number (add_ipt_prefix label (Z.of_N n)) = Ok (Z.of_N n).
Proof.
  intros H. rewrite add_ipt_form. unfold label_to_ipt_number.
  rewrite starts_with_app, skipn_ipt, take_digits_prefix, undec_digits_of.
  do 2 f_equal. lia.
Qed.

Lemma has_add label n : has_ipt_prefix (add_ipt_prefix label (Z.of_N n)) = Ok true.
Proof.
  unfold has_ipt_prefix. rewrite remove_add. simpl. f_equal.
  apply negb_true_iff. destruct (chars_eqb _ _) eqn:E; auto.
  apply chars_eqb_eq in E. apply (f_equal (@List.length _)) in E.
  rewrite add_ipt_form, !app_length in E. simpl in E. lia.
Qed.

Lemma no_prefix label : starts_with (lit "ipt") label = false ->
  remove_ipt_prefix label = Ok label /\ has_ipt_prefix label = Ok false /\
  label_to_ipt_number label = Abort.
Proof.
  intros H. unfold has_ipt_prefix, remove_ipt_prefix, label_to_ipt_number. rewrite H. simpl.
  repeat split. f_equal. apply negb_false_iff. now apply chars_eqb_eq.
Qed.

(** ** Component labels *)
Definition dim_ok (dim : nat) := dim = 2 \/ dim = 3.

Lemma component_count len dim label n : length_to_int len dim = Ok n ->
  List.length (get_component_labels label len dim) = n.
Proof.
  intros H. unfold get_component_labels. rewrite map_length.
  assert (D : dim_ok dim).
  { unfold length_to_int, dim_ok in *. destruct dim as [|[|[|[|d]]]]; try discriminate; auto. }
  destruct D as [-> | ->]; destruct len; simpl in H; try discriminate;
    injection H as <-; try reflexivity;
    unfold component_suffixes; now rewrite map_length, seq_length.
Qed.

Lemma NoDup_map_inj {A B} (f : A -> B) l : (forall x y, f x = f y -> x = y) -> NoDup l -> NoDup (map f l).
Proof.
  intros Hi H. induction H as [|a l Ha _ IH]; simpl; constructor; auto.
  intros Hin. apply in_map_iff in Hin as (x & E & Hx). apply Hi in E. now subst.
Qed.

Lemma component_distinct len dim label n : length_to_int len dim = Ok n ->
  ~ (len = FULL_TENSOR /\ dim = 2) -> NoDup (get_component_labels label len dim).
Proof.
  intros H Hne. unfold get_component_labels. apply NoDup_map_inj.
  { intros x y E. now apply app_inv_head in E. }
  assert (D : dim_ok dim).
  { unfold length_to_int, dim_ok in *. destruct dim as [|[|[|[|d]]]]; try discriminate; auto. }
  assert (Hlen : forall k, NoDup (component_suffixes (LEN k) dim)).
  { intros k. unfold component_suffixes. apply NoDup_map_inj; [|apply seq_NoDup].
    intros x y E. apply app_inv_head in E. apply dec_inj in E. lia. }
  destruct D as [-> | ->]; destruct len; simpl in H; try discriminate; auto;
    try (exfalso; apply Hne; now split); unfold component_suffixes; simpl;
    repeat (constructor; [simpl; intuition discriminate|]); constructor.
Qed.

(** The two label functions agree on vectors and tensors. *)
Lemma component_agree len dim label n k lab : length_to_int len dim = Ok n ->
  match len with VECTOR | SYMMETRIC_TENSOR | FULL_TENSOR | SCALAR => True | _ => False end ->
  ~ (len = FULL_TENSOR /\ dim = 2) ->
  nth_error (get_component_labels label len dim) k = Some lab ->
  forall ipt, get_component_label label len dim k ipt = Ok (add_ipt_prefix lab ipt).
Proof.
  intros H Hl Hne Hk ipt.
  assert (D : dim_ok dim).
  { unfold length_to_int, dim_ok in *. destruct dim as [|[|[|[|d]]]]; try discriminate; auto. }
  unfold get_component_label.
  destruct D as [-> | ->]; destruct len; try contradiction; simpl in H; try discriminate;
    try (exfalso; apply Hne; now split);
    do 10 (destruct k as [|k]; [simpl in Hk |- *; try discriminate; injection Hk as <-;
                               rewrite ?app_nil_r; reflexivity |]);
    simpl in Hk; destruct k; discriminate.
Qed.

(** ** The field table *)
Record table_ok (t : list (nat * field)) : Prop := {
  to_keys : map fst t = seq 0 (List.length t);
  to_ids : forall k f, In (k, f) t -> f_id f = k;
  to_low : NoDup (map (fun kf => tolower (f_label (snd kf))) t) }.

Lemma map_put_snoc {V} (m : list (nat * V)) a n v : map fst m = seq a n ->
  map_put (a + n) v m = m ++ [(a + n, v)].
Proof.
  revert a n; induction m as [|[k w] m IH]; intros a n H; simpl in *.
  - destruct n; [|discriminate]. reflexivity.
  - destruct n as [|n]; [discriminate|]. simpl in H. injection H as -> H.
    replace (a + S n <? a) with false by (symmetry; apply Nat.ltb_ge; lia).
    replace (a + S n =? a) with false by (symmetry; apply Nat.eqb_neq; lia).
    f_equal. specialize (IH _ _ H). replace (a + S n) with (S a + n) by lia. apply IH.
Qed.

Lemma find_field_spec name t f : find_field name t = Some f ->
  exists k, In (k, f) t /\ tolower (f_label f) = name.
Proof.
  induction t as [|[k g] t IH]; simpl; [discriminate|].
  destruct (chars_eqb name (tolower (f_label g))) eqn:E.
  - intros [= ->]. apply chars_eqb_eq in E. eauto.
  - intros H. destruct (IH H) as (k' & H1 & H2). eauto.
Qed.
Lemma find_field_none name t : find_field name t = None ->
  forall k f, In (k, f) t -> tolower (f_label f) <> name.
Proof.
  induction t as [|[k g] t IH]; simpl; [intros _ ? ? []|].
  destruct (chars_eqb name (tolower (f_label g))) eqn:E; [discriminate|].
  intros H k' f [[= <- <-]|Hin].
  - intros E'. rewrite <- E' in E. assert (chars_eqb (tolower (f_label g)) (tolower (f_label g)) = true) by now apply chars_eqb_eq. congruence.
  - eapply IH; eauto.
Qed.
Lemma find_field_In name t k f : NoDup (map (fun kf => tolower (f_label (snd kf))) t) ->
  In (k, f) t -> tolower (f_label f) = name -> find_field name t = Some f.
Proof.
  induction t as [|[k' g] t IH]; simpl; [intros _ []|].
  intros Hn. inversion Hn as [|? ? Hni Hn']; subst. intros [[= -> ->]|Hin] E.
  - subst. now rewrite (proj2 (chars_eqb_eq _ _) eq_refl).
  - destruct (chars_eqb name (tolower (f_label g))) eqn:E2; [|eauto].
    apply chars_eqb_eq in E2. exfalso. apply Hni. rewrite <- E2, <- E.
    apply in_map_iff. exists (k, f). auto.
Qed.

Lemma assign_spec t label rel len : table_ok t ->
  match find_field (tolower label) t with
  | Some f => (rel, len) = (f_relation f, f_length f) ->
              assign_field_id t label rel len = Ok (t, f_id f)
  | None => assign_field_id t label rel len =
            Ok (t ++ [(List.length t, Field (List.length t) label rel len)], List.length t)
  end.
Proof.
  intros Ht. unfold assign_field_id. destruct (find_field (tolower label) t) as [f|].
  - intros [= -> ->]. destruct (relation_eq_dec _ _); [|congruence].
    destruct (length_eq_dec _ _); congruence.
  - f_equal. f_equal. pose proof (@map_put_snoc _ t 0 (List.length t) (Field (List.length t) label rel len) (to_keys Ht)) as E.
    simpl in E. exact E.
Qed.

Lemma table_ok_snoc t label rel len : table_ok t -> find_field (tolower label) t = None ->
  table_ok (t ++ [(List.length t, Field (List.length t) label rel len)]).
Proof.
  intros [H1 H2 H3] Hf. split.
  - rewrite map_app, app_length, H1. simpl. rewrite Nat.add_1_r, seq_S. reflexivity.
  - intros k f Hin. apply in_app_or in Hin as [Hin|[[= <- <-]|[]]]; eauto.
  - rewrite map_app. simpl. apply NoDup_app_snoc; auto.
    intros Hin. apply in_map_iff in Hin as ([k f] & E & Hin). simpl in E.
    eapply find_field_none; eauto.
Qed.

Lemma get_field_id_some label t k : get_field_id label t = Some k ->
  exists f, In (k, f) t /\ f_label f = label.
Proof.
  induction t as [|[k' g] t IH]; simpl; [discriminate|].
  destruct (chars_eqb (f_label g) label) eqn:E.
  - intros [= <-]. apply chars_eqb_eq in E. eauto.
  - intros H. destruct (IH H) as (f & ? & ?); eauto.
Qed.
Lemma get_field_id_none label t : get_field_id label t = None ->
  forall k f, In (k, f) t -> f_label f <> label.
Proof.
  induction t as [|[k' g] t IH]; simpl; [intros _ ? ? []|].
  destruct (chars_eqb (f_label g) label) eqn:E; [discriminate|].
  intros H k f [[= <- <-]|Hin]; [|eauto].
  intros E'. apply chars_eqb_eq in E'. congruence.
Qed.

(** Requests agreeing up to letter case have the same attributes. *)
Definition consistent (rs : list request) : Prop :=
  forall i j a b, nth_error rs i = Some a -> nth_error rs j = Some b ->
    tolower (rq_label a) = tolower (rq_label b) -> rq_attr a = rq_attr b.

Record history_inv (rs : list request) (t : list (nat * field)) (ids : list nat) : Prop := {
  hi_tab : table_ok t;
  hi_len : List.length ids = List.length rs;
  hi_req : forall i r id, nth_error rs i = Some r -> nth_error ids i = Some id ->
    exists f, In (id, f) t /\ tolower (f_label f) = tolower (rq_label r) /\
              (f_relation f, f_length f) = rq_attr r;
  hi_first : forall id f, In (id, f) t -> exists i r, nth_error rs i = Some r /\ nth_error ids i = Some id /\
    f_label f = rq_label r /\ (forall j, j < i -> nth_error ids j <> Some id) }.

Lemma table_lt t k f : table_ok t -> In (k, f) t -> k < List.length t.
Proof.
  intros [H _ _] Hin. apply (in_map fst) in Hin. simpl in Hin. rewrite H in Hin.
  apply in_seq in Hin. lia.
Qed.

Lemma table_fun t k f g : table_ok t -> In (k, f) t -> In (k, g) t -> f = g.
Proof.
  intros Ht Hf Hg.
  assert (Hn : NoDup (map fst t)) by (rewrite (to_keys Ht); apply seq_NoDup).
  clear Ht. induction t as [|[a b] t IH]; [destruct Hf|]. simpl in Hn. inversion Hn; subst.
  destruct Hf as [Ef|Hf], Hg as [Eg|Hg]; auto; try congruence.
  - exfalso. apply H1. apply in_map_iff. exists (k, g). simpl. split; congruence.
  - exfalso. apply H1. apply in_map_iff. exists (k, f). simpl. split; congruence.
Qed.

Lemma history_step rs t ids r : history_inv rs t ids ->
  (exists f, find_field (tolower (rq_label r)) t = Some f /\
     ((f_relation f, f_length f) = rq_attr r ->
        assign_field_id t (rq_label r) (snd (fst r)) (snd r) = Ok (t, f_id f) /\
        history_inv (rs ++ [r]) t (ids ++ [f_id f])) /\
     ((f_relation f, f_length f) <> rq_attr r ->
        assign_field_id t (rq_label r) (snd (fst r)) (snd r) = Abort)) \/
  (exists t', assign_field_id t (rq_label r) (snd (fst r)) (snd r) = Ok (t', List.length t) /\
     (forall k f, In (k, f) t -> tolower (f_label f) <> tolower (rq_label r)) /\
     history_inv (rs ++ [r]) t' (ids ++ [List.length t])).
Proof.
  intros [Ht Hl Hr Hf].
  pose proof (assign_spec (rq_label r) (snd (fst r)) (snd r) Ht) as Ha.
  destruct (find_field (tolower (rq_label r)) t) as [f|] eqn:E.
  - left. exists f. split; auto. destruct (find_field_spec _ _ E) as (k & Hin & Hlow).
    pose proof (to_ids Ht _ _ Hin) as Hid. split.
    + intros Hattr. split; [apply Ha; rewrite <- Hattr at 1; destruct r as [[? ?] ?]; unfold rq_attr in Hattr; simpl in *; congruence|].
      split; auto.
      * rewrite !app_length. simpl. lia.
      * intros i q id Hi Hid'. apply nth_error_snoc in Hi as [[Hlt Hi]|[-> ->]].
        -- rewrite nth_error_app1 in Hid' by lia. eauto.
        -- rewrite <- Hl, nth_error_snoc_last in Hid'. injection Hid' as <-.
           exists f. rewrite Hid. auto.
      * intros id g Hg. destruct (Hf _ _ Hg) as (i & q & H1 & H2 & H3 & H4).
        assert (i < List.length ids) by (apply nth_error_Some; congruence).
        exists i, q. repeat split; auto.
        -- rewrite nth_error_app1; auto. lia.
        -- rewrite nth_error_app1; auto.
        -- intros j Hj. rewrite nth_error_app1 by lia. auto.
    + intros Hne. unfold assign_field_id. rewrite E.
      destruct (relation_eq_dec _ _) as [e1|]; auto. destruct (length_eq_dec _ _) as [e2|]; auto.
      exfalso. apply Hne. unfold rq_attr. congruence.
  - right. eexists. split; [exact Ha|]. split; [eapply find_field_none; eauto|].
    pose proof (table_ok_snoc (rq_label r) (snd (fst r)) (snd r) Ht E) as Ht'.
    split; auto.
    + rewrite !app_length. simpl. lia.
    + intros i q id Hi Hid'. apply nth_error_snoc in Hi as [[Hlt Hi]|[-> ->]].
      * rewrite nth_error_app1 in Hid' by lia. destruct (Hr _ _ _ Hi Hid') as (f & H1 & H2).
        exists f. split; auto. apply in_or_app. auto.
      * rewrite <- Hl, nth_error_snoc_last in Hid'. injection Hid' as <-.
        eexists. split; [apply in_or_app; right; left; reflexivity|]. simpl. split; auto.
    + intros id g Hg. apply in_app_or in Hg as [Hg|[[= <- <-]|[]]].
      * destruct (Hf _ _ Hg) as (i & q & H1 & H2 & H3 & H4).
        assert (i < List.length ids) by (apply nth_error_Some; congruence).
        exists i, q. repeat split; auto.
        -- rewrite nth_error_app1; auto. lia.
        -- rewrite nth_error_app1; auto.
        -- intros j Hj. rewrite nth_error_app1 by lia. auto.
      * exists (List.length rs), r. rewrite nth_error_snoc_last, <- Hl, nth_error_snoc_last.
        repeat split; auto. intros j Hj. rewrite nth_error_app1 by lia. intros Hc.
        destruct (nth_error rs j) as [q|] eqn:Hq.
        2:{ apply nth_error_None in Hq. lia. }
        destruct (Hr _ _ _ Hq Hc) as (f & Hin & _). pose proof (@table_lt _ _ _ Ht Hin). lia.
Qed.

Lemma register_all_cases rs :
  (consistent rs /\ exists t ids, register_all rs = Ok (t, ids) /\ history_inv rs t ids) \/
  (~ consistent rs /\ register_all rs = Abort).
Proof.
  induction rs as [|r rs IH] using rev_ind.
  - left. split.
    { intros [|?] ? ? ? Hx; discriminate. }
    exists [], []. split; auto. split; simpl; auto; try (intros; contradiction).
    + split; simpl; auto; [intros ? ? []|constructor].
    + intros [|?] ? ? Hx; discriminate.
  - unfold register_all in *. rewrite ofold_app. destruct IH as [(Hc & t & ids & E & Hi)|[Hc E]].
    + rewrite E. simpl obind. simpl ofold. destruct (history_step r Hi) as [(f & Hf & H1 & H2)|(t' & H1 & H2 & H3)].
      * assert (Hdec : {(f_relation f, f_length f) = rq_attr r} + {(f_relation f, f_length f) <> rq_attr r}).
        { decide equality; [apply length_eq_dec|apply relation_eq_dec]. }
        destruct Hdec as [Hd|Hd].
        -- left. destruct (H1 Hd) as [Ha Hi']. rewrite Ha. simpl. split; [|eauto].
           intros i j a b Hia Hjb Hlow.
           apply nth_error_snoc in Hia. apply nth_error_snoc in Hjb.
           destruct (find_field_spec _ _ Hf) as (k & Hin & Hlf).
           assert (G : forall i a, nth_error rs i = Some a -> tolower (rq_label a) = tolower (rq_label r) -> rq_attr a = rq_attr r).
           { intros i0 a0 Hi0 El. destruct (nth_error ids i0) as [id|] eqn:Hid.
             2:{ apply nth_error_None in Hid. rewrite (hi_len Hi) in Hid.
                 apply nth_error_None in Hid. congruence. }
             destruct (hi_req Hi _ Hi0 Hid) as (g & Hg & Hgl & Hga).
             pose proof (@find_field_In _ _ _ _ (to_low (hi_tab Hi)) Hg (eq_trans Hgl El)). congruence. }
           destruct Hia as [[_ Hia]|[_ ->]], Hjb as [[_ Hjb]|[_ ->]]; eauto.
           symmetry; eauto.
        -- right. rewrite (H2 Hd). simpl. split; auto. intros Hc'.
           destruct (find_field_spec _ _ Hf) as (k & Hin & Hlf).
           destruct (hi_first Hi _ _ Hin) as (i & q & Hq & Hqi & Hql & _).
           destruct (hi_req Hi _ Hq Hqi) as (g & Hg & Hgl & Hga).
           pose proof (@table_fun _ _ _ _ (hi_tab Hi) Hin Hg) as ->.
           apply Hd. rewrite Hga. apply (Hc' i (List.length rs)); auto using nth_error_snoc_last.
           ++ rewrite nth_error_app1; auto. apply nth_error_Some. congruence.
           ++ congruence.
      * left. rewrite H1. simpl. split; [|eauto].
        assert (G : forall i a, nth_error rs i = Some a -> tolower (rq_label a) = tolower (rq_label r) -> False).
        { intros i0 a0 Hi0 El. destruct (nth_error ids i0) as [id|] eqn:Hid.
          2:{ apply nth_error_None in Hid. rewrite (hi_len Hi) in Hid.
              apply nth_error_None in Hid. congruence. }
          destruct (hi_req Hi _ Hi0 Hid) as (g & Hg & Hgl & Hga). eapply H2; eauto. congruence. }
        intros i j a b Hia Hjb Hlow. apply nth_error_snoc in Hia. apply nth_error_snoc in Hjb.
        destruct Hia as [[_ Hia]|[_ ->]], Hjb as [[_ Hjb]|[_ ->]]; eauto; exfalso; eauto.
    + right. rewrite E. split; auto. intros Hc'. apply Hc. intros i j a b Ha Hb.
      apply (Hc' i j); rewrite nth_error_app1; auto; apply nth_error_Some; congruence.
Qed.
Lemma register_all_inv rs :
  (consistent rs -> exists t ids, register_all rs = Ok (t, ids) /\ history_inv rs t ids) /\
  (~ consistent rs -> register_all rs = Abort).
Proof. destruct (register_all_cases rs) as [[? ?]|[? ?]]; split; tauto. Qed.

(** What the caller sees of a history. *)
Lemma register_all_ids rs : consistent rs ->
  exists t ids, register_all rs = Ok (t, ids) /\ List.length ids = List.length rs /\
    (forall i j a b x y, nth_error rs i = Some a -> nth_error rs j = Some b ->
       nth_error ids i = Some x -> nth_error ids j = Some y ->
       (x = y <-> tolower (rq_label a) = tolower (rq_label b))) /\
    (forall x, In x ids <-> x < List.length t) /\
    (forall label x, get_field_id label t = Some x <->
       exists i a, nth_error rs i = Some a /\ nth_error ids i = Some x /\ rq_label a = label /\
                   forall j, j < i -> nth_error ids j <> Some x) /\
    (forall i a x, nth_error rs i = Some a -> nth_error ids i = Some x ->
       exists f, In (x, f) t /\ f_id f = x /\ (f_relation f, f_length f) = rq_attr a).
Proof.
  intros Hc. destruct (proj1 (register_all_inv rs) Hc) as (t & ids & E & Hi).
  exists t, ids. split; auto. split; [apply Hi|]. split; [|split; [|split]].
  - intros i j a b x y Ha Hb Hx Hy.
    destruct (hi_req Hi _ Ha Hx) as (f & Hf & Hfl & _).
    destruct (hi_req Hi _ Hb Hy) as (g & Hg & Hgl & _). split.
    + intros ->. pose proof (@table_fun _ _ _ _ (hi_tab Hi) Hf Hg) as ->. congruence.
    + intros El. pose proof (@find_field_In _ _ _ _ (to_low (hi_tab Hi)) Hf eq_refl) as F1.
      pose proof (@find_field_In _ _ _ _ (to_low (hi_tab Hi)) Hg eq_refl) as F2.
      assert (f = g) by congruence. subst g.
      rewrite <- (to_ids (hi_tab Hi) _ _ Hf). now apply (to_ids (hi_tab Hi)).
  - intros x. split.
    + intros Hin. apply In_nth_error in Hin as (i & Hx).
      destruct (nth_error rs i) as [a|] eqn:Ha.
      * destruct (hi_req Hi _ Ha Hx) as (f & Hf & _). eapply table_lt; eauto. apply Hi.
      * apply nth_error_None in Ha. rewrite <- (hi_len Hi) in Ha. apply nth_error_None in Ha. congruence.
    + intros Hlt. assert (Hin : In x (map fst t)).
      { rewrite (to_keys (hi_tab Hi)). apply in_seq. lia. }
      apply in_map_iff in Hin as ([k f] & <- & Hf).
      destruct (hi_first Hi _ _ Hf) as (i & a & _ & Hx & _). simpl. eapply nth_error_In; eauto.
  - intros label x. split.
    + intros Hg. apply get_field_id_some in Hg as (f & Hf & Hl).
      destruct (hi_first Hi _ _ Hf) as (i & a & Ha & Hx & Hal & Hmin). exists i, a. repeat split; auto. congruence.
    + intros (i & a & Ha & Hx & Hal & Hmin).
      destruct (hi_req Hi _ Ha Hx) as (f & Hf & Hfl & _).
      destruct (hi_first Hi _ _ Hf) as (i' & a' & Ha' & Hx' & Hal' & Hmin').
      assert (i = i').
      { destruct (Nat.lt_trichotomy i i') as [Hlt|[->|Hlt]]; auto; exfalso; [eapply Hmin'|eapply Hmin]; eauto. }
      subst i'. assert (a' = a) by congruence. subst a'.
      destruct (get_field_id label t) as [y|] eqn:Eg.
      * apply get_field_id_some in Eg as (g & Hg & Hgl). f_equal.
        assert (f = g).
        { pose proof (@find_field_In _ _ _ _ (to_low (hi_tab Hi)) Hf eq_refl) as F1.
          assert (E2 : tolower (f_label g) = tolower (f_label f)) by congruence.
          pose proof (@find_field_In _ _ _ _ (to_low (hi_tab Hi)) Hg E2). congruence. }
        subst g. rewrite <- (to_ids (hi_tab Hi) _ _ Hg). now apply (to_ids (hi_tab Hi)).
      * exfalso. eapply get_field_id_none; eauto. congruence.
  - intros i a x Ha Hx. destruct (hi_req Hi _ Ha Hx) as (f & Hf & _ & Hattr).
    exists f. split; auto. split; auto. eapply to_ids; eauto. apply Hi.
Qed.

(** ** Output of node fields *)
Lemma ofold_skip {A B} (f : A -> B -> outcome A) l a :
  (forall a' b, In b l -> f a' b = Ok a') -> ofold f l a = Ok a.
Proof.
  revert a; induction l as [|b l IH]; intros a H; simpl; auto.
  rewrite (H a b) by (now left). simpl. apply IH. intros; apply H; now right.
Qed.

(** A fold in which only the element b acts, by storing v. *)
Lemma ofold_one {A B} (f : A -> B -> outcome A) l a b v : In b l ->
  (forall a', f a' b = Ok v) -> (forall a' b', In b' l -> b' <> b -> f a' b' = Ok a') ->
  (forall x y : B, {x = y} + {x <> y}) -> ofold f l a = Ok v.
Proof.
  intros Hin Hb Hn Hdec. revert a; induction l as [|c l IH]; intros a; [destruct Hin|]. simpl.
  destruct (in_dec Hdec b l) as [Hl|Hl].
  - destruct (Hdec c b) as [->|Hne].
    + rewrite Hb. simpl. apply IH; auto. intros; apply Hn; auto. now right.
    + rewrite (Hn a c) by (auto; now left). simpl. apply IH; auto. intros; apply Hn; auto. now right.
  - destruct Hin as [->|Hin]; [|contradiction]. rewrite Hb. simpl.
    apply ofold_skip. intros a' b' Hb'. apply Hn; [now right|]. intros ->. contradiction.
Qed.

Lemma omapM_vget {T} (d : T) (data : list T) nc k n : n * nc <= List.length data -> k < nc ->
  omapM (fun i => vget data (i * nc + k)) (seq 0 n) = Ok (map (fun i => nth (i * nc + k) data d) (seq 0 n)).
Proof.
  intros Hn Hk.
  assert (G : forall l, (forall i, In i l -> i < n) ->
     omapM (fun i => vget data (i * nc + k)) l = Ok (map (fun i => nth (i * nc + k) data d) l)).
  { induction l as [|i l IH]; intros Hl; simpl; auto.
    unfold vget at 1. assert (Hi : i < n) by (apply Hl; now left).
    assert (i * nc + k < List.length data) by nia.
    rewrite (nth_error_nth' data d) by auto. simpl. rewrite IH by (intros; apply Hl; now right). reflexivity. }
  apply G. intros i Hi. apply in_seq in Hi. lia.
Qed.

Lemma node_data_component_spec {T} (d : T) len dim nc data k : length_to_int len dim = Ok nc -> k < nc ->
  node_data_component len dim data k =
  Ok (map (fun i => nth (i * nc + k) data d) (seq 0 (List.length data / nc))).
Proof.
  intros H Hk. unfold node_data_component. rewrite H. simpl.
  replace (nc <=? k) with false by (symmetry; apply Nat.leb_gt; lia).
  apply omapM_vget; auto. pose proof (Nat.mul_div_le (List.length data) nc). lia.
Qed.

Lemma nth_error_combine_seq {A} (l : list A) a i x :
  In (i, x) (combine (seq a (List.length l)) l) <-> a <= i /\ nth_error l (i - a) = Some x.
Proof.
  revert a; induction l as [|y l IH]; intros a; simpl.
  - split; [intros []|]. intros [_ H]. destruct (i - a); discriminate.
  - rewrite IH. split.
    + intros [[= <- <-]|[H1 H2]]; [split; [lia|now rewrite Nat.sub_diag]|].
      split; [lia|]. replace (i - a) with (S (i - S a)) by lia. exact H2.
    + intros [H1 H2]. destruct (Nat.eq_dec i a) as [->|Hne].
      * rewrite Nat.sub_diag in H2. simpl in H2. left. congruence.
      * right. split; [lia|]. replace (i - a) with (S (i - S a)) in H2 by lia. exact H2.
Qed.

Lemma node_output_spec {T} (d : T) (md : model_data T) id f data k nc lab :
  NoDup (map fst (md_node md)) ->
  (forall id' data', In (id', data') (md_node md) -> exists f', assoc Nat.eqb id' (md_fields md) = Some f') ->
  node_field md id f data -> names_component (md_dim md) f k lab ->
  length_to_int (f_length f) (md_dim md) = Ok nc ->
  (forall id' f' data' k', node_field md id' f' data' -> names_component (md_dim md) f' k' lab ->
     id' = id /\ k' = k) ->
  node_output md lab = Ok (Some (map (fun i => nth (i * nc + k) data d) (seq 0 (List.length data / nc)))).
Proof.
  intros Hnd Hdom [Hin Hf] Hk Hnc Huniq.
  assert (Hknc : k < nc).
  { rewrite <- (component_count _ _ (f_label f) Hnc). apply nth_error_Some. unfold names_component in Hk. congruence. }
  unfold node_output.
  set (F := fun (acc : option (list T)) kd => _).
  assert (Hmine : forall a', F a' (id, data) =
     Ok (Some (map (fun i => nth (i * nc + k) data d) (seq 0 (List.length data / nc))))).
  { intros a'. unfold F. rewrite Hf.
    apply ofold_one with (b := (k, lab)).
    - apply nth_error_combine_seq. split; [lia|]. now rewrite Nat.sub_0_r.
    - intros a''. rewrite (proj2 (chars_eqb_eq _ _) eq_refl).
      now rewrite (node_data_component_spec d _ _ _ Hnc Hknc).
    - intros a'' [k' lab'] Hin' Hne. apply nth_error_combine_seq in Hin' as [_ Hin'].
      rewrite Nat.sub_0_r in Hin'.
      destruct (chars_eqb lab' lab) eqn:E; auto. apply chars_eqb_eq in E. subst lab'.
      destruct (Huniq id f data k') as [_ ->]; [split; auto|exact Hin'|]. congruence.
    - decide equality; [apply list_eq_dec, ascii_dec|apply Nat.eq_dec]. }
  assert (Hoth : forall a' id' data', In (id', data') (md_node md) -> id' <> id -> F a' (id', data') = Ok a').
  { intros a' id' data' Hin' Hne. unfold F. destruct (Hdom _ _ Hin') as (f' & Hf'). rewrite Hf'.
    apply ofold_skip. intros a'' [k' lab'] Hl. apply nth_error_combine_seq in Hl as [_ Hl].
    rewrite Nat.sub_0_r in Hl.
    destruct (chars_eqb lab' lab) eqn:E; auto. apply chars_eqb_eq in E. subst lab'.
    destruct (Huniq id' f' data' k') as [-> _]; [split; auto|exact Hl|]. congruence. }
  clearbody F. clear Hdom Huniq Hf. revert Hin Hnd Hoth. generalize (@None (list T)) as a.
  induction (md_node md) as [|[id' data'] l IH]; intros a Hin Hnd Hoth; [destruct Hin|].
  simpl. simpl in Hnd. inversion Hnd as [|? ? Hni Hnd']; subst.
  destruct (Nat.eq_dec id' id) as [->|Hne].
  - destruct Hin as [[= ->]|Hin].
    + rewrite Hmine. simpl. apply ofold_skip. intros a' [id' d'] Hl. apply Hoth; [now right|].
      intros ->. apply Hni. apply in_map_iff. exists (id, d'). auto.
    + exfalso. apply Hni. apply in_map_iff. exists (id, data). auto.
  - destruct Hin as [[= ? ?]|Hin]; [congruence|]. rewrite (Hoth a id' data') by (auto; now left).
    simpl. apply IH; auto. intros. apply Hoth; auto. now right.
Qed.

(** ** Allocation *)
Lemma assoc_map_put {V} k (v : V) m k' :
  (forall x, In x (map fst m) -> True) ->
  assoc Nat.eqb k' (map_put k v m) = if k' =? k then Some v else
     assoc Nat.eqb k' (map_put k v m).
Proof.
  intros _. destruct (Nat.eqb_spec k' k) as [->|]; auto.
  induction m as [|[a b] m IH]; simpl; [now rewrite Nat.eqb_refl|].
  destruct (k <? a); simpl; [now rewrite Nat.eqb_refl|].
  destruct (Nat.eqb_spec k a) as [->|Hne]; simpl; [now rewrite Nat.eqb_refl|].
  destruct (Nat.eqb_spec k a); [congruence|auto].
Qed.
Lemma assoc_map_put_other {V} k (v : V) m k' : k' <> k ->
  assoc Nat.eqb k' (map_put k v m) = assoc Nat.eqb k' m.
Proof.
  intros Hne. induction m as [|[a b] m IH]; simpl.
  - destruct (Nat.eqb_spec k' k); congruence.
  - destruct (k <? a) eqn:E; simpl.
    + destruct (Nat.eqb_spec k' k); congruence.
    + destruct (Nat.eqb_spec k a) as [->|]; simpl.
      * destruct (Nat.eqb_spec k' a); congruence.
      * now rewrite IH.
Qed.

(** A second allocation of a field wipes its values (zero-filled array), other arrays stay. *)
Lemma allocate_spec {T} (zero : T) md len label n md' id :
  allocate_node_data zero md len label n = Ok (md', id) ->
  exists nc, length_to_int len (md_dim md) = Ok nc /\
    get_node_data md' id = Ok (repeat zero (n * nc)) /\
    (forall id', id' <> id -> get_node_data md' id' = get_node_data md id').
Proof.
  unfold allocate_node_data. destruct (assign_field_id _ _ _ _) as [[t i]| | |]; try discriminate.
  simpl. destruct (length_to_int len (md_dim md)) as [nc| | |]; try discriminate. simpl.
  intros [= <- <-]. exists nc. split; auto. unfold get_node_data. simpl. split.
  - rewrite assoc_map_put by auto. now rewrite Nat.eqb_refl.
  - intros id' Hne. now rewrite assoc_map_put_other.
Qed.

(** ** Examples *)
Example ex_history :
  let rs := [(lit "displacement", NODE, VECTOR); (lit "velocity", NODE, VECTOR);
             (lit "Displacement", NODE, VECTOR)] in
  consistent rs /\
  omap snd (register_all rs) = Ok [0; 1; 0].
Proof.
  split; [|reflexivity]. intros i j a b Hi Hj _.
  destruct i as [|[|[|[|i]]]], j as [|[|[|[|j]]]]; simpl in *; try discriminate; try (destruct i; discriminate);
    try (destruct j; discriminate); injection Hi as <-; injection Hj as <-; reflexivity.
Qed.
Example ex_conflict :
  register_all [(lit "stress", NODE, VECTOR); (lit "STRESS", NODE, SCALAR)] = Abort.
Proof. reflexivity. Qed.
Example ex_output :
  let md := MD 3 [(0, Field 0 (lit "displacement") NODE VECTOR)] [(0, [1; 2; 3; 4; 5; 6])] in
  node_output md (lit "displacement_y") = Ok (Some [2; 5]).
Proof. reflexivity. Qed.
