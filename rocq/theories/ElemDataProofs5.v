(** Output requests and the set-up of all blocks. *)
From Verif Require Import Base ListLemmas Strings DataModel DataSpec DataProofs Loops ElemDataModel ElemDataSpec ElemDataModel2 ElemDataProofs ElemDataProofs2 ElemDataProofs3 ElemDataProofs4.
From Coq Require Import NArith Sorted.
Set Implicit Arguments.
Local Open Scope nat_scope.
Local Open Scope list_scope.
Local Notation length := List.length.

Lemma ofold_keep {A B} (I : A -> Prop) (f : A -> B -> outcome A) l : (forall x s, In x l -> I s -> exists s', f s x = Ok s' /\ I s') ->
  forall s, I s -> exists s', ofold f l s = Ok s' /\ I s'.
Proof.
  induction l as [|x l IH]; intros H s Hs; cbn [ofold]; [eauto|].
  destruct (H x s (or_introl eq_refl) Hs) as (s1 & E & H1). rewrite E. cbn [obind]. apply IH; auto. intros y t Hy. apply H. now right.
Qed.
Lemma starts_lower p : tolower p = p -> forall l, starts_with p l = true -> starts_with p (tolower l) = true.
Proof. intros Hp l H. apply starts_with_spec in H as (t & ->). rewrite tolower_app, Hp. apply starts_with_app. Qed.
Lemma not_ipt_low l : starts_with (lit "ipt") (tolower l) = false -> starts_with (lit "ipt") l = false.
Proof. intros H. destruct (starts_with (lit "ipt") l) eqn:E; auto. apply (@starts_lower (lit "ipt") eq_refl) in E. congruence. Qed.
Lemma mem_in x l : mem x l = true <-> In x l.
Proof. unfold mem. rewrite existsb_exists. split; [intros (y & Hy & E); apply chars_eqb_eq in E; now subst|]. intros H. exists x. split; auto. now apply chars_eqb_eq. Qed.

Section Output.
  Context {T : Type} (zero one : T) (of_int : Z -> T).
  Variable bs : list (block T).
  Hypothesis Hgood : forall b, In b bs -> good_states (b_labels b).
  Hypothesis Hcase : case_consistent bs.

  Definition out_label (b : block T) (l : chars) : Prop := exists i q, i < b_nip b /\ valid (b_labels b) q /\ l = point_label (b_labels b) i q.
  Definition derived_label (b : block T) (l : chars) : Prop := l = lit "volume" \/ exists q, valid (b_labels b) q /\ l = plain_label (b_labels b) q.
  Definition same_data (d d' : elem_data T) : Prop :=
    ed_dim d' = ed_dim d /\ ed_fields d' = ed_fields d /\ ed_block_fields d' = ed_block_fields d /\ ed_block_ids d' = ed_block_ids d /\
    ed_labels d' = ed_labels d /\ ed_n d' = ed_n d /\ ed_np1 d' = ed_np1 d.
  Definition out_ok (d : elem_data T) : Prop := forall b, In b bs -> exists lo ld,
    assoc Nat.eqb (b_id b) (ed_out d) = Some lo /\ assoc Nat.eqb (b_id b) (ed_derived d) = Some ld /\
    Forall (out_label b) lo /\ Forall (derived_label b) ld.
  Record ready (d : elem_data T) : Prop := {
    rd_dim : ed_dim d = 3;
    rd_fields : table_good bs (ed_fields d);
    rd_labels : forall x, In x (ed_labels d) -> exists b, In b bs /\ x = (b_id b, all_labels (b_nip b) (b_labels b));
    rd_ids : forall x, In x (ed_block_ids d) -> exists b, In b bs /\ x = b_id b;
    rd_out : out_ok d }.
  Hypothesis Hids : forall b b', In b bs -> In b' bs -> b_id b = b_id b' -> b = b'.
  Definition stays (d d' : elem_data T) : Prop := same_data d d' /\ out_ok d'.
  Lemma stays_ready d d' : ready d -> stays d d' -> ready d'.
  Proof. intros [H1 H2 H3 H4 H5] ((E1 & E2 & E3 & E4 & E5 & E6 & E7) & Ho). constructor; [now rewrite E1|now rewrite E2|now rewrite E5|now rewrite E4|exact Ho]. Qed.
  Lemma stays_trans d d' d'' : stays d d' -> stays d' d'' -> stays d d''.
  Proof. intros ((E1 & E2 & E3 & E4 & E5 & E6 & E7) & Ho) ((F1 & F2 & F3 & F4 & F5 & F6 & F7) & Ho'). split; auto. repeat split; congruence. Qed.
  Lemma stays_refl d : out_ok d -> stays d d.
  Proof. intros H. split; auto. repeat split. Qed.

  Lemma push_out_ok d0 d b l : stays d0 d -> In b bs -> out_label b l -> exists d', push_out d (b_id b) l = Ok d' /\ stays d0 d'.
  Proof.
    intros Hs Hb Hl. destruct Hs as (Hsame & Ho). destruct (Ho b Hb) as (lo & ld & E1 & E2 & F1 & F2). unfold push_out, at_key. rewrite E1. cbn [obind].
    eexists. split; [reflexivity|]. split; [exact Hsame|]. intros b' Hb'. cbn. rewrite assoc_put. destruct (Nat.eqb_spec (b_id b') (b_id b)) as [E|E].
    - apply Hids in E; auto. subst b'. exists (lo ++ [l]), ld. repeat split; auto. apply Forall_app. split; auto.
    - apply Ho; auto.
  Qed.
  Lemma push_derived_ok d0 d b l : stays d0 d -> In b bs -> derived_label b l -> exists d', push_derived d (b_id b) l = Ok d' /\ stays d0 d'.
  Proof.
    intros Hs Hb Hl. destruct Hs as (Hsame & Ho). destruct (Ho b Hb) as (lo & ld & E1 & E2 & F1 & F2). unfold push_derived, at_key. rewrite E2. cbn [obind].
    eexists. split; [reflexivity|]. split; [exact Hsame|]. intros b' Hb'. cbn. rewrite assoc_put. destruct (Nat.eqb_spec (b_id b') (b_id b)) as [E|E].
    - apply Hids in E; auto. subst b'. exists lo, (ld ++ [l]). repeat split; auto. apply Forall_app. split; auto.
    - apply Ho; auto.
  Qed.

  (** labels of fields *)
  Lemma field_remove t k f : table_good bs t -> In (k, f) t -> exists p, remove_ipt_prefix (f_label f) = Ok p.
  Proof.
    intros (_ & Hg) Hin. destruct (Hg _ _ Hin) as [[_ Hn]|[_ Hw]].
    - exists (f_label f). now apply no_prefix, not_ipt_low.
    - destruct Hw as (b & i & x & _ & _ & ->). exists x. now rewrite Z_N_ipt, remove_add.
  Qed.
  Definition from_field (t : list (nat * field)) (l : chars) : Prop :=
    exists k f p, In (k, f) t /\ remove_ipt_prefix (f_label f) = Ok p /\ (l = f_label f \/ l = p /\ remove_ipt_prefix p = Ok p).
  Lemma plain_not_ipt (b : block T) x len : In (x, len) (material_labels (b_labels b)) -> remove_ipt_prefix x = Ok x \/ In x (get_component_labels x len 3).
  Proof.
    intros Hx. apply material_label_cases in Hx. destruct Hx as [[-> _]|[[-> _]|[Hx ->]]]; [left; reflexivity|left; reflexivity|].
    right. left. now rewrite app_nil_r.
  Qed.
  Lemma label_length_ok t l : table_good bs t -> from_field t l -> exists len, label_to_length l t = Ok len.
  Proof.
    intros Ht (k & f & p & Hin & Hp & Hl). unfold label_to_length.
    assert (El : remove_ipt_prefix l = Ok p) by (destruct Hl as [->|[-> ?]]; auto). rewrite El. cbn [obind].
    assert (G : forall t', incl t' t -> forall acc, (acc <> None \/ In (k, f) t') -> exists len,
      ofold (fun (acc : option length_t) kf =>
              match acc with
              | Some _ => Ok acc
              | None => do l <- remove_ipt_prefix (f_label (snd kf)); Ok (if chars_eqb p l then Some (f_length (snd kf)) else None)
              end) t' acc = Ok (Some len)).
    { clear Hin. induction t' as [|(k' & f') t' IH]; intros Hi acc H.
      - destruct H as [H|[]]. destruct acc as [len|]; [|congruence]. exists len. reflexivity.
      - cbn [ofold snd]. assert (Hi' : incl t' t) by (intros x Hx; apply Hi; now right).
        destruct acc as [len|]. { cbn [obind]. apply IH; auto. left. discriminate. }
        destruct (@field_remove t k' f' Ht) as (p' & Ep'); [apply Hi; now left|]. rewrite Ep'. cbn [obind].
        destruct (chars_eqb p p') eqn:E. { apply IH; auto. left. discriminate. }
        apply IH; auto. right. destruct H as [H|[H|H]]; [congruence| |auto].
        injection H as -> ->. rewrite Hp in Ep'. injection Ep' as <-. exfalso. apply chars_eqb_neq in E. auto. }
    destruct (G t (fun x H => H) None (or_intror Hin)) as (len & E). exists len. rewrite E. reflexivity.
  Qed.

  Record lists_ok (t : list (nat * field)) (ll : label_lists) : Prop := {
    lk_node : forall l, In l (ll_node ll) -> from_field t l;
    lk_elem : forall l, In l (ll_elem ll) -> from_field t l \/ In l (ll_elem_comp ll);
    lk_ipt : forall l, In l (ll_ipt ll) -> from_field t l }.
  Lemma collect_ok t : table_good bs t -> exists ll, collect_labels 3 t = Ok ll /\ lists_ok t ll.
  Proof.
    intros Ht. unfold collect_labels. apply ofold_keep; [|constructor; intros ? []].
    intros (k & f) s Hin [H1 H2 H3]. cbn [snd]. destruct (@field_remove t k f Ht Hin) as (p & Ep). pose proof (proj2 Ht _ _ Hin) as Hc.
    assert (Hf : from_field t (f_label f)) by (exists k, f, p; auto).
    destruct Hc as [[Er Hn]|[Er Hw]]; rewrite Er.
    - eexists. split; [reflexivity|]. constructor; cbn; auto. intros l Hl. apply in_app_or in Hl as [Hl|[<-|[]]]; auto.
    - destruct Hw as (b & i & x & Hb & Hx & El). rewrite El, Z_N_ipt, has_add. cbn [obind]. rewrite <- Z_N_ipt, <- El, Ep. cbn [obind].
      assert (p = x) by (rewrite El, Z_N_ipt, remove_add in Ep; congruence). subst p.
      eexists. split; [reflexivity|]. destruct (mem x (ll_elem s)); constructor; cbn; auto.
      + intros l Hl. apply in_app_or in Hl as [Hl|[<-|[]]]; auto.
      + intros l Hl. apply in_app_or in Hl as [Hl|[<-|[]]].
        * destruct (H2 l Hl); auto. right. apply in_or_app. auto.
        * destruct (@plain_not_ipt _ _ _ Hx) as [Hp|Hp]; [left; exists k, f, x; auto|right; apply in_or_app; auto].
      + intros l Hl. apply in_app_or in Hl as [Hl|[<-|[]]]; auto.
  Qed.

  Lemma in_all_labels b l : In l (all_labels (b_nip b) (b_labels b)) -> out_label b l.
  Proof. intros H. apply In_nth_error in H as (k & H). apply all_labels_at in H. destruct H as (i & q & H). exists i, q. tauto. Qed.
  Lemma out_remove b l : out_label b l -> exists p, remove_ipt_prefix l = Ok p /\ derived_label b p.
  Proof. intros (i & q & Hi & Hq & ->). exists (plain_label (b_labels b) q). rewrite remove_point_label. split; auto. right. eauto. Qed.

  Lemma specify_one_ok ll d req : ready d -> lists_ok (ed_fields d) ll ->
    (exists d', specify_one ll d req = Ok d' /\ stays d d') \/ specify_one ll d req = Abort.
  Proof.
    intros Hr Hll. pose proof (stays_refl (rd_out Hr)) as H0. unfold specify_one.
    destruct (mem req (ll_node_comp ll)). { left. eexists. split; [reflexivity|]. exact H0. }
    destruct (mem req (ll_node ll)) eqn:E2.
    { left. apply mem_in in E2. destruct (label_length_ok (rd_fields Hr) (lk_node Hll _ E2)) as (len & ->). cbn [obind]. eexists. split; [reflexivity|]. exact H0. }
    destruct (mem req (ll_elem_comp ll)) eqn:E3.
    { left. apply (@ofold_keep _ _ (stays d)); auto. intros e s He Hs. destruct (rd_labels Hr _ He) as (b & Hb & ->). cbn [fst snd].
      assert (G : exists ex, ofold (fun (ex : bool) l => do p <- remove_ipt_prefix l; Ok (ex || chars_eqb req p)) (all_labels (b_nip b) (b_labels b)) false = Ok ex /\ (ex = true -> derived_label b req)).
      { apply (@ofold_keep _ _ (fun ex => ex = true -> derived_label b req)); [|discriminate]. intros l ex Hl Hex.
        destruct (out_remove (in_all_labels _ _ Hl)) as (p & Ep & Hp). rewrite Ep. cbn [obind]. eexists. split; [reflexivity|].
        intros H. apply orb_prop in H as [H|H]; auto. apply chars_eqb_eq in H. now subst. }
      destruct G as (ex & -> & Hex). cbn [obind]. destruct ex; [|eauto]. apply push_derived_ok; auto. }
    destruct (mem req (ll_ipt_comp ll)).
    { left. apply (@ofold_keep _ _ (stays d)); auto. intros e s He Hs. destruct (rd_labels Hr _ He) as (b & Hb & ->). cbn [fst snd].
      destruct (existsb (chars_eqb req) (all_labels (b_nip b) (b_labels b))) eqn:Ex; [|eauto]. apply push_out_ok; auto. apply in_all_labels. now apply mem_in. }
    destruct (mem req (ll_elem ll)) eqn:E5.
    { left. apply mem_in in E5.
      destruct (lk_elem Hll _ E5) as [E5'|E5']; [|apply mem_in in E5'; congruence].
      destruct (label_length_ok (rd_fields Hr) E5') as (len & ->). cbn [obind].
      apply (@ofold_keep _ _ (stays d)); auto. intros lab s Hlab Hs. apply (@ofold_keep _ _ (stays d)); auto.
      intros e s1 He Hs1. destruct (rd_labels (stays_ready Hr Hs) _ He) as (b & Hb & ->). cbn [fst snd]. apply (@ofold_keep _ _ (stays d)); auto.
      intros avail s2 Hav Hs2. destruct (out_remove (in_all_labels _ _ Hav)) as (p & Ep & Hp). rewrite Ep. cbn [obind].
      destruct (chars_eqb lab p) eqn:El; [|eauto]. apply chars_eqb_eq in El. subst p.
      destruct (proj2 Hs2 b Hb) as (lo & ld & F1 & F2 & F3 & F4). unfold at_key at 1. rewrite F2. cbn [obind].
      destruct (mem lab ld); [eauto|]. apply push_derived_ok; auto. }
    destruct (mem req (ll_ipt ll)) eqn:E6.
    { left. apply mem_in in E6. destruct (label_length_ok (rd_fields Hr) (lk_ipt Hll _ E6)) as (len & ->). cbn [obind].
      apply (@ofold_keep _ _ (stays d)); auto. intros lab s Hlab Hs. apply (@ofold_keep _ _ (stays d)); auto.
      intros e s1 He Hs1. destruct (rd_labels (stays_ready Hr Hs) _ He) as (b & Hb & ->). cbn [fst snd]. apply (@ofold_keep _ _ (stays d)); auto.
      intros avail s2 Hav Hs2. destruct (chars_eqb lab avail) eqn:El; [|eauto]. apply chars_eqb_eq in El. subst avail.
      apply push_out_ok; auto. now apply in_all_labels. }
    destruct (chars_eqb req (lit "volume")) eqn:E7; auto.
    left. apply (@ofold_keep _ _ (stays d)); auto. intros x s Hx Hs. destruct (rd_ids Hr _ Hx) as (b & Hb & ->).
    apply chars_eqb_eq in E7. subst req. apply push_derived_ok; auto. now left.
  Qed.
  Lemma specify_ok d request : ready d ->
    (exists d', specify_output_fields d request = Ok d' /\ stays d d') \/ specify_output_fields d request = Abort.
  Proof.
    intros Hr. unfold specify_output_fields. rewrite (rd_dim Hr). destruct (collect_ok (rd_fields Hr)) as (ll & -> & Hll). cbn [obind].
    generalize (split_blank request []). intros ws.
    assert (G : forall d', stays d d' -> (exists d'', ofold (specify_one ll) ws d' = Ok d'' /\ stays d d'') \/ ofold (specify_one ll) ws d' = Abort).
    { induction ws as [|w ws IH]; intros d' Hs; cbn [ofold]; [eauto|].
      pose proof (stays_ready Hr Hs) as Hr'. assert (Hll' : lists_ok (ed_fields d') ll) by (destruct Hs as ((_ & -> & _) & _); auto).
      destruct (@specify_one_ok ll d' w Hr' Hll') as [(d1 & -> & H1)| ->]; cbn [obind]; [|auto].
      apply IH. eapply stays_trans; eauto. }
    apply G. apply stays_refl, Hr.
  Qed.
End Output.
