(** Proofs about fill_clique_lookup (clique detection). *)
From Verif Require Import Base ListLemmas MpiSpec MpiModel.
Local Open Scope Z_scope.

Lemma assoc_In {V} (m : list (Z * V)) k v : assoc Z.eqb k m = Some v -> In (k, v) m.
Proof.
  induction m as [|[k' v'] m IH]; simpl; [discriminate|].
  destruct (Z.eqb_spec k k') as [->|]; intros H; [left; congruence|right; auto].
Qed.

(** Invariant inside the loop over the ids of one rank.  L0, n0: table and counter at the
    start of the rank; vis: ids visited so far. *)
Record rank_inv (L0 : Z -> Z) (n0 rp1 : Z) (vis : list Z) (s : clique_state) : Prop := RI {
  ri_unvisited : forall g, ~ In g vis -> cs_lookup s g = L0 g;
  ri_fresh : forall g, In g vis -> L0 g = 0 -> cs_lookup s g = rp1;
  ri_old : forall g, In g vis -> L0 g <> 0 -> assoc Z.eqb (L0 g) (cs_remap s) = Some (cs_lookup s g);
  ri_inj : forall a b v, assoc Z.eqb a (cs_remap s) = Some v -> assoc Z.eqb b (cs_remap s) = Some v -> a = b;
  ri_range : forall a v, assoc Z.eqb a (cs_remap s) = Some v -> n0 <= v < cs_next s;
  ri_next : n0 <= cs_next s }.

Lemma updZ_same {A} (f : Z -> A) k v : updZ f k v k = v.
Proof. unfold updZ. now rewrite Z.eqb_refl. Qed.
Lemma updZ_other {A} (f : Z -> A) k v x : x <> k -> updZ f k v x = f x.
Proof. unfold updZ. intros H. destruct (Z.eqb_spec x k); congruence. Qed.

Lemma visit_id_inv L0 n0 rp1 vis s id :
  ~ In id vis -> rank_inv L0 n0 rp1 vis s ->
  rank_inv L0 n0 rp1 (vis ++ [id]) (visit_id rp1 s id).
Proof.
  intros Hnew [Hunv Hfr Hold Hinj Hran Hnx].
  assert (Hne : forall g, In g vis -> g <> id) by (intros g Hg ->; auto).
  assert (Hin : forall g, In g (vis ++ [id]) <-> In g vis \/ g = id).
  { intros g. rewrite in_app_iff. simpl. intuition congruence. }
  unfold visit_id. rewrite (Hunv id Hnew).
  destruct (Z.eqb_spec (L0 id) 0) as [E|E].
  - constructor; simpl; auto.
    + intros g Hg. rewrite Hin in Hg. rewrite updZ_other by intuition. apply Hunv. intuition.
    + intros g Hg H0. apply Hin in Hg as [Hg| ->].
      * rewrite updZ_other by auto. auto.
      * apply updZ_same.
    + intros g Hg H0. apply Hin in Hg as [Hg| ->]; [|congruence].
      rewrite updZ_other by auto. auto.
  - destruct (assoc Z.eqb (L0 id) (cs_remap s)) as [c|] eqn:A.
    + constructor; simpl; auto.
      * intros g Hg. rewrite Hin in Hg. rewrite updZ_other by intuition. apply Hunv. intuition.
      * intros g Hg H0. apply Hin in Hg as [Hg| ->]; [|congruence].
        rewrite updZ_other by auto. auto.
      * intros g Hg H0. apply Hin in Hg as [Hg| ->].
        { rewrite updZ_other by auto. auto. }
        { rewrite updZ_same. auto. }
    + assert (Hk : forall a, assoc Z.eqb a (cs_remap s) <> None -> a <> L0 id) by (intros a Ha ->; auto).
      constructor; simpl.
      * intros g Hg. rewrite Hin in Hg. rewrite updZ_other by intuition. apply Hunv. intuition.
      * intros g Hg H0. apply Hin in Hg as [Hg| ->]; [|congruence].
        rewrite updZ_other by auto. auto.
      * intros g Hg H0. apply Hin in Hg as [Hg| ->].
        { rewrite updZ_other by auto.
          specialize (Hold g Hg H0).
          destruct (Z.eqb_spec (L0 g) (L0 id)) as [e|]; auto.
          rewrite e, A in Hold. discriminate. }
        { rewrite updZ_same, Z.eqb_refl. auto. }
      * intros a b v.
        destruct (Z.eqb_spec a (L0 id)); destruct (Z.eqb_spec b (L0 id)); intros Ha Hb; subst; auto.
        { inversion Ha; subst. apply Hran in Hb. lia. }
        { inversion Hb; subst. apply Hran in Ha. lia. }
        { eapply Hinj; eauto. }
      * intros a v. destruct (Z.eqb_spec a (L0 id)); intros Ha.
        { inversion Ha; subst. lia. }
        { apply Hran in Ha. lia. }
      * lia.
Qed.

Lemma visit_ids_inv L0 n0 rp1 ids vis s :
  NoDup (vis ++ ids) -> rank_inv L0 n0 rp1 vis s ->
  rank_inv L0 n0 rp1 (vis ++ ids) (fold_left (visit_id rp1) ids s).
Proof.
  revert vis s; induction ids as [|id ids IH]; intros vis s Hnd Hinv; simpl.
  - now rewrite app_nil_r.
  - replace (vis ++ id :: ids) with ((vis ++ [id]) ++ ids) in * by (rewrite <- app_assoc; reflexivity).
    apply IH; auto. apply visit_id_inv; auto.
    rewrite !NoDup_app_inv in Hnd. destruct Hnd as [(_ & _ & Hd) _]. intros Hi. apply (Hd id Hi). now left.
Qed.

(** Invariant between ranks: [ids] are the lists of the ranks processed so far, N the total
    number of ranks. *)
Record table_inv (N : Z) (ids : list (list Z)) (L : Z -> Z) (next : Z) : Prop := TI {
  ti_next : N < next;
  ti_range : forall g, 0 <= L g < next;
  ti_zero : forall g, L g = 0 <-> (forall r, ~ holds ids r g);
  ti_single : forall g r, holds ids r g -> (forall r', holds ids r' g -> r' = r) ->
                     L g = Z.of_nat r + 1;
  ti_multi : forall g r r', holds ids r g -> holds ids r' g -> r <> r' -> N < L g;
  ti_same : forall g h, L g = L h <-> same_holders ids g h }.

Lemma holds_app ids l r g :
  holds (ids ++ [l]) r g <-> holds ids r g \/ (r = length ids /\ In g l).
Proof.
  unfold holds. destruct (Nat.lt_trichotomy r (length ids)) as [H|[H|H]].
  - rewrite app_nth1 by lia. intuition lia.
  - subst. rewrite app_nth2, Nat.sub_diag by lia. simpl.
    rewrite (nth_overflow ids) by lia. simpl. intuition.
  - rewrite nth_overflow by (rewrite app_length; simpl; lia).
    rewrite nth_overflow by lia. simpl. intuition lia.
Qed.

Lemma table_step N ids l L next :
  Z.of_nat (length ids) < N -> NoDup l ->
  table_inv N ids L next ->
  let s := fold_left (visit_id (Z.of_nat (length ids) + 1)) l (CS L [] next) in
  table_inv N (ids ++ [l]) (cs_lookup s) (cs_next s).
Proof.
  intros HN Hnd [Hnx Hrange Hzero Hsing Hmult Hsame] s.
  set (k := length ids) in *.
  assert (RInv : rank_inv L next (Z.of_nat k + 1) l s).
  { subst s. apply (visit_ids_inv L next (Z.of_nat k + 1) l [] (CS L [] next)); auto.
    constructor; simpl; try discriminate; try tauto; lia. }
  destruct RInv as [Hunv Hfr Hold Hinj Hran Hnx'].
  clearbody s.
  assert (Hcase : forall g,
    (~ In g l /\ cs_lookup s g = L g) \/
    (In g l /\ L g = 0 /\ cs_lookup s g = Z.of_nat k + 1) \/
    (In g l /\ L g <> 0 /\ assoc Z.eqb (L g) (cs_remap s) = Some (cs_lookup s g)
       /\ next <= cs_lookup s g < cs_next s)).
  { intros g. destruct (in_dec Z.eq_dec g l) as [Hg|Hg]; auto.
    destruct (Z.eq_dec (L g) 0) as [E|E]; auto 6.
    right; right. repeat split; auto; eapply Hran; eauto. }
  assert (Hk : forall g, ~ holds ids k g).
  { intros g H. apply holds_lt in H. unfold k in H. lia. }
  constructor.
  - lia.
  - intros g. specialize (Hrange g). destruct (Hcase g) as [[? ->]|[(?&?&->)|(?&?&?&?)]]; lia.
  - intros g. destruct (Hcase g) as [[Hg ->]|[(Hg&E&->)|(Hg&E&A&Hr)]].
    + rewrite Hzero. split; intros H r Hr.
      * apply holds_app in Hr as [Hr|[-> Hr]]; [eapply H; eauto|contradiction].
      * apply (H r). apply holds_app; auto.
    + split; [lia|]. intros H. exfalso. apply (H k). apply holds_app. right; auto.
    + split; [lia|]. intros H. exfalso. apply (H k). apply holds_app. right; auto.
  - intros g r Hr Huniq. destruct (Hcase g) as [[Hg ->]|[(Hg&E&->)|(Hg&E&A&Hrr)]].
    + apply holds_app in Hr as [Hr|[-> Hr]]; [|contradiction].
      apply Hsing; auto. intros r' H'. apply Huniq. apply holds_app; auto.
    + rewrite (Huniq k); [reflexivity|]. apply holds_app. right; auto.
    + exfalso. apply E. apply Hzero. intros r' H'.
      assert (r' = r) by (apply Huniq, holds_app; auto).
      assert (k = r) by (apply Huniq, holds_app; right; auto).
      subst r'. subst r. exact (Hk g H').
  - intros g r r' Hr Hr' Hne. destruct (Hcase g) as [[Hg ->]|[(Hg&E&->)|(Hg&E&A&Hrr)]].
    + apply holds_app in Hr as [Hr|[-> Hr]]; [|contradiction].
      apply holds_app in Hr' as [Hr'|[-> Hr']]; [|contradiction].
      exact (Hmult g r r' Hr Hr' Hne).
    + exfalso. rewrite Hzero in E.
      apply holds_app in Hr as [Hr|[-> Hr]]; [eapply E; eauto|].
      apply holds_app in Hr' as [Hr'|[-> Hr']]; [eapply E; eauto|]. congruence.
    + lia.
  - intros g h.
    assert (Hiff : same_holders (ids ++ [l]) g h <-> same_holders ids g h /\ (In g l <-> In h l)).
    { unfold same_holders. split.
      - intros H. split.
        + intros r. specialize (H r). rewrite !holds_app in H.
          split; intros Hr.
          * destruct (proj1 H (or_introl Hr)) as [?|[-> ?]]; auto. exfalso; eapply Hk; eauto.
          * destruct (proj2 H (or_introl Hr)) as [?|[-> ?]]; auto. exfalso; eapply Hk; eauto.
        + specialize (H k). rewrite !holds_app in H. split; intros Hi.
          * destruct (proj1 H) as [?|[_ ?]]; auto. exfalso; eapply Hk; eauto.
          * destruct (proj2 H) as [?|[_ ?]]; auto. exfalso; eapply Hk; eauto.
      - intros [H1 H2] r. rewrite !holds_app, (H1 r). tauto. }
    rewrite Hiff, <- Hsame.
    pose proof (Hrange g) as Rg. pose proof (Hrange h) as Rh.
    assert (Hltk : forall x, L x <> Z.of_nat k + 1).
    { intros x Hx.
      assert (L x <> 0) by lia.
      assert (exists r, holds ids r x) as [r Hr].
      { destruct (list_eq_dec Nat.eq_dec (holders ids x) []) as [Hh|Hh].
        - exfalso. apply H. apply Hzero. intros r Hr. apply holders_In in Hr. rewrite Hh in Hr. destruct Hr.
        - destruct (holders ids x) as [|r rs] eqn:Er; [congruence|]. exists r. apply holders_In. rewrite Er. now left. }
      destruct (forallb (fun q => Nat.eqb q r) (holders ids x)) eqn:All.
      - rewrite (Hsing x r) in Hx; auto.
        + apply holds_lt in Hr. unfold k in Hx. lia.
        + intros r' Hr'. rewrite forallb_forall in All. apply Nat.eqb_eq, All, holders_In, Hr'.
      - assert (exists q, In q (holders ids x) /\ q <> r) as (q & Hq & Hne).
        { clear -All. induction (holders ids x) as [|a t IH]; simpl in All; [discriminate|].
          destruct (Nat.eqb_spec a r); simpl in All.
          - destruct (IH All) as (q & ? & ?). exists q; simpl; auto.
          - exists a; simpl; auto. }
        apply holders_In in Hq. pose proof (Hmult x q r Hq Hr Hne). lia. }
    destruct (Hcase g) as [[Hg Eg]|[(Hg&E&Eg)|(Hg&E&A&Hrr)]];
    destruct (Hcase h) as [[Hh Eh]|[(Hh&E'&Eh)|(Hh&E'&A'&Hrr')]]; rewrite ?Eg, ?Eh.
    + tauto.
    + specialize (Hltk g). split; [lia|tauto].
    + split; [lia|tauto].
    + specialize (Hltk h). split; [lia|tauto].
    + split; [intros; split; [lia|tauto]|reflexivity].
    + split; [lia|]. intros [? _]; lia.
    + split; [lia|tauto].
    + split; [lia|]. intros [? _]; lia.
    + split.
      * intros Heq. rewrite Heq in A. split; [|tauto]. eapply Hinj; eauto.
      * intros [Heq _]. rewrite Heq in A. congruence.
Qed.

Lemma visit_ranks_inv N todo ids s :
  Z.of_nat (length ids + length todo) <= N ->
  Forall (@NoDup Z) todo ->
  table_inv N ids (cs_lookup s) (cs_next s) ->
  table_inv N (ids ++ todo) (cs_lookup (visit_ranks (Z.of_nat (length ids)) todo s))
            (cs_next (visit_ranks (Z.of_nat (length ids)) todo s)).
Proof.
  revert ids s; induction todo as [|l todo IH]; intros ids s HN Hnd Hinv; simpl.
  - now rewrite app_nil_r.
  - inversion Hnd; subst. simpl in HN.
    assert (HN1 : Z.of_nat (length ids) < N) by lia.
    pose proof (table_step N ids l _ _ HN1 H1 Hinv) as Hst.
    specialize (IH (ids ++ [l])
      (fold_left (visit_id (Z.of_nat (length ids) + 1)) l (CS (cs_lookup s) [] (cs_next s)))).
    rewrite app_length in IH. simpl in IH.
    replace (Z.of_nat (length ids + 1)) with (Z.of_nat (length ids) + 1) in IH by lia.
    rewrite <- app_assoc in IH. simpl in IH.
    apply IH; auto; lia.
Qed.

Theorem fill_clique_lookup_inv ids :
  all_nodup ids ->
  table_inv (Z.of_nat (length ids)) ids (fst (fill_clique_lookup ids)) (snd (fill_clique_lookup ids)).
Proof.
  intros Hnd. unfold fill_clique_lookup. simpl.
  apply (visit_ranks_inv (Z.of_nat (length ids)) ids [] (CS (fun _ => 0) [] (Z.of_nat (length ids) + 1)));
    simpl; auto; try lia.
  assert (Hno : forall r g, ~ holds [] r g) by (intros [|r] g H; destruct H).
  constructor; simpl; try lia.
  - intros g; split; auto. 
  - intros g r H. exfalso; eapply Hno; eauto.
  - intros g r r' H. exfalso; eapply Hno; eauto.
  - intros g h. split; auto. intros _ r. split; intros H; exfalso; eapply Hno; eauto.
Qed.

(** Every number handed out above the number of ranks belongs to at least two ranks, and
    every id that is declared has a positive clique. *)
Lemma clique_private ids L next g :
  table_inv (Z.of_nat (length ids)) ids L next -> (exists r, holds ids r g) ->
  (L g <= Z.of_nat (length ids) <-> exists r, holds ids r g /\ forall r', holds ids r' g -> r' = r).
Proof.
  intros [Hnx Hrange Hzero Hsing Hmult Hsame] [r Hr]. split.
  - intros Hle. exists r. split; auto. intros r' Hr'.
    destruct (Nat.eq_dec r' r); auto. exfalso.
    pose proof (Hmult g r' r Hr' Hr n). lia.
  - intros (r0 & Hr0 & Hu). rewrite (Hsing g r0); auto.
    apply holds_lt in Hr0. lia.
Qed.
