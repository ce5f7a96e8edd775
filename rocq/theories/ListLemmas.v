(** Facts about the list helpers of Base.v (no NimbleSM content). *)
From Verif Require Import Base.
From Coq Require Import Permutation Sorted.

Section SortFacts.
  Context {A : Type} (leb : A -> A -> bool).

  Lemma insert_perm a l : Permutation (a :: l) (insert leb a l).
  Proof.
    induction l as [|b l IH]; simpl; auto.
    destruct (leb a b); auto.
    eapply perm_trans; [apply perm_swap|]. now constructor.
  Qed.

  Lemma isort_perm l : Permutation l (isort leb l).
  Proof.
    induction l as [|a l IH]; simpl; auto.
    eapply perm_trans; [|apply insert_perm]. now constructor.
  Qed.

  Lemma isort_length l : length (isort leb l) = length l.
  Proof. symmetry. apply Permutation_length, isort_perm. Qed.

  Lemma isort_In a l : In a (isort leb l) <-> In a l.
  Proof.
    split; apply Permutation_in; [symmetry|]; apply isort_perm.
  Qed.

  Lemma isort_NoDup l : NoDup l -> NoDup (isort leb l).
  Proof. apply Permutation_NoDup, isort_perm. Qed.

  Hypothesis total : forall a b, leb a b = false -> leb b a = true.
  Hypothesis trans : forall a b c, leb a b = true -> leb b c = true -> leb a c = true.

  Lemma insert_sorted a l :
    StronglySorted (fun x y => leb x y = true) l ->
    StronglySorted (fun x y => leb x y = true) (insert leb a l).
  Proof.
    induction l as [|b l IH]; simpl; intros H.
    - repeat constructor.
    - inversion H as [|b' l' Hs Hf]; subst.
      destruct (leb a b) eqn:E.
      + constructor; [exact H|]. constructor; [exact E|].
        eapply Forall_impl; [|exact Hf]. intros c Hc; simpl in *. eauto.
      + constructor; [auto|].
        apply Forall_forall. intros c Hc.
        apply Permutation_in with (l' := a :: l) in Hc;
          [|symmetry; apply insert_perm].
        destruct Hc as [<-|Hc]; [auto|].
        rewrite Forall_forall in Hf; auto.
  Qed.

  Lemma isort_sorted l : StronglySorted (fun x y => leb x y = true) (isort leb l).
  Proof. induction l; simpl; [constructor|now apply insert_sorted]. Qed.

End SortFacts.

(** Two sorted lists (for an antisymmetric order) with the same elements are equal. *)
Lemma StronglySorted_unique {A} (R : A -> A -> Prop) (l1 l2 : list A) :
  (forall a, ~ R a a) -> (forall a b c, R a b -> R b c -> R a c) ->
  StronglySorted R l1 -> StronglySorted R l2 ->
  (forall a, In a l1 <-> In a l2) -> l1 = l2.
Proof.
  intros Hirr Htr. revert l2; induction l1 as [|a l1 IH]; intros l2 H1 H2 Heq.
  - destruct l2 as [|b l2]; auto. exfalso. apply (proj2 (Heq b)). now left.
  - destruct l2 as [|b l2].
    + exfalso. apply (proj1 (Heq a)). now left.
    + inversion H1 as [|? ? Hs1 Hf1]; inversion H2 as [|? ? Hs2 Hf2]; subst.
      rewrite Forall_forall in Hf1, Hf2.
      assert (a = b) as ->.
      { destruct (proj1 (Heq a) (or_introl eq_refl)) as [e|Ha]; auto.
        destruct (proj2 (Heq b) (or_introl eq_refl)) as [e|Hb]; auto.
        exfalso. apply (Hirr a). eapply Htr; [apply Hf1, Hb|apply Hf2, Ha]. }
      f_equal. apply IH; auto. intros c; split; intros Hc.
      * destruct (proj1 (Heq c) (or_intror Hc)) as [e|?]; auto.
        subst c. exfalso. apply (Hirr b). auto.
      * destruct (proj2 (Heq c) (or_intror Hc)) as [e|?]; auto.
        subst c. exfalso. apply (Hirr b). auto.
Qed.

Lemma StronglySorted_NoDup {A} (R : A -> A -> Prop) (l : list A) :
  (forall a, ~ R a a) -> StronglySorted R l -> NoDup l.
Proof.
  intros Hirr. induction 1 as [|a l Hs IH Hf]; constructor; auto.
  intros Hin. rewrite Forall_forall in Hf. exact (Hirr a (Hf a Hin)).
Qed.

Lemma uniq_In {A} (eqb : A -> A -> bool) (Heq : forall a b, eqb a b = true <-> a = b) l a :
  In a (uniq eqb l) <-> In a l.
Proof.
  induction l as [|b l IH]; [reflexivity|].
  destruct l as [|c l]; [reflexivity|].
  change (uniq eqb (b :: c :: l)) with (if eqb b c then uniq eqb (c :: l) else b :: uniq eqb (c :: l)).
  destruct (eqb b c) eqn:E.
  - apply Heq in E; subst. rewrite IH. simpl; tauto.
  - split; intros [<-|H]; simpl; auto; right; apply IH; auto.
Qed.

Lemma uniq_sorted {A} (eqb : A -> A -> bool) (R S : A -> A -> Prop)
  (Heq : forall a b, eqb a b = true <-> a = b)
  (HRS : forall a b, R a b -> a <> b -> S a b)
  (HRSt : forall a b c, S a b -> R b c -> S a c) l :
  StronglySorted R l -> StronglySorted S (uniq eqb l).
Proof.
  induction l as [|b l IH]; intros H; [constructor|].
  destruct l as [|c l]; [repeat constructor|].
  change (uniq eqb (b :: c :: l)) with (if eqb b c then uniq eqb (c :: l) else b :: uniq eqb (c :: l)).
  inversion H as [|? ? Hs Hf]; subst.
  destruct (eqb b c) eqn:E; auto.
  constructor; auto.
  apply Forall_forall. intros x Hx. apply (proj1 (uniq_In _ Heq _ _)) in Hx.
  inversion Hf as [|? ? Hbc Hf']; subst.
  assert (b <> c) by (intros e; apply Heq in e; congruence).
  destruct Hx as [<-|Hx]; [auto|].
  inversion Hs as [|? ? Hs' Hcl]; subst. rewrite Forall_forall in Hcl.
  eapply HRSt; [apply HRS; eauto|auto].
Qed.

Definition zsort_uniq (l : list Z) : list Z := uniq Z.eqb (isort Z.leb l).

Lemma zsort_uniq_In l a : In a (zsort_uniq l) <-> In a l.
Proof.
  unfold zsort_uniq. rewrite uniq_In by (intros; apply Z.eqb_eq). apply isort_In.
Qed.

Lemma zsort_uniq_sorted l : StronglySorted Z.lt (zsort_uniq l).
Proof.
  unfold zsort_uniq. apply uniq_sorted with (R := fun x y => (x <=? y)%Z = true).
  - intros; apply Z.eqb_eq.
  - intros; lia.
  - intros; lia.
  - apply isort_sorted; intros; lia.
Qed.

Lemma zsort_uniq_NoDup l : NoDup (zsort_uniq l).
Proof. eapply StronglySorted_NoDup; [|apply zsort_uniq_sorted]. intros; lia. Qed.

(** nth/nth_error conversions *)
Lemma nth_error_nth_eq {A} (l : list A) i d a : nth_error l i = Some a -> nth i l d = a.
Proof. intros H. now apply nth_error_nth. Qed.

Lemma nth_error_Some_lt {A} (l : list A) i a : nth_error l i = Some a -> i < length l.
Proof. intros H. apply nth_error_Some. congruence. Qed.

Lemma nth_error_seq s n i : nth_error (seq s n) i = if i <? n then Some (s + i) else None.
Proof.
  revert s i; induction n as [|n IH]; intros s i.
  - destruct i; reflexivity.
  - destruct i as [|i].
    + simpl. now rewrite Nat.add_0_r.
    + cbn [seq nth_error]. rewrite IH. change (S i <? S n) with (i <? n).
      destruct (i <? n); auto. f_equal. lia.
Qed.

Lemma StronglySorted_app_inv {A} (R : A -> A -> Prop) l1 l2 :
  StronglySorted R (l1 ++ l2) -> StronglySorted R l1 /\ StronglySorted R l2 /\
  forall a b, In a l1 -> In b l2 -> R a b.
Proof.
  induction l1 as [|x l1 IH]; simpl; intros H.
  - repeat split; auto; [constructor|tauto].
  - inversion H as [|? ? Hs Hf]; subst. apply IH in Hs as (H1 & H2 & H3).
    rewrite Forall_forall in Hf.
    repeat split; auto.
    + constructor; auto. apply Forall_forall. intros; apply Hf, in_or_app; auto.
    + intros a b [<-|Ha] Hb; auto. apply Hf, in_or_app; auto.
Qed.

Lemma StronglySorted_map {A B} (R : B -> B -> Prop) (f : A -> B) l :
  StronglySorted (fun x y => R (f x) (f y)) l <-> StronglySorted R (map f l).
Proof.
  induction l as [|a l IH]; simpl.
  - split; constructor.
  - split; intros H; inversion H as [|? ? Hs Hf]; subst; constructor; try (apply IH; auto).
    + apply Forall_forall. intros b Hb. apply in_map_iff in Hb as (c & <- & Hc).
      rewrite Forall_forall in Hf; auto.
    + apply Forall_forall. intros b Hb. rewrite Forall_forall in Hf. apply Hf, in_map, Hb.
Qed.

Lemma StronglySorted_filter {A} (R : A -> A -> Prop) (f : A -> bool) l :
  StronglySorted R l -> StronglySorted R (filter f l).
Proof.
  induction 1 as [|a l Hs IH Hf]; simpl; [constructor|].
  destruct (f a); auto. constructor; auto.
  apply Forall_forall. intros b Hb. apply filter_In in Hb as [Hb _].
  rewrite Forall_forall in Hf; auto.
Qed.

Lemma StronglySorted_seq s n : StronglySorted lt (seq s n).
Proof.
  revert s; induction n as [|n IH]; intros s; simpl; constructor; auto.
  apply Forall_forall. intros b Hb. apply in_seq in Hb. lia.
Qed.

Lemma NoDup_app_inv {A} (l1 l2 : list A) :
  NoDup (l1 ++ l2) <-> NoDup l1 /\ NoDup l2 /\ (forall a, In a l1 -> ~ In a l2).
Proof.
  induction l1 as [|x l1 IH]; simpl.
  - split; [intros H; repeat split; auto; constructor|tauto].
  - split.
    + intros H. inversion H as [|? ? Hx Hn]; subst. apply IH in Hn as (H1 & H2 & H3).
      repeat split; auto.
      * constructor; auto. intros Hi. apply Hx, in_or_app; auto.
      * intros a [<-|Ha]; auto. intros Hi. apply Hx, in_or_app; auto.
    + intros (H1 & H2 & H3). inversion H1; subst. constructor.
      * rewrite in_app_iff. intros [?|?]; auto. eapply H3; eauto.
      * apply IH. repeat split; auto.
Qed.

Lemma Forall2_len {A B} (R : A -> B -> Prop) l1 l2 : Forall2 R l1 l2 -> length l1 = length l2.
Proof. induction 1; simpl; auto. Qed.

Lemma NoDup_app_snoc {A} (l : list A) a : NoDup l -> ~ In a l -> NoDup (l ++ [a]).
Proof.
  intros H Ha. induction H as [|b l Hb _ IH]; simpl.
  - constructor; auto; constructor.
  - constructor.
    + rewrite in_app_iff. intros [?|[->|[]]]; auto. apply Ha. now left.
    + apply IH. intros ?. apply Ha. now right.
Qed.

Lemma nth_error_snoc {A} (l : list A) a i x : nth_error (l ++ [a]) i = Some x ->
  (i < length l /\ nth_error l i = Some x) \/ (i = length l /\ x = a).
Proof.
  intros H. destruct (Nat.lt_ge_cases i (length l)) as [Hi|Hi].
  - left. split; auto. now rewrite nth_error_app1 in H.
  - right. rewrite nth_error_app2 in H by auto.
    destruct (i - length l) as [|k] eqn:E; simpl in H.
    + split; [lia|congruence].
    + destruct k; discriminate.
Qed.
Lemma nth_error_snoc_last {A} (l : list A) a : nth_error (l ++ [a]) (length l) = Some a.
Proof. rewrite nth_error_app2, Nat.sub_diag by auto. reflexivity. Qed.

Lemma ofold_app {A B} (f : A -> B -> outcome A) l1 l2 a :
  ofold f (l1 ++ l2) a = obind (ofold f l1 a) (fun a' => ofold f l2 a').
Proof.
  revert a; induction l1 as [|b l1 IH]; intros a; simpl; auto.
  destruct (f a b); simpl; auto.
Qed.

Lemma skipn_skipn {A} (l : list A) x y : skipn x (skipn y l) = skipn (x + y) l.
Proof.
  revert l; induction y as [|y IH]; intros l; [now rewrite Nat.add_0_r|].
  rewrite Nat.add_succ_r. destruct l; simpl; [now rewrite skipn_nil|apply IH].
Qed.

Lemma ofold_ind {A B} (P : list B -> A -> Prop) (f : A -> B -> outcome A) l a :
  P [] a -> (forall pre x post s, l = pre ++ x :: post -> P pre s -> exists s', f s x = Ok s' /\ P (pre ++ [x]) s') ->
  exists a', ofold f l a = Ok a' /\ P l a'.
Proof.
  intros H0 Hs.
  assert (G : forall post pre s, l = pre ++ post -> P pre s -> exists a', ofold f post s = Ok a' /\ P l a').
  { induction post as [|x post IH]; intros pre s E H; simpl.
    - rewrite app_nil_r in E. subst. eauto.
    - destruct (Hs pre x post s E H) as (s' & E' & H'). rewrite E'. simpl.
      apply (IH (pre ++ [x])); auto. now rewrite <- app_assoc. }
  apply (G l []); auto.
Qed.

Lemma omapM_ok {A B} (f : A -> outcome B) (g : A -> B) l : (forall x, In x l -> f x = Ok (g x)) -> omapM f l = Ok (map g l).
Proof.
  induction l as [|a l IH]; intros H; simpl; auto. rewrite H by (now left). simpl.
  rewrite IH by (intros; apply H; now right). reflexivity.
Qed.
