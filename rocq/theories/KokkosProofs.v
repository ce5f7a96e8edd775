(** Proofs about the parallel loops of KokkosModel: the effect of a loop does not depend on the
    interleaving of its accesses. *)
From Coq Require Import Reals Lra Permutation.
From Verif Require Import Base Strings ListLemmas DataModel Loops TensorModel ElementModel BlockModel KokkosModel.
Set Implicit Arguments.
Local Open Scope nat_scope.
Local Open Scope list_scope.
Local Notation length := List.length.

Lemma interleave_perm {A} (ls : list (list A)) s : Interleave ls s -> Permutation (List.concat ls) s.
Proof.
  induction 1 as [ls H|ls1 a l ls2 s H IH].
  - induction H as [|l ls -> H IH]; simpl; auto.
  - rewrite concat_app in *. simpl in *. symmetry. etransitivity; [|apply Permutation_middle]. constructor. symmetry. apply IH.
Qed.

(** * Heaps *)
Definition cell (h : heap) (g : nat) : option (list R) := nth_error h g.
Lemma list_set_set {A} (l : list A) i x y : list_set (list_set l i x) i y = list_set l i y.
Proof. revert i; induction l as [|a l IH]; intros [|i]; simpl; auto. now rewrite IH. Qed.
Lemma list_set_self {A} (l : list A) i x : nth_error l i = Some x -> list_set l i x = l.
Proof. revert i; induction l as [|a l IH]; intros [|i]; simpl; try discriminate. - now intros [= ->]. - intros; now rewrite IH. Qed.
Lemma nth_set_same {A} (l : list A) i x : i < length l -> nth_error (list_set l i x) i = Some x.
Proof. intros. rewrite nth_error_list_set. rewrite Nat.eqb_refl. now replace (i <? length l) with true by (symmetry; apply Nat.ltb_lt; lia). Qed.
Lemma nth_set_other {A} (l : list A) i x k : k <> i -> nth_error (list_set l i x) k = nth_error l k.
Proof. intros. rewrite nth_error_list_set. now destruct (Nat.eqb_spec k i). Qed.
Lemma nth_some_lt {A} (l : list A) i x : nth_error l i = Some x -> i < length l.
Proof. intros H. apply nth_error_Some. congruence. Qed.

(** the value an access would use in heap h *)
Definition value (h : heap) (a : act) : outcome R := do vs <- omapM (rd h) (a_reads a); a_val a vs.
Lemma omapM_ext {A B} (f g : A -> outcome B) l : (forall x, In x l -> f x = g x) -> omapM f l = omapM g l.
Proof. induction l as [|x l IH]; intros H; simpl; auto. rewrite H by now left. rewrite IH; auto. intros; apply H; now right. Qed.
Lemma rd_other h g d l : fst l <> g -> rd (list_set h g d) l = rd h l.
Proof. intros H. unfold rd, vget. now rewrite nth_set_other. Qed.
Lemma value_other h g d a : (forall r, In r (a_reads a) -> fst r <> g) -> value (list_set h g d) a = value h a.
Proof. intros H. unfold value. rewrite (omapM_ext (rd (list_set h g d)) (rd h)); auto. intros r Hr. apply rd_other. auto. Qed.

(** accesses to view g that read other views only *)
Definition access (g : nat) (add : bool) (n : nat) (a : act) : Prop :=
  fst (a_loc a) = g /\ snd (a_loc a) < n /\ a_add a = add /\ forall r, In r (a_reads a) -> fst r <> g.
Lemma step_access h g d add a : nth_error h g = Some d -> access g add (length d) a ->
  step h a = do v <- value h a; Ok (list_set h g (list_set d (snd (a_loc a)) (if add then nth (snd (a_loc a)) d 0 + v else v)%R)).
Proof.
  intros Hg (H1 & H2 & H3 & H4). unfold step, value. destruct (omapM (rd h) (a_reads a)) as [vs| | |]; cbn [obind]; auto.
  destruct (a_val a vs) as [v| | |]; cbn [obind]; auto.
  destruct (a_loc a) as [g' i]; simpl in *. subst g'. unfold rd, wr, vget. simpl. rewrite Hg. cbn [obind].
  destruct (nth_error d i) as [old|] eqn:E; [|apply nth_error_None in E; lia]. cbn [obind]. rewrite H3. destruct add; auto.
  now rewrite (nth_error_nth d i 0%R E).
Qed.

(** a loop of assignments: f gives the value for every location *)
Definition written (s : list act) (i : nat) : bool := existsb (fun a => snd (a_loc a) =? i) s.
Lemma set_loop f s : forall h g d, nth_error h g = Some d ->
  (forall a, In a s -> access g false (length d) a /\ value h a = Ok (f (snd (a_loc a)))) ->
  exists d', ofold step s h = Ok (list_set h g d') /\ length d' = length d /\
    forall i, i < length d -> nth_error d' i = if written s i then Some (f i) else nth_error d i.
Proof.
  induction s as [|a s IH]; intros h g d Hg H.
  - exists d. simpl. rewrite list_set_self by assumption. auto.
  - destruct (H a (or_introl eq_refl)) as [Ha Hv]. cbn [ofold]. rewrite (step_access h Hg Ha), Hv. cbn [obind].
    set (i := snd (a_loc a)) in *. set (d1 := list_set d i (f i)).
    assert (L : g < length h) by (eapply nth_some_lt; eauto).
    destruct (IH (list_set h g d1) g d1) as (d' & H1 & H2 & H3).
    + now apply nth_set_same.
    + intros b Hb. destruct (H b (or_intror Hb)) as [Hc Hd]. split.
      * unfold d1. rewrite list_set_length. exact Hc.
      * rewrite value_other; auto. intros r Hr. now apply Hc.
    + exists d'. rewrite H1, list_set_set. split; auto. unfold d1 in *. rewrite list_set_length in *. split; auto.
      intros j Hj. rewrite H3 by assumption. cbn [written existsb]. fold (written s j). fold i.
      destruct (written s j); [now rewrite orb_true_r|]. rewrite orb_false_r. rewrite nth_error_list_set.
      rewrite (Nat.eqb_sym j i). destruct (Nat.eqb_spec i j) as [->|]; simpl; auto.
      replace (j <? length d) with true by (symmetry; apply Nat.ltb_lt; lia). reflexivity.
Qed.
Lemma written_perm s s' i : Permutation s s' -> written s i = written s' i.
Proof. unfold written. induction 1; simpl; auto; [now rewrite IHPermutation|now rewrite !orb_assoc, (orb_comm (_ =? _))|congruence]. Qed.
Lemma written_in s i : written s i = true <-> exists a, In a s /\ snd (a_loc a) = i.
Proof. unfold written. rewrite existsb_exists. split; intros (a & H & E); exists a; split; auto; now apply Nat.eqb_eq. Qed.
Lemma list_ext {A} (l m : list A) : (forall i, nth_error l i = nth_error m i) -> l = m.
Proof.
  revert m; induction l as [|a l IH]; intros [|b m] H; auto; try (specialize (H 0); discriminate).
  f_equal; [specialize (H 0); simpl in H; congruence|]. apply IH. intros i. apply (H (Datatypes.S i)).
Qed.
Lemma list_of_map {A} (d : list A) (f : nat -> A) n : length d = n -> (forall i, i < n -> nth_error d i = Some (f i)) -> d = map f (seq 0 n).
Proof.
  intros L H. apply list_ext.
  intros i. rewrite nth_error_map, nth_error_seq. destruct (Nat.ltb_spec i n) as [Hi|Hi].
  - now rewrite H by assumption.
  - simpl. apply nth_error_None. lia.
Qed.
Lemma nth_map_seq {A} (f : nat -> A) n i : i < n -> nth_error (map f (seq 0 n)) i = Some (f i).
Proof. intros. rewrite nth_error_map, nth_error_seq. now replace (i <? n) with true by (symmetry; apply Nat.ltb_lt; lia). Qed.

(** a loop that finished had all its values *)
Lemma loop_values add s : forall h g d h', nth_error h g = Some d -> (forall a, In a s -> access g add (length d) a) ->
  ofold step s h = Ok h' -> forall a, In a s -> exists x, value h a = Ok x.
Proof.
  induction s as [|a s IH]; intros h g d h' Hg H Hs b Hb; [destruct Hb|].
  pose proof (H a (or_introl eq_refl)) as Ha. cbn [ofold] in Hs. rewrite (step_access h Hg Ha) in Hs.
  destruct (value h a) as [x| | |] eqn:Hv; try discriminate. cbn [obind] in Hs. destruct Hb as [<-|Hb]; [eauto|].
  assert (L : g < length h) by (eapply nth_some_lt; eauto).
  eapply IH in Hs; [| |intros c Hc|exact Hb].
  - rewrite value_other in Hs; auto. intros r Hr. now apply (H b (or_intror Hb)).
  - now apply nth_set_same.
  - rewrite list_set_length. apply H. now right.
Qed.

(** * Loops under every interleaving *)
(** different iterations set different entries *)
Definition distinct_entries (its : list (list act)) : Prop :=
  forall i j a b, i <> j -> In a (nth i its []) -> In b (nth j its []) -> snd (a_loc a) <> snd (a_loc b).
Lemma in_nth its i (a : act) : In a (nth i its []) -> In a (List.concat its).
Proof.
  intros H. destruct (Nat.lt_ge_cases i (length its)) as [L|L].
  - apply in_concat. exists (nth i its []). split; auto. now apply nth_In.
  - rewrite nth_overflow in H by assumption. destruct H.
Qed.
Lemma accesses_race_free its g add n : (forall a, In a (List.concat its) -> access g add n a) -> (add = false -> distinct_entries its) -> race_free its.
Proof.
  intros H D i j a b Hij Ha Hb. destruct (H a (in_nth _ _ _ Ha)) as (A1 & _ & A3 & _). destruct (H b (in_nth _ _ _ Hb)) as (B1 & _ & B3 & B4). split.
  - intros Hr. now apply (B4 _ Hr).
  - intros E. destruct add; [auto|]. exfalso. apply (D eq_refl i j a b Hij Ha Hb). now rewrite E.
Qed.
Lemma bands (f : nat -> list act) m n : (forall e a, e < n -> In a (f e) -> exists k, k < m /\ snd (a_loc a) = e * m + k) -> distinct_entries (map f (seq 0 n)).
Proof.
  intros H i j a b Hij Ha Hb E.
  assert (B : forall i a, In a (nth i (map f (seq 0 n)) []) -> exists k, k < m /\ snd (a_loc a) = i * m + k).
  { intros i' a' Hi. destruct (Nat.lt_ge_cases i' n) as [L|L].
    - apply (H i' a' L). rewrite (nth_indep _ [] (f 0)) in Hi by (rewrite map_length, seq_length; lia). rewrite map_nth, seq_nth in Hi by lia. exact Hi.
    - rewrite nth_overflow in Hi by (rewrite map_length, seq_length; lia). destruct Hi. }
  destruct (B i a Ha) as (k & Hk & E1). destruct (B j b Hb) as (k' & Hk' & E2). rewrite E1, E2 in E.
  destruct (Nat.lt_total i j) as [L|[L|L]]; [|contradiction|]; nia.
Qed.
Lemma sched_perm sched k its : valid_sched sched -> race_free its -> Permutation (List.concat its) (sched k its).
Proof. intros H R. apply interleave_perm. now apply H. Qed.
Lemma parallel_set sched k its f h g d : valid_sched sched -> nth_error h g = Some d -> distinct_entries its ->
  (forall a, In a (List.concat its) -> access g false (length d) a /\ value h a = Ok (f (snd (a_loc a)))) ->
  (forall i, i < length d -> exists a, In a (List.concat its) /\ snd (a_loc a) = i) ->
  parallel_for sched k its h = Ok (list_set h g (map f (seq 0 (length d)))).
Proof.
  intros Hs Hg Hd H Hc. unfold parallel_for.
  assert (RF : race_free its) by (apply (@accesses_race_free its g false (length d)); [intros a Ha; now apply H|auto]).
  pose proof (sched_perm k Hs RF) as P.
  destruct (@set_loop f (sched k its) h g d Hg) as (d' & H1 & H2 & H3).
  { intros a Ha. apply H. eapply Permutation_in; [symmetry; exact P|exact Ha]. }
  rewrite H1. do 2 f_equal. apply list_of_map; auto. intros i Hi. rewrite H3 by assumption.
  rewrite <- (written_perm _ P). now rewrite (proj2 (written_in _ _) (Hc i Hi)).
Qed.
Lemma parallel_values sched k its add h g d h' : valid_sched sched -> nth_error h g = Some d -> (add = false -> distinct_entries its) ->
  (forall a, In a (List.concat its) -> access g add (length d) a) -> parallel_for sched k its h = Ok h' ->
  forall a, In a (List.concat its) -> exists x, value h a = Ok x.
Proof.
  intros Hs Hg Hd H Hr a Ha. pose proof (sched_perm k Hs (accesses_race_free H Hd)) as P. eapply loop_values; [exact Hg| |exact Hr|].
  - intros b Hb. apply H. eapply Permutation_in; [symmetry; exact P|exact Hb].
  - eapply Permutation_in; eauto.
Qed.

(** a loop of atomic additions *)
Definition amount (w : act -> R) (s : list act) (i : nat) : R :=
  fold_right (fun a x => (if snd (a_loc a) =? i then w a else 0) + x)%R 0%R s.
Lemma amount_perm w s s' i : Permutation s s' -> amount w s i = amount w s' i.
Proof. induction 1; simpl; lra. Qed.
Lemma amount_app w s s' i : amount w (s ++ s') i = (amount w s i + amount w s' i)%R.
Proof. induction s as [|a s IH]; simpl; [lra|]. rewrite IH. lra. Qed.
Lemma add_loop w s : forall h g d, nth_error h g = Some d ->
  (forall a, In a s -> access g true (length d) a /\ value h a = Ok (w a)) ->
  ofold step s h = Ok (list_set h g (map (fun i => nth i d 0 + amount w s i)%R (seq 0 (length d)))).
Proof.
  induction s as [|a s IH]; intros h g d Hg H.
  - simpl. rewrite list_set_self; auto. rewrite Hg. f_equal. apply list_of_map; auto. intros i Hi.
    rewrite Rplus_0_r. now apply nth_error_nth'.
  - destruct (H a (or_introl eq_refl)) as [Ha Hv]. cbn [ofold]. rewrite (step_access h Hg Ha), Hv. cbn [obind].
    set (i := snd (a_loc a)) in *. set (d1 := list_set d i _).
    assert (L : g < length h) by (eapply nth_some_lt; eauto).
    rewrite (IH (list_set h g d1) g d1).
    + rewrite list_set_set. do 2 f_equal. unfold d1. rewrite list_set_length. apply map_ext_in. intros j Hj.
      apply in_seq in Hj. rewrite nth_list_set. cbn [amount fold_right]. fold (amount w s j). fold i.
      rewrite (Nat.eqb_sym j i). destruct (Nat.eqb_spec i j) as [->|]; simpl; [|lra].
      replace (j <? length d) with true by (symmetry; apply Nat.ltb_lt; lia). lra.
    + now apply nth_set_same.
    + intros b Hb. destruct (H b (or_intror Hb)) as [Hc Hd]. split.
      * unfold d1. rewrite list_set_length. exact Hc.
      * rewrite value_other; auto. intros r Hr. now apply Hc.
Qed.
Lemma parallel_add sched k its w h g d : valid_sched sched -> nth_error h g = Some d ->
  (forall a, In a (List.concat its) -> access g true (length d) a /\ value h a = Ok (w a)) ->
  parallel_for sched k its h = Ok (list_set h g (map (fun i => nth i d 0 + amount w (List.concat its) i)%R (seq 0 (length d)))).
Proof.
  intros Hs Hg H. unfold parallel_for.
  assert (RF : race_free its) by (apply (@accesses_race_free its g true (length d)); [intros a Ha; now apply H|discriminate]).
  pose proof (sched_perm k Hs RF) as P.
  rewrite (@add_loop w (sched k its) h g d Hg).
  - do 2 f_equal. apply map_ext. intros i. now rewrite (amount_perm w i P).
  - intros a Ha. apply H. eapply Permutation_in; [symmetry; exact P|exact Ha].
Qed.
