(** Proofs about the sums over the ranks by Tpetra. *)
From Coq Require Import Reals Lra Permutation Sorting.Sorted.
From Verif Require Import Base Loops DataModel MpiSpec MpiFinal MpiRunProofs TpetraModel TpetraSpec.
Set Implicit Arguments.
Local Open Scope nat_scope.
Local Open Scope list_scope.

Lemma omapM_map {A B} (f : A -> outcome B) (h : A -> B) l :
  (forall x, In x l -> f x = Ok (h x)) -> omapM f l = Ok (map h l).
Proof.
  induction l as [|a l IH]; simpl; intros H; auto.
  rewrite H by auto. simpl. rewrite IH by auto. reflexivity.
Qed.

(** ** the tie break selects the least rank *)
Lemma selected_index_ok l : l <> [] ->
  exists i p, selected_index l = Ok i /\ nth_error l i = Some p /\ forall q, In q l -> fst p <= fst q.
Proof.
  intros Hl. unfold selected_index. destruct l as [|p0 l']; [congruence|]. set (l := p0 :: l') in *.
  assert (E0 : nth_error l 0 = Some p0) by reflexivity. clearbody l.
  unfold vget at 1. rewrite E0. cbn [obind].
  destruct (@oloop_ind (nat * nat) (fun k s => exists p, nth_error l (fst s) = Some p /\ fst p = snd s /\
     forall k' q, k' < k -> nth_error l k' = Some q -> snd s <= fst q) 0 (length l)
     (fun i (s : nat * nat) => do p <- vget l i; Ok (if fst p <? snd s then (i, fst p) else s)) (0, fst p0)) as (s' & E & p & H1 & H2 & H3).
  - lia.
  - exists p0. split; [exact E0|]. split; [reflexivity|]. intros k' q C. lia.
  - intros k [i pid] Hk (p & H1 & H2 & H3). simpl in *.
    unfold vget. destruct (nth_error l k) as [q|] eqn:Ek; [|apply nth_error_None in Ek; lia].
    simpl. eexists. split; [reflexivity|].
    destruct (fst q <? pid) eqn:Eq; simpl.
    + exists q. repeat split; auto. intros k' q' Hk' Hn. destruct (Nat.eq_dec k' k) as [->|N].
      * rewrite Ek in Hn. injection Hn as <-. lia.
      * apply Nat.ltb_lt in Eq. specialize (H3 k' q'). lia || (assert (pid <= fst q') by (apply H3; auto; lia); lia).
    + exists p. repeat split; auto. intros k' q' Hk' Hn. destruct (Nat.eq_dec k' k) as [->|N].
      * rewrite Ek in Hn. injection Hn as <-. apply Nat.ltb_ge in Eq. lia.
      * apply (H3 k' q'); auto; lia.
  - rewrite E. simpl. exists (fst s'), p. repeat split; auto.
    intros q Hq. apply In_nth_error in Hq as (k & Hk). rewrite H2. apply (H3 k q); auto.
    apply nth_error_Some. congruence.
Qed.

Lemma index_of_In g l : In g l -> exists i, index_of g l = Some i.
Proof.
  intros H. destruct (index_of g l) eqn:E; eauto. exfalso. exact (@index_of_None l g E H).
Qed.
Lemma index_of_In' g l i : index_of g l = Some i -> In g l.
Proof. intros H. destruct (@index_of_Some l g i H) as (L & <-). now apply nth_In. Qed.

Lemma pid_and_lid_In m g r i : In (r, i) (pid_and_lid m g) -> holds m r g.
Proof.
  unfold pid_and_lid. intros H. apply in_flat_map in H as (q & Hq & H).
  destruct (index_of g (nth q m [])) eqn:E; [|destruct H]. destruct H as [H|[]]. injection H as <- <-.
  exact (@index_of_In' g _ n E).
Qed.
Lemma pid_and_lid_holds m g r : holds m r g -> exists i, In (r, i) (pid_and_lid m g).
Proof.
  intros H. destruct (@index_of_In g (nth r m []) H) as (i & E). exists i. unfold pid_and_lid.
  apply in_flat_map. exists r. split.
  - apply in_seq. apply holds_lt in H. lia.
  - rewrite E. now left.
Qed.

(** the least rank that has an id *)
Definition first_holder (m : tmap) (g : Z) : nat := hd 0 (holders m g).
Lemma holders_sorted m g : StronglySorted lt (holders m g).
Proof.
  unfold holders. generalize (length m) as n. intros n. generalize 0 as a. induction n as [|n IH]; intros a; simpl; [constructor|].
  destruct (holdsb m a g); auto. constructor; auto.
  apply Forall_forall. intros x H. apply filter_In in H as (H & _). apply in_seq in H. lia.
Qed.
Lemma first_holder_holds m g r : holds m r g -> holds m (first_holder m g) g.
Proof.
  intros H. unfold first_holder. apply holders_In in H. destruct (holders m g) as [|a l] eqn:E; [destruct H|].
  simpl. apply holders_In. rewrite E. now left.
Qed.
Lemma first_holder_le m g r : holds m r g -> first_holder m g <= r.
Proof.
  intros H. unfold first_holder. apply holders_In in H. pose proof (holders_sorted m g) as S.
  destruct (holders m g) as [|a l]; [destruct H|]. simpl. inversion S as [|? ? _ F]; subst.
  rewrite Forall_forall in F. destruct H as [->|H]; auto. apply F in H. lia.
Qed.

Lemma owner_ok lib m g r : library_ok lib -> holds m r g -> owner lib m g = Ok (first_holder m g).
Proof.
  intros (Hd & _ & _) H. unfold owner. set (l := tl_directory lib g (pid_and_lid m g)).
  assert (P : Permutation l (pid_and_lid m g)) by apply Hd.
  destruct (@pid_and_lid_holds m g r H) as (i0 & Hi0).
  destruct (@selected_index_ok l) as (i & p & E & En & Hmin).
  { intros E. rewrite E in P. apply Permutation_nil in P. rewrite P in Hi0. destruct Hi0. }
  rewrite E. simpl. unfold vget. rewrite En. simpl. f_equal.
  assert (Hp : holds m (fst p) g).
  { destruct p as [q j]. apply (@pid_and_lid_In m g q j). apply (Permutation_in _ P). exact (nth_error_In _ _ En). }
  apply Nat.le_antisymm.
  - destruct (@pid_and_lid_holds m g (first_holder m g)) as (j & Hj); [exact (@first_holder_holds m g r H)|].
    exact (Hmin (_, j) (Permutation_in _ (Permutation_sym P) Hj)).
  - now apply first_holder_le.
Qed.

Definition one_of (lib : tlib) (m : tmap) : tmap :=
  map (fun r => tl_order lib r (filter (fun g => first_holder m g =? r) (nth r m []))) (seq 0 (length m)).

Lemma create_one_to_one_ok lib m : library_ok lib -> create_one_to_one lib m = Ok (one_of lib m).
Proof.
  intros Hl. unfold create_one_to_one, one_of. apply omapM_map. intros r Hr.
  rewrite (@omapM_map _ _ _ (fun g => (g, first_holder m g))).
  - simpl. f_equal. f_equal. induction (nth r m []) as [|g l IH]; simpl; auto.
    destruct (first_holder m g =? r); simpl; congruence.
  - intros g Hg. rewrite (@owner_ok lib m g r Hl Hg). reflexivity.
Qed.

Lemma nth_one_of lib m r : r < length m -> nth r (one_of lib m) [] = tl_order lib r (filter (fun g => first_holder m g =? r) (nth r m [])).
Proof.
  intros H. unfold one_of.
  erewrite nth_indep; [|rewrite map_length, seq_length; exact H].
  rewrite (map_nth (fun r => tl_order lib r (filter (fun g => first_holder m g =? r) (nth r m []))) (seq 0 (length m)) 0 r).
  now rewrite seq_nth.
Qed.
Lemma length_one_of lib m : length (one_of lib m) = length m.
Proof. unfold one_of. now rewrite map_length, seq_length. Qed.

Lemma one_of_In lib m r g : library_ok lib -> (In g (nth r (one_of lib m) []) <-> holds m r g /\ first_holder m g = r).
Proof.
  intros (_ & Ho & _). destruct (Nat.lt_ge_cases r (length m)) as [L|L].
  - rewrite nth_one_of by auto. split.
    + intros H. apply (Permutation_in _ (Ho r _)) in H. apply filter_In in H as (H & E). apply Nat.eqb_eq in E. now split.
    + intros (H & E). apply (Permutation_in _ (Permutation_sym (Ho r _))). apply filter_In. split; auto. now apply Nat.eqb_eq.
  - rewrite nth_overflow by (rewrite length_one_of; auto). split; [intros []|]. intros (H & _). apply holds_lt in H. lia.
Qed.

(** ** vectors *)
Definition fits (m : tmap) (v : tvec) : Prop := length v = length m /\ forall r, length (nth r v []) = length (nth r m []).
Lemma fits_new m : fits m (vec_new m).
Proof.
  unfold vec_new. split; [apply map_length|]. intros r.
  destruct (Nat.lt_ge_cases r (length m)) as [L|L].
  - erewrite nth_indep; [|rewrite map_length; exact L].
    rewrite (map_nth (fun l => repeat 0%R (length l)) m [] r). apply repeat_length.
  - rewrite !nth_overflow; auto. now rewrite map_length.
Qed.
Lemma entry_In m v r g : fits m v -> In g (nth r m []) -> exists x, entry m v r g = Some x.
Proof.
  intros (_ & F) H. destruct (@index_of_In g _ H) as (i & E). unfold entry. rewrite E.
  destruct (@index_of_Some _ _ _ E) as (L & _). destruct (nth_error (nth r v []) i) eqn:En; eauto.
  apply nth_error_None in En. rewrite F in En. lia.
Qed.
Lemma entry_notIn m v r g : ~ In g (nth r m []) -> entry m v r g = None.
Proof. intros H. unfold entry. destruct (index_of g (nth r m [])) eqn:E; auto. destruct H. exact (@index_of_In' _ _ _ E). Qed.
Lemma entry_Some m v r g x : entry m v r g = Some x -> In g (nth r m []).
Proof. unfold entry. destruct (index_of g (nth r m [])) eqn:E; [|congruence]. intros _. exact (@index_of_In' _ _ _ E). Qed.

Lemma nth_error_combine {A B} (l : list A) (l' : list B) i a b :
  nth_error l i = Some a -> nth_error l' i = Some b -> nth_error (combine l l') i = Some (a, b).
Proof.
  revert l' i. induction l as [|x l IH]; intros [|y l'] [|i]; simpl; try congruence. apply IH.
Qed.
Section PerRank.
  Variable F : nat -> Z * R -> R.
  Definition per_rank (m : tmap) (v : tvec) : tvec :=
    map (fun r => map (F r) (combine (nth r m []) (nth r v []))) (seq 0 (length m)).
  Lemma nth_per_rank m v r : r < length m -> nth r (per_rank m v) [] = map (F r) (combine (nth r m []) (nth r v [])).
  Proof.
    intros H. unfold per_rank.
    erewrite nth_indep; [|rewrite map_length, seq_length; exact H].
    rewrite (map_nth (fun r => map (F r) (combine (nth r m []) (nth r v []))) (seq 0 (length m)) 0 r).
    now rewrite seq_nth.
  Qed.
  Lemma fits_per_rank m v : fits m v -> fits m (per_rank m v).
  Proof.
    intros (L & F'). split; [unfold per_rank; now rewrite map_length, seq_length|]. intros r.
    destruct (Nat.lt_ge_cases r (length m)) as [H|H].
    - rewrite nth_per_rank by auto. rewrite map_length, combine_length, F'. lia.
    - rewrite !nth_overflow; auto. unfold per_rank. now rewrite map_length, seq_length.
  Qed.
  Lemma entry_per_rank m v r g x : entry m v r g = Some x -> entry m (per_rank m v) r g = Some (F r (g, x)).
  Proof.
    intros H. pose proof (@entry_Some _ _ _ _ _ H) as Hg.
    assert (L : r < length m) by (exact (@holds_lt m r g Hg)).
    unfold entry in *. destruct (index_of g (nth r m [])) as [i|] eqn:E; [|congruence].
    rewrite nth_per_rank by auto. destruct (@index_of_Some _ _ _ E) as (Li & En).
    apply map_nth_error. apply nth_error_combine; auto. rewrite <- En. apply nth_error_nth'. auto.
  Qed.
End PerRank.

(** ** export and import *)
Definition contribution (m : tmap) (v : tvec) (g : Z) (q : nat) : list R := match entry m v q g with Some x => [x] | None => [] end.
Lemma rsum_app l l' : rsum (l ++ l') = (rsum l + rsum l')%R.
Proof. unfold rsum. induction l as [|a l IH]; simpl; [lra|]. rewrite IH. lra. Qed.
Lemma rsum_perm l l' : Permutation l l' -> rsum l = rsum l'.
Proof. unfold rsum. induction 1; simpl; lra. Qed.
Lemma fold_contributions m v g qs s :
  fold_left (fun s q => match entry m v q g with Some x => (s + x)%R | None => s end) qs s = (s + rsum (flat_map (contribution m v g) qs))%R.
Proof.
  revert s. induction qs as [|q qs IH]; intros s; simpl.
  - unfold rsum. simpl. lra.
  - rewrite IH, rsum_app. unfold contribution at 2. destruct (entry m v q g); unfold rsum; simpl; lra.
Qed.
Lemma seq_split n r : r < n -> Permutation (seq 0 n) (r :: filter (fun q => negb (q =? r)) (seq 0 n)).
Proof.
  intros H. apply NoDup_Permutation.
  - apply seq_NoDup.
  - constructor; [|apply NoDup_filter, seq_NoDup]. intros C. apply filter_In in C as (_ & C). now rewrite Nat.eqb_refl in C.
  - intros x. simpl. rewrite filter_In, in_seq. destruct (Nat.eq_dec r x) as [->|N].
    + split; auto. intros _. lia.
    + assert (E : (x =? r) = false) by (apply Nat.eqb_neq; auto). rewrite E. simpl. split; [auto|]. intros [C|C]; [congruence|tauto].
Qed.

Section Reduce.
  Variables (lib : tlib) (m : tmap).
  Hypothesis Hlib : library_ok lib.
  Let o := one_of lib m.
  Variables (v w : tvec).
  Hypothesis Hv : fits m v.
  Hypothesis Hw : fits o w.
  Let e := do_export_add lib m o v w.
  Let i := do_import_insert o m e v.

  Lemma export_fits : fits o e.
  Proof. exact (@fits_per_rank (fun r gx => fold_left (fun s q => match entry m v q (fst gx) with Some x => (s + x)%R | None => s end)
        (tl_arrivals lib r (fst gx) (filter (fun q => negb (q =? r)) (seq 0 (length m))))
        (match entry m v r (fst gx) with Some x => if tl_keep lib then (snd gx + x)%R else x | None => snd gx end)) o w Hw). Qed.
  Lemma export_entry r g x : In g (nth r o []) -> entry o w r g = Some x ->
    entry o e r g = Some ((if tl_keep lib then x else 0) + rsum (flat_map (contribution m v g) (seq 0 (length m))))%R.
  Proof.
    intros Hg Hx. destruct (proj1 (@one_of_In lib m r g Hlib) Hg) as (Hh & Hf).
    assert (L : r < length m) by (exact (@holds_lt m r g Hh)).
    unfold e. change (do_export_add lib m o v w) with (per_rank (fun r gx => fold_left (fun s q => match entry m v q (fst gx) with Some x => (s + x)%R | None => s end)
        (tl_arrivals lib r (fst gx) (filter (fun q => negb (q =? r)) (seq 0 (length m))))
        (match entry m v r (fst gx) with Some x => if tl_keep lib then (snd gx + x)%R else x | None => snd gx end)) o w).
    rewrite (@entry_per_rank _ _ _ _ _ _ Hx). simpl. f_equal. rewrite fold_contributions.
    destruct (@entry_In m v r g Hv Hh) as (y & Hy). rewrite Hy.
    rewrite (rsum_perm (Permutation_flat_map (contribution m v g) (proj2 (proj2 Hlib) r g (filter (fun q => negb (q =? r)) (seq 0 (length m)))))).
    rewrite (rsum_perm (Permutation_flat_map (contribution m v g) (@seq_split (length m) r L))). simpl. rewrite rsum_app.
    unfold contribution at 2. rewrite Hy. unfold rsum at 2. simpl. destruct (tl_keep lib); lra.
  Qed.
  Lemma import_fits : fits m i.
  Proof. exact (@fits_per_rank (fun r gx => match flat_map (fun q => match entry o e q (fst gx) with Some x => [x] | None => [] end) (seq 0 (length o)) with
      | x :: _ => x | [] => snd gx end) m v Hv). Qed.
  Lemma flat_single (f : nat -> list R) n q0 y : q0 < n -> f q0 = [y] -> (forall q, q <> q0 -> f q = []) -> flat_map f (seq 0 n) = [y].
  Proof.
    intros H0 H1 H2. assert (G : forall a k, (a <= q0 < a + k -> flat_map f (seq a k) = [y]) /\ (q0 < a -> flat_map f (seq a k) = [])).
    { intros a k. revert a. induction k as [|k IH]; intros a; simpl; split; intros H; try lia; auto.
      - destruct (Nat.eq_dec a q0) as [->|N].
        + rewrite H1. rewrite (proj2 (IH (S q0))) by lia. reflexivity.
        + rewrite H2 by auto. apply IH. lia.
      - rewrite H2 by lia. apply IH. lia. }
    apply G. lia.
  Qed.
  Lemma reduce_entry r g : In g (nth r m []) -> exists x, entry o w (first_holder m g) g = Some x /\
    entry m i r g = Some ((if tl_keep lib then x else 0) + rsum (flat_map (contribution m v g) (seq 0 (length m))))%R.
  Proof.
    intros Hg. pose proof (@first_holder_holds m g r Hg) as Hf.
    assert (Ho : In g (nth (first_holder m g) o [])) by (apply one_of_In; auto).
    destruct (@entry_In o w _ g Hw Ho) as (x & Hx). exists x. split; auto.
    destruct (@entry_In m v r g Hv Hg) as (y & Hy).
    unfold i. change (do_import_insert o m e v) with (per_rank (fun r gx => match flat_map (fun q => match entry o e q (fst gx) with Some x => [x] | None => [] end) (seq 0 (length o)) with
      | x :: _ => x | [] => snd gx end) m v).
    rewrite (@entry_per_rank _ _ _ _ _ _ Hy). simpl.
    rewrite (@flat_single _ _ (first_holder m g) ((if tl_keep lib then x else 0) + rsum (flat_map (contribution m v g) (seq 0 (length m))))%R); auto.
    - unfold o. rewrite length_one_of. exact (@holds_lt m _ g Hf).
    - rewrite (@export_entry _ g x Ho Hx). reflexivity.
    - intros q Hq. rewrite entry_notIn; auto. intros C. apply (@one_of_In lib m q g Hlib) in C. destruct C as (_ & C). auto.
  Qed.
End Reduce.
