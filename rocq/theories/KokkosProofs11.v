(** The work arrays of ModelData::InitializeBlocks, and the places in memory. *)
From Coq Require Import Reals Lra Sorted Permutation.
From Verif Require Import Base Strings ListLemmas DataModel DataProofs Loops InputProofs3 ElemDataProofs4 KokkosModel KokkosProofs KokkosSpec KokkosProofs5 KokkosProofs7 KokkosProofs8 KokkosProofs9 KokkosProofs10.
Set Implicit Arguments.
Local Open Scope nat_scope.
Local Open Scope list_scope.
Local Notation length := List.length.

Definition same_sizes (h h' : heap) : Prop := map (@List.length R) h = map (@List.length R) h'.
Lemma sizes_refl h : same_sizes h h. Proof. reflexivity. Qed.
Lemma sizes_trans h1 h2 h3 : same_sizes h1 h2 -> same_sizes h2 h3 -> same_sizes h1 h3.
Proof. unfold same_sizes. congruence. Qed.
Lemma sizes_at h h' g d : same_sizes h h' -> nth_error h g = Some d -> exists d', nth_error h' g = Some d' /\ length d' = length d.
Proof.
  unfold same_sizes. intros H Hg. pose proof (map_nth_error (@List.length R) g h Hg) as E. rewrite H in E. rewrite nth_error_map in E.
  destruct (nth_error h' g) as [d'|]; [|discriminate]. injection E as E. eauto.
Qed.
Lemma sizes_intro (h h' : heap) : length h = length h' -> (forall g d, nth_error h g = Some d -> exists d', nth_error h' g = Some d' /\ length d' = length d) -> same_sizes h h'.
Proof.
  revert h'. induction h as [|a h IH]; intros [|b h'] L H; try discriminate; [reflexivity|]. unfold same_sizes. simpl. apply (f_equal2 cons).
  - destruct (H 0 a eq_refl) as (x & [= <-] & E). now symmetry.
  - apply IH; [simpl in L; lia|]. intros g d Hg. exact (H (Datatypes.S g) d Hg).
Qed.
Lemma sizes_set h g d d' : nth_error h g = Some d -> length d' = length d -> same_sizes h (list_set h g d').
Proof.
  intros Hg L. apply sizes_intro; [now rewrite list_set_length|]. intros i x Hi. destruct (Nat.eq_dec i g) as [->|].
  - exists d'. split; [apply nth_set_same; eapply nth_some_lt; eauto|]. congruence.
  - exists x. rewrite nth_set_other by assumption. auto.
Qed.
Lemma sizes_length h h' : same_sizes h h' -> length h = length h'.
Proof. intros H. apply (f_equal (@List.length nat)) in H. now rewrite !map_length in H. Qed.
Lemma good_sizes same tb h h' : same_sizes h h' -> good same (tb, h) -> good same (tb, h').
Proof.
  intros S [G1 G2 G3]. constructor; cbn [fst snd] in *; auto. intros k p Hp. destruct (G2 k p Hp) as (A & B & C).
  assert (St : forall f, stored h f -> stored h' f).
  { intros f (x & H1 & H2). destruct (sizes_at _ S H1) as (y & H3 & H4). exists y. split; auto. congruence. }
  split; [auto|]. split; [auto|]. exact C.
Qed.
Lemma good_keeps same tb h h' : keeps h h' -> good same (tb, h) -> good same (tb, h').
Proof.
  intros S [G1 G2 G3]. constructor; cbn [fst snd] in *; auto. intros k p Hp. eapply keeps_pair; eauto.
Qed.
Lemma holds_keeps tb h h' x k n hd dd : keeps h h' -> holds (tb, h) x k n hd dd -> holds (tb, h') x k n hd dd.
Proof.
  intros [_ K] (p & H1 & H2 & H3 & H4 & H5 & H6 & H7). exists p. cbn [fst snd] in *. repeat split; auto; rewrite K; auto; eapply nth_some_lt; eauto.
Qed.

(** * Work arrays *)
Definition zeroed (h : heap) (v : view) (n w : nat) : Prop := v_extent v = n /\ nth_error h (v_id v) = Some (repeat 0%R (n * w)).
(** which requests give separate work arrays *)
Definition separate (keep : bool) (sizes : list nat) : Prop :=
  keep = false \/ forall i j, nth_error sizes i = Some 1 -> nth_error sizes j = Some 1 -> i = j.
Lemma nth_repeat {A} (v : A) n j : j < n -> nth_error (repeat v n) j = Some v.
Proof. revert j. induction n as [|n IH]; intros [|j] H; simpl; try lia; auto. apply IH. lia. Qed.
Lemma gathered_ok keep h sizes w : separate keep sizes ->
  exists h' vs, gathered_vector keep h (length sizes) sizes w = Ok (h', vs) /\ keeps h h' /\ length vs = length sizes /\
    (forall k n, nth_error sizes k = Some n -> exists v, nth_error vs k = Some v /\ zeroed h' v n w /\ length h <= v_id v) /\
    (forall i j u v, nth_error vs i = Some u -> nth_error vs j = Some v -> v_id u = v_id v -> i = j).
Proof.
  intros Sep. unfold gathered_vector. set (v0 := View (length h) 1). set (nb := length sizes).
  unfold new_view. fold v0.
  destruct (@numbered_ind (heap * list view) nat (fun k s =>
    keeps (h ++ [repeat 0%R (1 * w)]) (fst s) /\ length (snd s) = nb /\ (forall j, k <= j -> j < nb -> nth_error (snd s) j = Some v0) /\
    (forall j n, j < k -> nth_error sizes j = Some n -> exists v, nth_error (snd s) j = Some v /\ zeroed (fst s) v n w /\
       (length h < v_id v \/ (v_id v = length h /\ n = 1 /\ keep = true))) /\
    (forall i j u v, i < k -> j < k -> nth_error (snd s) i = Some u -> nth_error (snd s) j = Some v -> v_id u = v_id v -> i <> j -> v_id u = length h))
    (fun (s : heap * list view) e => do v <- vat (snd s) (fst e); let '(h, v) := resize keep (fst s) v (snd e) w in Ok (h, list_set (snd s) (fst e) v))
    sizes (h ++ [repeat 0%R (1 * w)], repeat v0 nb)) as ((h' & vs) & E & K & Lv & _ & H4 & H5).
  - cbn [fst snd]. repeat split; auto.
    + apply repeat_length.
    + intros j _ Hj. now apply nth_repeat.
    + intros; lia.
    + intros; lia.
  - intros k n [h1 vs] Hk (I1 & I2 & I3 & I4 & I5). cbn [fst snd] in *.
    assert (Hkn : k < nb) by (eapply nth_some_lt; exact Hk). unfold vat. rewrite (I3 k) by lia. cbn [obind].
    assert (L1 : length h < length h1) by (destruct I1 as [X _]; rewrite app_length in X; simpl in X; lia).
    unfold resize. cbn [v_extent v0]. destruct (keep && (1 =? n)) eqn:Ek.
    + apply andb_true_iff in Ek. destruct Ek as [Ek En]. apply Nat.eqb_eq in En. subst n.
      rewrite list_set_self by (apply I3; lia). eexists. split; [reflexivity|]. cbn [fst snd]. repeat split; auto; try apply I1.
      * intros j Hj1 Hj2. apply I3; lia.
      * intros j n Hj Hn. destruct (Nat.eq_dec j k) as [->|].
        -- exists v0. split; [apply I3; lia|]. rewrite Hk in Hn. injection Hn as <-. split; [|right; auto]. split; [reflexivity|].
           destruct I1 as [X Y]. cbn [v_id v0]. rewrite Y by (rewrite app_length; simpl; lia). rewrite nth_error_snoc_last. reflexivity.
        -- apply I4; [lia|assumption].
      * intros i j u v Hi Hj Hu Hv Euv Hij. destruct (Nat.eq_dec i k) as [->|]; destruct (Nat.eq_dec j k) as [->|]; try congruence.
        -- rewrite (I3 k) in Hu by lia. injection Hu as <-. reflexivity.
        -- rewrite (I3 k) in Hv by lia. injection Hv as <-. rewrite Euv. reflexivity.
        -- apply (I5 i j u v); auto; lia.
    + unfold new_view. eexists. split; [reflexivity|]. cbn [fst snd]. repeat split.
      * rewrite (app_length h1). destruct I1. lia.
      * intros g Hg. destruct I1 as [X Y]. rewrite nth_error_app1 by lia. now apply Y.
      * now rewrite list_set_length.
      * intros j Hj1 Hj2. rewrite nth_error_list_set. replace (j =? k) with false by (symmetry; apply Nat.eqb_neq; lia). apply I3; lia.
      * intros j m Hj Hm. destruct (Nat.eq_dec j k) as [->|].
        -- rewrite nth_error_list_set, I2. rewrite Nat.eqb_refl. replace (k <? nb) with true by (symmetry; apply Nat.ltb_lt; lia). cbn [andb].
           rewrite Hk in Hm. injection Hm as <-. eexists. split; [reflexivity|]. split; [split; [reflexivity|]|left; cbn [v_id]; lia].
           cbn [v_id]. apply nth_error_snoc_last.
        -- destruct (I4 j m ltac:(lia) Hm) as (v & V1 & (V2 & V3) & V4). exists v. rewrite nth_error_list_set.
           replace (j =? k) with false by (symmetry; apply Nat.eqb_neq; lia). split; [exact V1|]. split; auto. split; auto.
           rewrite nth_error_app1; auto. eapply nth_some_lt; eauto.
      * intros i j u v Hi Hj Hu Hv Euv Hij. rewrite nth_error_list_set in Hu, Hv. rewrite I2 in Hu, Hv.
        assert (Lt : forall a x, a < k -> nth_error vs a = Some x -> v_id x < length h1).
        { intros a x Ha Hx. assert (Hm : exists m, nth_error sizes a = Some m).
          { destruct (nth_error sizes a) eqn:Ex; eauto. apply nth_error_None in Ex. fold nb in Ex. lia. }
          destruct Hm as [m Hm]. destruct (I4 a m Ha Hm) as (y & Y1 & (_ & Y2) & _). rewrite Hx in Y1. injection Y1 as <-. eapply nth_some_lt; eauto. }
        destruct (Nat.eqb_spec i k) as [->|]; destruct (Nat.eqb_spec j k) as [->|]; try congruence.
        -- replace (k <? nb) with true in Hu by (symmetry; apply Nat.ltb_lt; lia). cbn [andb] in Hu, Hv. injection Hu as <-. cbn [v_id] in Euv.
           pose proof (Lt j v ltac:(lia) Hv). lia.
        -- replace (k <? nb) with true in Hv by (symmetry; apply Nat.ltb_lt; lia). cbn [andb] in Hu, Hv. injection Hv as <-. cbn [v_id] in Euv.
           pose proof (Lt i u ltac:(lia) Hu). lia.
        -- cbn [andb] in Hu, Hv. apply (I5 i j u v); auto; lia.
  - cbn [fst snd] in *. exists h', vs. split; [exact E|]. split.
    { eapply keeps_trans; [apply keeps_app|exact K]. }
    split; [exact Lv|]. split.
    + intros k n Hn. assert (k < nb) by (eapply nth_some_lt; exact Hn). destruct (H4 k n ltac:(assumption) Hn) as (v & V1 & V2 & V3). exists v. split; auto. split; auto. lia.
    + intros i j u v Hu Hv Euv. destruct (Nat.eq_dec i j) as [|Hij]; auto. exfalso.
      assert (Hi : i < nb) by (rewrite <- Lv; eapply nth_some_lt; exact Hu). assert (Hj : j < nb) by (rewrite <- Lv; eapply nth_some_lt; exact Hv).
      pose proof (H5 i j u v Hi Hj Hu Hv Euv Hij) as Eu.
      assert (O : forall a x, nth_error vs a = Some x -> a < nb -> v_id x = length h -> nth_error sizes a = Some 1 /\ keep = true).
      { intros a x Hx Ha Ex. assert (Hm : exists m, nth_error sizes a = Some m).
        { destruct (nth_error sizes a) eqn:Ea; eauto. apply nth_error_None in Ea. fold nb in Ea. lia. }
        destruct Hm as [m Hm]. destruct (H4 a m Ha Hm) as (y & Y1 & _ & Y2). rewrite Hx in Y1. injection Y1 as <-.
        destruct Y2 as [Y2|(_ & -> & Hk)]; [lia|auto]. }
      destruct (O i u Hu Hi Eu) as [O1 O2]. destruct (O j v Hv Hj ltac:(lia)) as [O3 _].
      destruct Sep as [Sep|Sep]; [congruence|]. apply Hij. eapply Sep; eauto.
Qed.
