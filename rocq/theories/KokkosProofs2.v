(** The loops over the elements of a block, under every interleaving. *)
From Coq Require Import Reals Lra Permutation FunctionalExtensionality.
From Verif Require Import Base Strings ListLemmas DataModel Loops TensorModel TensorSpec ElementModel ElementSpec ElementProofs BlockModel BlockProofs KokkosModel KokkosProofs KokkosSpec.
Set Implicit Arguments.
Local Open Scope nat_scope.
Local Open Scope list_scope.
Local Notation length := List.length.

(** * Reading *)
Lemma omapM_app {A B} (f : A -> outcome B) l1 l2 : omapM f (l1 ++ l2) = do a <- omapM f l1; do b <- omapM f l2; Ok (a ++ b).
Proof.
  induction l1 as [|x l1 IH]; simpl; [now destruct (omapM f l2)|]. destruct (f x); simpl; auto. rewrite IH.
  destruct (omapM f l1); simpl; auto. destruct (omapM f l2); simpl; auto.
Qed.
Lemma slice_length d off n : length (slice d off n) = n.
Proof. unfold slice. now rewrite map_length, seq_length. Qed.
Lemma omapM_map {A B C} (f : B -> outcome C) (g : A -> B) l : omapM f (map g l) = omapM (fun x => f (g x)) l.
Proof. induction l as [|x l IH]; simpl; auto. now rewrite IH. Qed.
Lemma rd_ok h g d i : nth_error h g = Some d -> i < length d -> rd h (g, i) = Ok (nth i d 0%R).
Proof. intros Hg Hi. unfold rd, vget. simpl. rewrite Hg. simpl. now rewrite (nth_error_nth' d 0%R Hi). Qed.
Lemma read_range h v d off n : nth_error h (v_id v) = Some d -> off + n <= length d -> omapM (rd h) (range v off n) = Ok (slice d off n).
Proof. intros Hg Hn. unfold range, slice. rewrite omapM_map. apply omapM_ok. intros k Hk. apply in_seq in Hk. apply rd_ok; auto. lia. Qed.
Lemma firstn_app_len {A} (a b : list A) n : length a = n -> firstn n (a ++ b) = a.
Proof. intros <-. rewrite firstn_app, firstn_all, Nat.sub_diag. simpl. apply app_nil_r. Qed.
Lemma skipn_app_len {A} (a b : list A) n : length a = n -> skipn n (a ++ b) = b.
Proof. intros <-. rewrite skipn_app, skipn_all, Nat.sub_diag. reflexivity. Qed.

(** * Gathering *)
Section Conn.
  Variables (n : nat) (conn : list nat) (N : nat).
  Hypothesis Hlen : length conn = n * 8.
  Hypothesis Hnode : forall k, k < n * 8 -> conn_of conn k < N.
  Let c := conn_of conn.
  Definition gather_act (data gathered e k i : nat) : act := Act (gathered, e * 24 + k * 3 + i) false [(data, c (e * 8 + k) * 3 + i)] one.
  Definition scatter_act (data gathered e k i : nat) : act := Act (data, c (e * 8 + k) * 3 + i) true [(gathered, e * 24 + k * 3 + i)] one.
  Lemma conn_get e k : e < n -> k < 8 -> vget conn (8 * e + k) = Ok (c (e * 8 + k)).
  Proof.
    intros. unfold vget, c, conn_of. rewrite (nth_error_nth' conn 0) by lia. now replace (8 * e + k) with (e * 8 + k) by lia.
  Qed.
  Lemma gather_vector_ok data gathered :
    gather_vector data gathered n 8 conn = Ok (map (fun e => flat_map (fun k => map (gather_act (v_id data) (v_id gathered) e k) (seq 0 3)) (seq 0 8)) (seq 0 n)).
  Proof.
    unfold gather_vector. apply omapM_ok. intros e He. apply in_seq in He.
    rewrite (omapM_ok _ (fun k => map (gather_act (v_id data) (v_id gathered) e k) (seq 0 3))).
    - cbn [obind]. now rewrite flat_map_concat_map.
    - intros k Hk. apply in_seq in Hk. rewrite conn_get by lia. reflexivity.
  Qed.
  Lemma scatter_vector_ok data gathered :
    scatter_vector data gathered n 8 conn = Ok (map (fun e => flat_map (fun k => map (scatter_act (v_id data) (v_id gathered) e k) (seq 0 3)) (seq 0 8)) (seq 0 n)).
  Proof.
    unfold scatter_vector. apply omapM_ok. intros e He. apply in_seq in He.
    rewrite (omapM_ok _ (fun k => map (scatter_act (v_id data) (v_id gathered) e k) (seq 0 3))).
    - cbn [obind]. now rewrite flat_map_concat_map.
    - intros k Hk. apply in_seq in Hk. rewrite conn_get by lia. reflexivity.
  Qed.
  Definition smass_act (data gathered e k : nat) : act := Act (data, c (e * 8 + k)) true [(gathered, e * 8 + k)] one.
  Lemma scatter_scalar_ok data gathered :
    scatter_scalar data gathered n 8 conn = Ok (map (fun e => map (smass_act (v_id data) (v_id gathered) e) (seq 0 8)) (seq 0 n)).
  Proof.
    unfold scatter_scalar. apply omapM_ok. intros e He. apply in_seq in He.
    apply omapM_ok. intros k Hk. apply in_seq in Hk. rewrite conn_get by lia. reflexivity.
  Qed.
  Lemma in_triple {A} (f : nat -> nat -> nat -> A) a :
    In a (List.concat (map (fun e => flat_map (fun k => map (f e k) (seq 0 3)) (seq 0 8)) (seq 0 n))) <->
    exists e k i, e < n /\ k < 8 /\ i < 3 /\ a = f e k i.
  Proof. clear Hlen Hnode c conn N.
    rewrite <- flat_map_concat_map, in_flat_map. split.
    - intros (e & He & H). apply in_seq in He. apply in_flat_map in H. destruct H as (k & Hk & H). apply in_seq in Hk.
      apply in_map_iff in H. destruct H as (i & <- & Hi). apply in_seq in Hi. exists e, k, i. repeat split; lia.
    - intros (e & k & i & He & Hk & Hi & ->). exists e. split; [apply in_seq; lia|]. apply in_flat_map. exists k.
      split; [apply in_seq; lia|]. apply in_map. apply in_seq. lia.
  Qed.
  Lemma in_pair {A} m (f : nat -> nat -> A) a :
    In a (List.concat (map (fun e => map (f e) (seq 0 m)) (seq 0 n))) <-> exists e k, e < n /\ k < m /\ a = f e k.
  Proof. clear Hlen Hnode c conn N.
    rewrite <- flat_map_concat_map, in_flat_map. split.
    - intros (e & He & H). apply in_seq in He. apply in_map_iff in H. destruct H as (i & <- & Hi). apply in_seq in Hi. exists e, i. repeat split; lia.
    - intros (e & i & He & Hi & ->). exists e. split; [apply in_seq; lia|]. apply in_map. apply in_seq. lia.
  Qed.

  (** entry j of the gathered values *)
  Definition gathered_at (d : list R) (j : nat) : R := nth (c (j / 24 * 8 + j mod 24 / 3) * 3 + j mod 3) d 0%R.
  Lemma split24 j : j < n * 24 -> exists e k i, e < n /\ k < 8 /\ i < 3 /\ j = e * 24 + k * 3 + i.
  Proof. clear Hlen Hnode c conn N.
    intros Hj. exists (j / 24), (j mod 24 / 3), (j mod 3).
    pose proof (Nat.div_mod j 24 ltac:(lia)). pose proof (Nat.mod_upper_bound j 24 ltac:(lia)).
    pose proof (Nat.div_mod (j mod 24) 3 ltac:(lia)). pose proof (Nat.mod_upper_bound j 3 ltac:(lia)).
    assert (E : (j mod 24) mod 3 = j mod 3).
    { symmetry. rewrite (Nat.div_mod j 24) at 1 by lia. replace (24 * (j / 24) + j mod 24) with (j mod 24 + (8 * (j / 24)) * 3) by lia. apply Nat.mod_add. lia. }
    assert (j / 24 < n) by (apply Nat.div_lt_upper_bound; lia). assert (j mod 24 / 3 < 8) by (apply Nat.div_lt_upper_bound; lia). lia.
  Qed.
  Lemma gathered_entry d e k i : k < 8 -> i < 3 -> gathered_at d (e * 24 + k * 3 + i) = nth (c (e * 8 + k) * 3 + i) d 0%R.
  Proof. clear Hlen Hnode.
    intros Hk Hi. unfold gathered_at.
    assert (E1 : (e * 24 + k * 3 + i) / 24 = e) by (symmetry; apply (Nat.div_unique _ 24 e (k * 3 + i)); lia).
    assert (E2 : (e * 24 + k * 3 + i) mod 24 = k * 3 + i) by (symmetry; apply (Nat.mod_unique _ 24 e (k * 3 + i)); lia).
    assert (E3 : (e * 24 + k * 3 + i) mod 3 = i) by (symmetry; apply (Nat.mod_unique _ 3 (e * 8 + k) i); lia).
    assert (E4 : (k * 3 + i) / 3 = k) by (symmetry; apply (Nat.div_unique _ 3 k i); lia).
    now rewrite E1, E2, E3, E4.
  Qed.
  Lemma gather_loop sched k h data gathered d g : valid_sched sched -> v_id data <> v_id gathered ->
    nth_error h (v_id data) = Some d -> length d = N * 3 -> nth_error h (v_id gathered) = Some g -> length g = n * 24 ->
    (do l <- gather_vector data gathered n 8 conn; parallel_for sched k l h) = Ok (list_set h (v_id gathered) (map (gathered_at d) (seq 0 (n * 24)))).
  Proof.
    intros Hs Hne Hd Ld Hg Lg. rewrite gather_vector_ok. cbn [obind]. rewrite <- Lg.
    apply parallel_set; auto.
    { apply (@bands _ 24). intros e a He Ha. apply in_flat_map in Ha. destruct Ha as (k0 & Hk & Ha). apply in_map_iff in Ha. destruct Ha as (i & <- & Hi).
      apply in_seq in Hk. apply in_seq in Hi. exists (k0 * 3 + i). split; [lia|]. cbn [gather_act a_loc snd]. lia. }
    - intros a Ha. apply in_triple in Ha. destruct Ha as (e & k0 & i & He & Hk & Hi & ->).
      assert (B : c (e * 8 + k0) < N) by (apply Hnode; lia). split.
      + repeat split; simpl; try lia. intros r [<-|[]]. exact Hne.
      + unfold value. simpl. rewrite (rd_ok _ _ Hd) by lia. simpl. now rewrite gathered_entry.
    - intros j Hj. rewrite Lg in Hj. destruct (split24 Hj) as (e & k0 & i & He & Hk & Hi & ->).
      exists (gather_act (v_id data) (v_id gathered) e k0 i). split; [|reflexivity]. apply in_triple. exists e, k0, i. auto.
  Qed.

  (** the values of one element, as the host code gathers them *)
  Lemma gather_high e value k : 24 <= k -> gather c e value zeros k = 0%R.
  Proof. clear Hlen Hnode.
    intros Hk. unfold gather. apply (@floop_ind arr (fun _ a => a k = 0%R)); [lia|reflexivity|].
    intros m a Hm IH. cbv zeta. unfold floop. change (seq 0 (3 - 0)) with [0;1;2]. cbn [fold_left]. unfold upd.
    repeat match goal with |- context [Nat.eqb ?a ?b] => destruct (Nat.eqb_spec a b) as [E'|_]; [exfalso; lia|] end. exact IH.
  Qed.
  Lemma gather_low e value k i : k < 8 -> i < 3 -> gather c e value zeros (k * 3 + i) = value (3 * c (e * 8 + k) + i).
  Proof. clear Hlen Hnode. intros. replace (k * 3 + i) with (3 * k + i) by lia. apply (@gather_at c e value zeros k i); assumption. Qed.
  Lemma arr_of_slice d off m k : arr_of (slice d off m) k = if k <? m then nth (off + k) d 0%R else 0%R.
  Proof. clear Hlen Hnode c conn N.
    unfold arr_of. destruct (Nat.ltb_spec k m).
    - apply nth_error_nth. unfold slice. now apply (nth_map_seq (fun k => nth (off + k) d 0%R)).
    - apply nth_overflow. rewrite slice_length. lia.
  Qed.
  Lemma element_values d e : e < n ->
    arr_of (slice (map (gathered_at d) (seq 0 (n * 24))) (e * 24) 24) = gather c e (arr_of d) zeros.
  Proof. clear Hlen Hnode.
    intros He. apply functional_extensionality. intros k. rewrite arr_of_slice. destruct (Nat.ltb_spec k 24) as [Hk|Hk].
    - assert (Hj : e * 24 + k < n * 24) by nia. rewrite (nth_error_nth _ _ _ (nth_map_seq (gathered_at d) Hj)).
      destruct (Nat.div_mod k 3 ltac:(lia)). pose proof (Nat.mod_upper_bound k 3 ltac:(lia)).
      assert (k / 3 < 8) by (apply Nat.div_lt_upper_bound; lia).
      replace (gather c e (arr_of d) zeros k) with (gather c e (arr_of d) zeros (k / 3 * 3 + k mod 3)) by (f_equal; lia).
      rewrite gather_low by assumption. replace (e * 24 + k) with (e * 24 + k / 3 * 3 + k mod 3) by lia.
      rewrite gathered_entry by assumption. unfold arr_of. f_equal. lia.
    - now rewrite gather_high.
  Qed.
  Lemma gather_sum e (u v : arr) : (fun k => gather c e u zeros k + gather c e v zeros k)%R = gather c e (fun k => u k + v k)%R zeros.
  Proof. clear Hlen Hnode.
    apply functional_extensionality. intros k. destruct (Nat.lt_ge_cases k 24) as [Hk|Hk].
    - pose proof (Nat.div_mod k 3 ltac:(lia)) as E. pose proof (Nat.mod_upper_bound k 3 ltac:(lia)).
      assert (k / 3 < 8) by (apply Nat.div_lt_upper_bound; lia). replace k with (k / 3 * 3 + k mod 3) by lia.
      now rewrite !gather_low.
    - rewrite !gather_high by assumption. lra.
  Qed.
End Conn.
