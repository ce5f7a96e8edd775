(** The loops over the elements of a block: deformation gradients, stresses, forces, sums. *)
From Coq Require Import Reals Lra Permutation FunctionalExtensionality.
From Verif Require Import Base Strings ListLemmas DataModel Loops TensorModel TensorSpec ElementModel ElementSpec ElementProofs BlockModel BlockProofs KokkosModel KokkosProofs KokkosSpec KokkosProofs2.
Set Implicit Arguments.
Local Open Scope nat_scope.
Local Open Scope list_scope.
Local Notation length := List.length.

Lemma gradients_impl r c o : compute_deformation_gradients r c o = deformation_gradients_impl r (fun k => c k - r k)%R o.
Proof. unfold compute_deformation_gradients, deformation_gradients_impl. exact eq_refl. Qed.
Lemma impl_gradients r u o : deformation_gradients_impl r u o = compute_deformation_gradients r (fun k => r k + u k)%R o.
Proof.
  refine (eq_trans _ (eq_sym (gradients_impl r (fun k => r k + u k)%R o))).
  apply (f_equal (fun w => deformation_gradients_impl r w o)). apply functional_extensionality; intros; lra.
Qed.
Lemma impl_forces r u s o : nodal_forces_impl r u s o = compute_nodal_forces (fun k => r k + u k)%R s o.
Proof.
  unfold compute_nodal_forces, nodal_forces_impl.
  replace (fun n i : nat => (r (3 * n + i)%nat + u (3 * n + i)%nat + 0)%R) with (fun n i : nat => (r (3 * n + i)%nat + u (3 * n + i)%nat)%R)
    by (apply functional_extensionality; intros; apply functional_extensionality; intros; lra). reflexivity.
Qed.
(** the value of a computation, zeros when it failed *)
Definition val (o : outcome arr) : arr := match o with Ok a => a | _ => zeros end.
Definition okv {A} (o : outcome A) : Prop := exists a, o = Ok a.
Lemma val_ok o : okv o -> o = Ok (val o).
Proof. intros [a ->]. reflexivity. Qed.

(** * Loops in which element e sets m entries from one result *)
Section Elementwise.
  Variables (n m : nat) (its : nat -> nat -> act) (res : nat -> outcome arr) (g : nat).
  Hypothesis Hm : 0 < m.
  Hypothesis Hloc : forall e k, a_loc (its e k) = (g, e * m + k).
  Hypothesis Hset : forall e k, a_add (its e k) = false.
  Hypothesis Hread : forall e k r, In r (a_reads (its e k)) -> fst r <> g.
  Lemma split_pair j : j < n * m -> j / m < n /\ j mod m < m /\ j = j / m * m + j mod m.
  Proof.
    intros Hj. pose proof (Nat.div_mod j m ltac:(lia)). pose proof (Nat.mod_upper_bound j m ltac:(lia)).
    split; [apply Nat.div_lt_upper_bound; lia|]. split; [assumption|lia].
  Qed.
  Lemma pair_div e k : k < m -> (e * m + k) / m = e /\ (e * m + k) mod m = k.
  Proof. intros. split; symmetry; [apply (Nat.div_unique _ m e k); lia|apply (Nat.mod_unique _ m e k); lia]. Qed.
  Lemma elementwise_access (d : list R) e k : length d = n * m -> e < n -> k < m -> access g false (length d) (its e k).
  Proof. intros L He Hk. unfold access. rewrite Hloc, Hset. simpl. repeat split; auto; [nia|]. apply Hread. Qed.
  Lemma elementwise_distinct : distinct_entries (map (fun e => map (its e) (seq 0 m)) (seq 0 n)).
  Proof.
    apply (@bands _ m). intros e a He Ha. apply in_map_iff in Ha. destruct Ha as (k & <- & Hk). apply in_seq in Hk.
    exists k. split; [lia|]. now rewrite Hloc.
  Qed.
  Lemma elementwise_ok sched q h d : valid_sched sched -> nth_error h g = Some d -> length d = n * m ->
    (forall e k, e < n -> k < m -> value h (its e k) = do o <- res e; Ok (o k)) -> (forall e, e < n -> okv (res e)) ->
    parallel_for sched q (map (fun e => map (its e) (seq 0 m)) (seq 0 n)) h =
    Ok (list_set h g (map (fun j => val (res (j / m)) (j mod m)) (seq 0 (n * m)))).
  Proof.
    intros Hs Hg L Hv Hr. rewrite <- L. apply parallel_set; auto; [apply elementwise_distinct| |].
    - intros a Ha. apply in_pair in Ha. destruct Ha as (e & k & He & Hk & ->). split; [now apply elementwise_access|].
      rewrite Hv by assumption. rewrite (@val_ok _ (Hr e He)). cbn [obind]. rewrite Hloc. cbn [snd]. now destruct (pair_div e Hk) as [-> ->].
    - intros j Hj. rewrite L in Hj. destruct (split_pair Hj) as (H1 & H2 & H3). exists (its (j / m) (j mod m)). split.
      + apply in_pair. eauto.
      + rewrite Hloc. simpl. auto.
  Qed.
  Lemma elementwise_inv sched q h d h' : valid_sched sched -> nth_error h g = Some d -> length d = n * m ->
    (forall e k, e < n -> k < m -> value h (its e k) = do o <- res e; Ok (o k)) ->
    parallel_for sched q (map (fun e => map (its e) (seq 0 m)) (seq 0 n)) h = Ok h' -> forall e, e < n -> okv (res e).
  Proof.
    intros Hs Hg L Hv Hp e He.
    assert (A : forall a, In a (List.concat (map (fun e => map (its e) (seq 0 m)) (seq 0 n))) -> access g false (length d) a).
    { intros a Ha. apply in_pair in Ha. destruct Ha as (e' & k & He' & Hk & ->). now apply elementwise_access. }
    pose proof (@parallel_values sched q _ false h g d h' Hs Hg (fun _ => elementwise_distinct) A Hp (its e 0)) as B.
    destruct B as [x Hx].
    - apply in_pair. exists e, 0. auto.
    - rewrite Hv in Hx by assumption. destruct (res e) as [o| | |]; try discriminate. now exists o.
  Qed.
End Elementwise.

Lemma range_id v off n r : In r (range v off n) -> fst r = v_id v.
Proof. unfold range. rewrite in_map_iff. intros (k & <- & _). reflexivity. Qed.

Lemma flat_eight {A} (f : nat -> A) n : map f (seq 0 (n * 8)) = flat_map (fun e => map (fun p => f (e * 8 + p)) (seq 0 8)) (seq 0 n).
Proof.
  induction n as [|n IH]; auto. rewrite (seq_S n 0). rewrite flat_map_concat_map, map_app, concat_app, <- flat_map_concat_map, <- IH.
  replace (Datatypes.S n * 8) with (n * 8 + 8) by lia. rewrite seq_app, map_app. f_equal. cbn [map List.concat]. rewrite app_nil_r.
  change (seq 0 8) with [0;1;2;3;4;5;6;7]. cbn [seq map].
  repeat match goal with |- _ :: _ = _ :: _ => apply f_equal2; [apply f_equal; lia|] end. reflexivity.
Qed.
Section Block.
  Variables (n : nat) (conn : list nat) (N : nat).
  Hypothesis Hlen : length conn = n * 8.
  Hypothesis Hnode : forall k, k < n * 8 -> conn_of conn k < N.
  Let c := conn_of conn.
  Definition gath (d : list R) : list R := map (gathered_at conn d) (seq 0 (n * 24)).
  Lemma gath_length d : length (gath d) = n * 24.
  Proof. unfold gath. now rewrite map_length, seq_length. Qed.

  (** ** deformation gradients *)
  Definition elem_gradients (ref disp : list R) (e : nat) : outcome arr :=
    compute_deformation_gradients (gather c e (arr_of ref) zeros) (gather c e (fun k => arr_of ref k + arr_of disp k)%R zeros) zeros.
  Definition new_gradients (ref disp : list R) : list R := map (fun j => val (elem_gradients ref disp (j / 72)) (j mod 72)) (seq 0 (n * 72)).
  Section Grad.
    Variables (sched : scheduler) (q : list nat) (h : heap) (gref gdisp F : view) (ref disp d : list R).
    Hypothesis Hs : valid_sched sched.
    Hypothesis Hr : nth_error h (v_id gref) = Some (gath ref).
    Hypothesis Hu : nth_error h (v_id gdisp) = Some (gath disp).
    Hypothesis HF : nth_error h (v_id F) = Some d.
    Hypothesis Ld : length d = n * 72.
    Hypothesis N1 : v_id gref <> v_id F.
    Hypothesis N2 : v_id gdisp <> v_id F.
    Let its e k := Act (v_id F, e * 72 + k) false (range gref (e * 24) 24 ++ range gdisp (e * 24) 24)
      (fun vs => do out <- deformation_gradients_impl (arr_of (firstn 24 vs)) (arr_of (skipn 24 vs)) zeros; Ok (out k)).
    Lemma gradient_reads e k r : In r (a_reads (its e k)) -> fst r <> v_id F.
    Proof. unfold its. cbn [a_reads]. intros H. apply in_app_or in H. destruct H as [H|H]; apply range_id in H; congruence. Qed.
    Lemma gradient_value e k : e < n -> value h (its e k) = do o <- elem_gradients ref disp e; Ok (o k).
    Proof.
      intros He. unfold value. cbn [a_reads its]. rewrite omapM_app. 
      rewrite (@read_range h gref (gath ref) (e * 24) 24 Hr) by (rewrite gath_length; nia).
      rewrite (@read_range h gdisp (gath disp) (e * 24) 24 Hu) by (rewrite gath_length; nia). cbn [obind a_val its].
      rewrite firstn_app_len, skipn_app_len by apply slice_length. unfold gath. rewrite !element_values by assumption.
      rewrite impl_gradients, gather_sum. reflexivity.
    Qed.
    Lemma gradients_ok : (forall e, e < n -> okv (elem_gradients ref disp e)) ->
      parallel_for sched q (def_grad_loop gref gdisp F n) h = Ok (list_set h (v_id F) (new_gradients ref disp)).
    Proof.
      intros H. apply (@elementwise_ok n 72 its (elem_gradients ref disp) (v_id F)) with (d := d); auto; try lia.
      - apply gradient_reads. - intros; now apply gradient_value.
    Qed.
    Lemma gradients_inv h' : parallel_for sched q (def_grad_loop gref gdisp F n) h = Ok h' -> forall e, e < n -> okv (elem_gradients ref disp e).
    Proof.
      intros H. eapply (@elementwise_inv n 72 its (elem_gradients ref disp) (v_id F)) with (d := d); auto; try lia; try exact H; auto.
      - apply gradient_reads. - intros; now apply gradient_value.
    Qed.
  End Grad.

  (** ** stresses *)
  Variable (m : kmat) (t0 t1 : R).
  Definition point_stress (oldF newF oldS : list R) (e p : nat) : outcome arr :=
    km_stress m t0 t1 (slice oldF (e * 72 + p * 9) 9) (slice newF (e * 72 + p * 9) 9) (slice oldS (e * 48 + p * 6) 6).
  Definition new_stress (oldF newF oldS : list R) : list R := map (fun j => val (point_stress oldF newF oldS (j / 6 / 8) (j / 6 mod 8)) (j mod 6)) (seq 0 (n * 8 * 6)).
  Section Stress.
    Variables (sched : scheduler) (q : list nat) (h : heap) (F_n F_np1 S_n S_np1 : view) (oldF newF oldS d : list R).
    Hypothesis Hs : valid_sched sched.
    Hypothesis H1 : nth_error h (v_id F_n) = Some oldF.
    Hypothesis H2 : nth_error h (v_id F_np1) = Some newF.
    Hypothesis H3 : nth_error h (v_id S_n) = Some oldS.
    Hypothesis H4 : nth_error h (v_id S_np1) = Some d.
    Hypothesis L1 : length oldF = n * 72.
    Hypothesis L2 : length newF = n * 72.
    Hypothesis L3 : length oldS = n * 48.
    Hypothesis L4 : length d = n * 48.
    Hypothesis N1 : v_id F_n <> v_id S_np1.
    Hypothesis N2 : v_id F_np1 <> v_id S_np1.
    Hypothesis N3 : v_id S_n <> v_id S_np1.
    Let its ep k := Act (v_id S_np1, ep * 6 + k) false
      (range F_n (ep / 8 * 72 + ep mod 8 * 9) 9 ++ range F_np1 (ep / 8 * 72 + ep mod 8 * 9) 9 ++ range S_n (ep / 8 * 48 + ep mod 8 * 6) 6)
      (fun vs => do s <- km_stress m t0 t1 (firstn 9 vs) (firstn 9 (skipn 9 vs)) (skipn 18 vs); Ok (s k)).
    Let res ep := point_stress oldF newF oldS (ep / 8) (ep mod 8).
    Lemma stress_loop_eq : stress_loop m t0 t1 F_n F_np1 S_n S_np1 n 8 = map (fun ep => map (its ep) (seq 0 6)) (seq 0 (n * 8)).
    Proof.
      rewrite flat_eight. unfold stress_loop. rewrite !flat_map_concat_map. f_equal. apply map_ext. intros e. apply map_ext_in. intros p Hp.
      apply in_seq in Hp. unfold its.
      replace ((e * 8 + p) / 8) with e by (apply (Nat.div_unique _ 8 e p); lia).
      replace ((e * 8 + p) mod 8) with p by (apply (Nat.mod_unique _ 8 e p); lia).
      apply map_ext. intros k. f_equal. f_equal. lia.
    Qed.
    Lemma stress_reads e k r : In r (a_reads (its e k)) -> fst r <> v_id S_np1.
    Proof. unfold its. cbn [a_reads]. intros H. repeat (apply in_app_or in H; destruct H as [H|H]); apply range_id in H; congruence. Qed.
    Lemma stress_value e k : e < n * 8 -> value h (its e k) = do o <- res e; Ok (o k).
    Proof.
      intros He. assert (X : e / 8 < n) by (apply Nat.div_lt_upper_bound; lia). pose proof (Nat.mod_upper_bound e 8 ltac:(lia)) as Y.
      unfold value. cbn [a_reads its]. rewrite !omapM_app.
      
      rewrite (@read_range h F_n oldF _ 9 H1) by nia. rewrite (@read_range h F_np1 newF _ 9 H2) by nia. rewrite (@read_range h S_n oldS _ 6 H3) by nia.
      cbn [obind a_val its]. rewrite (@firstn_app_len R _ _ 9), (@skipn_app_len R _ _ 9), (@firstn_app_len R _ _ 9) by apply slice_length.
      change 18 with (9 + 9). rewrite <- skipn_skipn. rewrite !(@skipn_app_len R _ _ 9) by apply slice_length. reflexivity.
    Qed.
    Lemma stress_ok : (forall e p, e < n -> p < 8 -> okv (point_stress oldF newF oldS e p)) ->
      parallel_for sched q (stress_loop m t0 t1 F_n F_np1 S_n S_np1 n 8) h = Ok (list_set h (v_id S_np1) (new_stress oldF newF oldS)).
    Proof.
      intros H. rewrite stress_loop_eq. apply (@elementwise_ok (n * 8) 6 its res (v_id S_np1)) with (d := d); auto; try lia.
      - apply stress_reads. - intros; now apply stress_value.
      - intros e He. apply H; [apply Nat.div_lt_upper_bound; lia|apply Nat.mod_upper_bound; lia].
    Qed.
    Lemma stress_inv h' : parallel_for sched q (stress_loop m t0 t1 F_n F_np1 S_n S_np1 n 8) h = Ok h' ->
      forall e p, e < n -> p < 8 -> okv (point_stress oldF newF oldS e p).
    Proof.
      intros H e p He Hp. rewrite stress_loop_eq in H.
      assert (X : okv (res (e * 8 + p))).
      { eapply (@elementwise_inv (n * 8) 6 its res (v_id S_np1)) with (d := d); auto; try lia; try exact H; auto; try nia.
        - apply stress_reads. - intros; now apply stress_value. }
      unfold res in X.
      replace ((e * 8 + p) / 8) with e in X by (apply (Nat.div_unique _ 8 e p); lia).
      replace ((e * 8 + p) mod 8) with p in X by (apply (Nat.mod_unique _ 8 e p); lia). exact X.
    Qed.
  End Stress.

  (** ** forces of the elements *)
  Definition elem_forces (ref disp S : list R) (e : nat) : outcome arr :=
    compute_nodal_forces (gather c e (fun k => arr_of ref k + arr_of disp k)%R zeros) (arr_of (slice S (e * 48) 48)) zeros.
  Definition new_forces (ref disp S : list R) : list R := map (fun j => val (elem_forces ref disp S (j / 24)) (j mod 24)) (seq 0 (n * 24)).
  Section Force.
    Variables (sched : scheduler) (q : list nat) (h : heap) (gref gdisp S gforce : view) (ref disp s d : list R).
    Hypothesis Hs : valid_sched sched.
    Hypothesis H1 : nth_error h (v_id gref) = Some (gath ref).
    Hypothesis H2 : nth_error h (v_id gdisp) = Some (gath disp).
    Hypothesis H3 : nth_error h (v_id S) = Some s.
    Hypothesis H4 : nth_error h (v_id gforce) = Some d.
    Hypothesis L3 : length s = n * 48.
    Hypothesis L4 : length d = n * 24.
    Hypothesis N1 : v_id gref <> v_id gforce.
    Hypothesis N2 : v_id gdisp <> v_id gforce.
    Hypothesis N3 : v_id S <> v_id gforce.
    Let its e k := Act (v_id gforce, e * 24 + k) false
      (range gref (e * 24) 24 ++ range gdisp (e * 24) 24 ++ range S (e * 48) 48)
      (fun vs => do out <- nodal_forces_impl (arr_of (firstn 24 vs)) (arr_of (firstn 24 (skipn 24 vs))) (arr_of (skipn 48 vs)) zeros; Ok (out k)).
    Lemma force_reads e k r : In r (a_reads (its e k)) -> fst r <> v_id gforce.
    Proof. unfold its. cbn [a_reads]. intros H. repeat (apply in_app_or in H; destruct H as [H|H]); apply range_id in H; congruence. Qed.
    Lemma force_value e k : e < n -> value h (its e k) = do o <- elem_forces ref disp s e; Ok (o k).
    Proof.
      intros He. unfold value. cbn [a_reads its]. rewrite !omapM_app.
      
      rewrite (@read_range h gref (gath ref) (e * 24) 24 H1) by (rewrite gath_length; nia).
      rewrite (@read_range h gdisp (gath disp) (e * 24) 24 H2) by (rewrite gath_length; nia). rewrite (@read_range h S s (e * 48) 48 H3) by nia.
      cbn [obind a_val its]. rewrite (@firstn_app_len R _ _ 24), (@skipn_app_len R _ _ 24), (@firstn_app_len R _ _ 24) by apply slice_length.
      replace (skipn 48 (slice (gath ref) (e * 24) 24 ++ slice (gath disp) (e * 24) 24 ++ slice s (e * 48) 48)) with (slice s (e * 48) 48).
      2:{ change 48 with (24 + 24) at 3. rewrite <- skipn_skipn. now rewrite !(@skipn_app_len R _ _ 24) by apply slice_length. }
      unfold gath. rewrite !element_values by assumption.
      rewrite impl_forces, gather_sum. reflexivity.
    Qed.
    Lemma forces_ok : (forall e, e < n -> okv (elem_forces ref disp s e)) ->
      parallel_for sched q (force_loop gref gdisp S gforce n) h = Ok (list_set h (v_id gforce) (new_forces ref disp s)).
    Proof.
      intros H. apply (@elementwise_ok n 24 its (elem_forces ref disp s) (v_id gforce)) with (d := d); auto; try lia.
      - apply force_reads. - intros; now apply force_value.
    Qed.
    Lemma forces_inv h' : parallel_for sched q (force_loop gref gdisp S gforce n) h = Ok h' -> forall e, e < n -> okv (elem_forces ref disp s e).
    Proof.
      intros H. eapply (@elementwise_inv n 24 its (elem_forces ref disp s) (v_id gforce)) with (d := d); auto; try lia; try exact H; auto.
      - apply force_reads. - intros; now apply force_value.
    Qed.
  End Force.
End Block.
