(** The atomic sums over elements, and the loops of a block against the host code. *)
From Coq Require Import Reals Lra Permutation FunctionalExtensionality.
From Verif Require Import Base Strings ListLemmas DataModel Loops TensorModel TensorSpec ElementModel ElementSpec ElementProofs BlockModel BlockProofs KokkosModel KokkosProofs KokkosSpec KokkosProofs2 KokkosProofs3.
Set Implicit Arguments.
Local Open Scope nat_scope.
Local Open Scope list_scope.
Local Notation length := List.length.

Lemma amount_elements w (f : nat -> list act) l j : amount w (List.concat (map f l)) j = lsum l (fun e => amount w (f e) j).
Proof. induction l as [|e l IH]; simpl; auto. now rewrite amount_app, IH. Qed.
Lemma amount_sum w (f : nat -> list act) n j : amount w (flat_map f (seq 0 n)) j = Rsum n (fun k => amount w (f k) j).
Proof.
  induction n as [|n IH]; [reflexivity|]. rewrite (seq_S n 0), flat_map_concat_map, map_app, concat_app, amount_app, <- flat_map_concat_map, IH.
  cbn [map List.concat Rsum]. now rewrite app_nil_r.
Qed.

Section Conn.
  Variables (n : nat) (conn : list nat) (N : nat).
  Hypothesis Hlen : length conn = n * 8.
  Hypothesis Hnode : forall k, k < n * 8 -> conn_of conn k < N.
  Let c := conn_of conn.

  Lemma scatter_loop sched q h data gathered d g (force : nat -> arr) : valid_sched sched -> v_id gathered <> v_id data ->
    nth_error h (v_id data) = Some d -> length d = N * 3 -> nth_error h (v_id gathered) = Some g -> length g = n * 24 ->
    (forall e k, e < n -> k < 24 -> nth (e * 24 + k) g 0%R = force e k) ->
    (do l <- scatter_vector data gathered n 8 conn; parallel_for sched q l h) =
    Ok (list_set h (v_id data) (map (fun j => nth j d 0 + lsum (seq 0 n) (fun e => contribution c e (force e) j))%R (seq 0 (N * 3)))).
  Proof.
    intros Hs Hne Hd Ld Hg Lg Hf. rewrite (@scatter_vector_ok n conn N Hlen Hnode). cbn [obind].
    pose (w := fun a => match value h a with Ok x => x | _ => 0%R end).
    assert (V : forall e k i, e < n -> k < 8 -> i < 3 -> value h (scatter_act conn (v_id data) (v_id gathered) e k i) = Ok (force e (k * 3 + i))).
    { intros e k i He Hk Hi. unfold value. simpl. rewrite (@rd_ok h _ g (e * 24 + k * 3 + i) Hg) by nia. simpl.
      rewrite <- Nat.add_assoc. now rewrite Hf by lia. }
    rewrite (@parallel_add sched q _ w h (v_id data) d Hs Hd).
    - do 2 f_equal. rewrite Ld. apply map_ext. intros j. f_equal. rewrite amount_elements. apply lsum_ext. intros e He. apply in_seq in He.
      rewrite amount_sum. unfold contribution. apply Rsum_ext. intros k Hk. cbn [seq map amount fold_right Rsum]. unfold w.
      rewrite !V by lia. cbn [scatter_act a_loc snd]. unfold nodes. fold c.
      replace (3 * c (e * 8 + k) + 0) with (c (e * 8 + k) * 3 + 0) by lia. replace (3 * c (e * 8 + k) + 1) with (c (e * 8 + k) * 3 + 1) by lia.
      replace (3 * c (e * 8 + k) + 2) with (c (e * 8 + k) * 3 + 2) by lia. replace (k * 3) with (3 * k) by lia.
      rewrite !(Nat.eqb_sym j). change (conn_of conn (e * 8 + k)) with (c (e * 8 + k)).
      destruct (c (e * 8 + k) * 3 + 0 =? j), (c (e * 8 + k) * 3 + 1 =? j), (c (e * 8 + k) * 3 + 2 =? j); lra.
    - intros a Ha. apply in_triple in Ha. destruct Ha as (e & k & i & He & Hk & Hi & ->).
      pose proof (@Hnode (e * 8 + k) ltac:(lia)). split.
      + unfold access. simpl. repeat split; try lia. intros r [<-|[]]. exact Hne.
      + unfold w. now rewrite V.
  Qed.
  Lemma scatter_mass_loop sched q h data gathered d g (mass : nat -> arr) : valid_sched sched -> v_id gathered <> v_id data ->
    nth_error h (v_id data) = Some d -> length d = N -> nth_error h (v_id gathered) = Some g -> length g = n * 8 ->
    (forall e k, e < n -> k < 8 -> nth (e * 8 + k) g 0%R = mass e k) ->
    (do l <- scatter_scalar data gathered n 8 conn; parallel_for sched q l h) =
    Ok (list_set h (v_id data) (map (fun j => nth j d 0 + lsum (seq 0 n) (fun e => Rsum 8 (fun k => if (j =? c (e * 8 + k)) then mass e k else 0)))%R (seq 0 N))).
  Proof.
    intros Hs Hne Hd Ld Hg Lg Hf. rewrite (@scatter_scalar_ok n conn N Hlen Hnode). cbn [obind].
    pose (w := fun a => match value h a with Ok x => x | _ => 0%R end).
    assert (V : forall e k, e < n -> k < 8 -> value h (smass_act conn (v_id data) (v_id gathered) e k) = Ok (mass e k)).
    { intros e k He Hk. unfold value. simpl. rewrite (@rd_ok h _ g (e * 8 + k) Hg) by nia. simpl. now rewrite Hf by lia. }
    rewrite (@parallel_add sched q _ w h (v_id data) d Hs Hd).
    - do 2 f_equal. rewrite Ld. apply map_ext. intros j. f_equal. rewrite amount_elements. apply lsum_ext. intros e He. apply in_seq in He.
      replace (map (smass_act conn (v_id data) (v_id gathered) e) (seq 0 8)) with (flat_map (fun k => [smass_act conn (v_id data) (v_id gathered) e k]) (seq 0 8)) by reflexivity.
      rewrite amount_sum. apply Rsum_ext. intros k Hk. cbn [amount fold_right]. unfold w.
      rewrite !V by lia. cbn [smass_act a_loc snd]. change (conn_of conn (e * 8 + k)) with (c (e * 8 + k)). rewrite (Nat.eqb_sym j).
      destruct (_ =? j); lra.
    - intros a Ha. apply in_pair in Ha. destruct Ha as (e & k & He & Hk & ->).
      pose proof (@Hnode (e * 8 + k) ltac:(lia)). split.
      + unfold access. simpl. repeat split; try lia. intros r [<-|[]]. exact Hne.
      + unfold w. now rewrite V.
  Qed.
End Conn.

(** * One element, against the host code *)
Lemma nth_mapseq (f : nat -> R) n i : i < n -> nth i (map f (seq 0 n)) 0%R = f i.
Proof. intros. apply nth_error_nth. now apply nth_map_seq. Qed.
Lemma pairdiv m e k : k < m -> (e * m + k) / m = e /\ (e * m + k) mod m = k.
Proof. intros. split; symmetry; [apply (Nat.div_unique _ m e k); lia|apply (Nat.mod_unique _ m e k); lia]. Qed.
Section Element.
  Variables (n : nat) (conn : list nat) (m : kmat) (t0 t1 : R) (ref disp oldF oldS : list R).
  Let newF := new_gradients n conn ref disp.
  Let newS := new_stress n m t0 t1 oldF newF oldS.
  Lemma new_slice e p : e < n -> p < 8 -> slice newF (e * 72 + p * 9) 9 = map (val (elem_gradients conn ref disp e)) (seq (p * 9) 9).
  Proof.
    intros He Hp. unfold slice.
    assert (E : seq (p * 9) 9 = map (fun k => p * 9 + k) (seq 0 9)) by (cbn [seq map]; repeat (apply f_equal2; [lia|]); reflexivity).
    rewrite E, map_map. apply map_ext_in. intros k Hk. apply in_seq in Hk. unfold newF, new_gradients.
    rewrite nth_mapseq by nia. replace (e * 72 + p * 9 + k) with (e * 72 + (p * 9 + k)) by lia.
    destruct (@pairdiv 72 e (p * 9 + k) ltac:(lia)) as [-> ->]. reflexivity.
  Qed.
  Lemma omapM_points (f : nat -> outcome arr) l : (forall p, In p l -> okv (f p)) -> omapM f l = Ok (map (fun p => val (f p)) l).
  Proof. intros H. apply omapM_ok. intros p Hp. now apply val_ok, H. Qed.
  Lemma omapM_okv {A B} (f : A -> outcome B) l r : omapM f l = Ok r -> forall p, In p l -> okv (f p).
  Proof.
    revert r. induction l as [|a l IH]; intros r H p Hp; [destruct Hp|]. simpl in H.
    destruct (f a) as [b| | |] eqn:E; try discriminate. cbn [obind] in H. destruct (omapM f l) as [bs| | |]; try discriminate.
    destruct Hp as [<-|Hp]; [now exists b|]. eapply IH; eauto.
  Qed.
  Lemma stress_of_val e : e < n -> okv (elem_gradients conn ref disp e) -> 
    stress_of m t0 t1 oldF oldS e (val (elem_gradients conn ref disp e)) =
    do ss <- omapM (fun p => point_stress m t0 t1 oldF newF oldS e p) (seq 0 8); Ok (fun k => nth (k / 6) ss zeros (k mod 6)).
  Proof.
    intros He Hk. unfold stress_of. f_equal. apply omapM_ext. intros p Hp. apply in_seq in Hp. unfold point_stress. now rewrite new_slice by lia.
  Qed.
  Lemma stress_values e : e < n -> (forall p, p < 8 -> okv (point_stress m t0 t1 oldF newF oldS e p)) ->
    (do ss <- omapM (fun p => point_stress m t0 t1 oldF newF oldS e p) (seq 0 8); Ok (fun k => nth (k / 6) ss zeros (k mod 6))) =
    Ok (arr_of (slice newS (e * 48) 48)).
  Proof.
    intros He H. rewrite omapM_points by (intros p Hp; apply in_seq in Hp; apply H; lia). cbn [obind]. f_equal.
    apply functional_extensionality. intros k. rewrite arr_of_slice. destruct (Nat.ltb_spec k 48) as [Hk|Hk].
    - unfold newS, new_stress. rewrite nth_mapseq by nia.
      assert (k / 6 < 8) by (apply Nat.div_lt_upper_bound; lia).
      rewrite (nth_indep _ zeros (val (point_stress m t0 t1 oldF newF oldS e 0))) by (rewrite map_length, seq_length; lia).
      rewrite (map_nth (fun p => val (point_stress m t0 t1 oldF newF oldS e p)) (seq 0 8) 0), seq_nth by lia. cbn [Nat.add].
      pose proof (Nat.div_mod k 6 ltac:(lia)) as E. pose proof (Nat.mod_upper_bound k 6 ltac:(lia)).
      replace ((e * 48 + k) / 6) with (e * 8 + k / 6) by (apply (Nat.div_unique _ 6 _ (k mod 6)); lia).
      replace ((e * 48 + k) mod 6) with (k mod 6) by (apply (Nat.mod_unique _ 6 (e * 8 + k / 6)); lia).
      replace ((e * 8 + k / 6) / 8) with e by (apply (Nat.div_unique _ 8 e (k / 6)); lia).
      now replace ((e * 8 + k / 6) mod 8) with (k / 6) by (apply (Nat.mod_unique _ 8 e (k / 6)); lia).
    - rewrite nth_overflow; [reflexivity|]. rewrite map_length, seq_length. apply Nat.div_le_lower_bound; lia.
  Qed.
  (** the element's force in the host code, when everything it needs exists *)
  Definition elem_ok (e : nat) : Prop := okv (elem_gradients conn ref disp e) /\
    (forall p, p < 8 -> okv (point_stress m t0 t1 oldF newF oldS e p)) /\ okv (elem_forces conn ref disp newS e).
  Let host_force := element_force (stress_of m t0 t1 oldF oldS) (arr_of ref) (arr_of disp) (conn_of conn) zeros.
  Lemma host_force_eq e : e < n -> elem_ok e -> host_force e = Ok (val (elem_forces conn ref disp newS e)).
  Proof.
    intros He (H1 & H2 & H3). unfold host_force, element_force. cbv zeta.
    change (compute_deformation_gradients _ _ _) with (elem_gradients conn ref disp e) at 1. rewrite (@val_ok _ H1) at 1. cbn [obind].
    rewrite stress_of_val by assumption. rewrite stress_values by assumption. cbn [obind]. now apply val_ok.
  Qed.
  Lemma host_force_inv e : e < n -> okv (host_force e) -> elem_ok e.
  Proof.
    intros He [f Hf]. unfold host_force, element_force in Hf. cbv zeta in Hf.
    change (compute_deformation_gradients _ _ _) with (elem_gradients conn ref disp e) in Hf at 1.
    assert (H1 : okv (elem_gradients conn ref disp e)) by (destruct (elem_gradients conn ref disp e) as [a| | |]; try discriminate; now exists a).
    rewrite (@val_ok _ H1) in Hf at 1. cbn [obind] in Hf. rewrite stress_of_val in Hf by assumption.
    assert (H2 : forall p, p < 8 -> okv (point_stress m t0 t1 oldF newF oldS e p)).
    { intros p Hp. destruct (omapM _ _) as [ss| | |] eqn:E in Hf; try discriminate. eapply omapM_okv in E; [exact E|]. apply in_seq. lia. }
    rewrite stress_values in Hf by assumption. cbn [obind] in Hf. repeat split; auto. now exists f.
  Qed.
End Element.
