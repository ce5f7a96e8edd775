(** Labels, layout and offsets of element data. *)
From Verif Require Import Base ListLemmas Strings DataModel DataProofs Loops ElemDataModel ElemDataSpec.
From Coq Require Import NArith.
Set Implicit Arguments.
Local Open Scope nat_scope.
Local Open Scope list_scope.
Local Notation length := List.length.

(** ** Generic *)
Lemma length_flat_seq {A} (f : nat -> list A) w s n : (forall i, s <= i < s + n -> length (f i) = w) -> length (flat_map f (seq s n)) = n * w.
Proof.
  revert s; induction n as [|n IH]; intros s H; [reflexivity|]. cbn [seq flat_map]. rewrite app_length, H, IH; [lia| |lia].
  intros. apply H. lia.
Qed.
Lemma nth_error_flat_seq {A} (f : nat -> list A) w n i j : (forall i, i < n -> length (f i) = w) -> i < n -> j < w ->
  nth_error (flat_map f (seq 0 n)) (i * w + j) = nth_error (f i) j.
Proof.
  intros H Hi Hj.
  assert (G : forall n s i, (forall i, s <= i < s + n -> length (f i) = w) -> i < n -> nth_error (flat_map f (seq s n)) (i * w + j) = nth_error (f (s + i)) j).
  { clear n i H Hi. induction n as [|n IH]; intros s i H Hi; [lia|]. cbn [seq flat_map]. destruct i as [|i].
    - cbn [Nat.mul Nat.add]. rewrite Nat.add_0_r. apply nth_error_app1. rewrite H; lia.
    - rewrite nth_error_app2; rewrite H by lia; [|lia]. replace (S i * w + j - w) with (i * w + j) by lia.
      rewrite IH; [f_equal; f_equal; lia| |lia]. intros. apply H. lia. }
  apply (G n 0 i); auto. intros. apply H. lia.
Qed.
Lemma flat_index n w k : k < n * w -> exists i j, i < n /\ j < w /\ k = i * w + j.
Proof.
  intros H. assert (w <> 0) by (intros ->; lia). exists (k / w), (k mod w).
  split; [apply Nat.div_lt_upper_bound; lia|]. split; [now apply Nat.mod_upper_bound|].
  rewrite Nat.mul_comm. now apply Nat.div_mod.
Qed.
Lemma flat_index_inj w i j i' j' : j < w -> j' < w -> i * w + j = i' * w + j' -> i = i' /\ j = j'.
Proof. intros H H' E. assert (i = i') by nia. subst. lia. Qed.

Lemma oloop_const {S} n (f : nat -> S -> outcome S) s (g : nat -> S) : g 0 = s ->
  (forall k, k < n -> f k (g k) = Ok (g (Datatypes.S k))) -> oloop 0 n f s = Ok (g n).
Proof.
  intros H0 H. destruct (@oloop_ind _ (fun k t => t = g k) 0 n f s) as (s' & E & ->); [lia|auto| |auto].
  intros k t Hk ->. exists (g (1 + k)). rewrite H by lia. auto.
Qed.

(** ** Labels *)
Definition quantities (ns : nat) : list quantity := map DefGrad (seq 0 9) ++ map Stress (seq 0 6) ++ map State (seq 0 ns).
Definition idx (q : quantity) : nat := match q with DefGrad c => c | Stress c => 9 + c | State s => 15 + s end.
Lemma quantities_length ns : length (quantities ns) = 15 + ns.
Proof. unfold quantities. rewrite !app_length, !map_length, !seq_length. lia. Qed.
Lemma quantities_nth states q : valid states q -> nth_error (quantities (length states)) (idx q) = Some q.
Proof.
  unfold quantities. destruct q as [c|c|s]; cbn [valid idx]; intros H.
  - rewrite nth_error_app1 by (rewrite map_length, seq_length; lia). rewrite nth_error_map, nth_error_seq.
    destruct (Nat.ltb_spec c 9); [reflexivity|lia].
  - rewrite nth_error_app2 by (rewrite map_length, seq_length; lia). rewrite map_length, seq_length.
    rewrite nth_error_app1 by (rewrite map_length, seq_length; lia). rewrite nth_error_map, nth_error_seq.
    replace (9 + c - 9) with c by lia. destruct (Nat.ltb_spec c 6); [reflexivity|lia].
  - rewrite nth_error_app2 by (rewrite map_length, seq_length; lia). rewrite map_length, seq_length.
    rewrite nth_error_app2 by (rewrite map_length, seq_length; lia). rewrite map_length, seq_length.
    replace (15 + s - 9 - 6) with s by lia. rewrite nth_error_map, nth_error_seq.
    destruct (Nat.ltb_spec s (length states)); [reflexivity|lia].
Qed.
Lemma quantities_in states q : In q (quantities (length states)) <-> valid states q.
Proof.
  unfold quantities. rewrite !in_app_iff, !in_map_iff. split.
  - intros [(c & <- & H)|[(c & <- & H)|(c & <- & H)]]; apply in_seq in H; cbn; lia.
  - intros H. destruct q; cbn in H; [left|right; left|right; right]; eexists; (split; [reflexivity|apply in_seq; lia]).
Qed.
Lemma idx_lt states q : valid states q -> idx q < per_point states.
Proof. unfold per_point. destruct q; cbn; lia. Qed.
Lemma idx_inj states q q' : valid states q -> valid states q' -> idx q = idx q' -> q = q'.
Proof. intros H H' E. apply quantities_nth in H. apply quantities_nth in H'. congruence. Qed.
Lemma idx_onto states j : j < per_point states -> exists q, valid states q /\ idx q = j.
Proof.
  unfold per_point. intros H. destruct (Nat.lt_ge_cases j 9); [exists (DefGrad j); cbn; lia|].
  destruct (Nat.lt_ge_cases j 15); [exists (Stress (j - 9)); cbn; lia|]. exists (State (j - 15)). cbn. lia.
Qed.
Lemma slot_idx states ipt q : slot states ipt q = ipt * per_point states + idx q.
Proof. unfold slot. destruct q; reflexivity. Qed.
Lemma slot_lt nip states ipt q : ipt < nip -> valid states q -> slot states ipt q < per_element nip states.
Proof. intros Hi Hq. rewrite slot_idx. unfold per_element. apply idx_lt in Hq. nia. Qed.
Lemma slot_inj states i q i' q' : valid states q -> valid states q' -> slot states i q = slot states i' q' -> i = i' /\ q = q'.
Proof.
  intros H H' E. rewrite !slot_idx in E. pose proof (@idx_lt _ _ H). pose proof (@idx_lt _ _ H').
  destruct (@flat_index_inj (per_point states) i (idx q) i' (idx q')); auto. split; auto. eapply idx_inj; eauto.
Qed.
Lemma slot_onto nip states k : k < per_element nip states -> exists i q, i < nip /\ valid states q /\ k = slot states i q.
Proof.
  intros H. destruct (@flat_index nip (per_point states) k H) as (i & j & Hi & Hj & ->).
  destruct (@idx_onto _ _ Hj) as (q & Hq & <-). exists i, q. now rewrite slot_idx.
Qed.

Lemma all_labels_length nip states : length (all_labels nip states) = per_element nip states.
Proof.
  unfold all_labels, per_element. apply length_flat_seq. intros i _. rewrite map_length. fold (quantities (length states)).
  apply quantities_length.
Qed.
Lemma all_labels_nth nip states ipt q : ipt < nip -> valid states q ->
  nth_error (all_labels nip states) (slot states ipt q) = Some (point_label states ipt q).
Proof.
  intros Hi Hq. rewrite slot_idx. unfold all_labels. rewrite nth_error_flat_seq.
  - fold (quantities (length states)). rewrite nth_error_map, quantities_nth by auto. reflexivity.
  - intros i _. rewrite map_length. fold (quantities (length states)). apply quantities_length.
  - auto.
  - now apply idx_lt.
Qed.

Lemma add_prefix_inj l n l' n' : add_ipt_prefix l (Z.of_N n) = add_ipt_prefix l' (Z.of_N n') -> l = l' /\ n = n'.
Proof.
  intros E. pose proof (f_equal remove_ipt_prefix E) as R. rewrite !remove_add in R. injection R as ->. split; auto.
  rewrite !add_ipt_form in E. apply app_inv_head in E. apply (f_equal take_digits) in E.
  rewrite !take_digits_prefix in E. apply (f_equal undec) in E. now rewrite !undec_digits_of in E.
Qed.
Lemma Z_N_ipt i : Z.of_nat (i + 1) = Z.of_N (N.of_nat (i + 1)).
Proof. lia. Qed.
Lemma point_label_inj states i q i' q' : point_label states i q = point_label states i' q' -> plain_label states q = plain_label states q' /\ i = i'.
Proof.
  unfold point_label. rewrite !Z_N_ipt. intros E. apply add_prefix_inj in E as [E1 E2]. split; auto. lia.
Qed.
Lemma remove_point_label states i q : remove_ipt_prefix (point_label states i q) = Ok (plain_label states q).
Proof. unfold point_label. rewrite Z_N_ipt. apply remove_add. Qed.

Lemma plain_label_inj states q q' : good_states states -> valid states q -> valid states q' ->
  plain_label states q = plain_label states q' -> q = q'.
Proof.
  intros (Hn & _ & Hf & Hs) Hq Hq' E.
  assert (Hst : forall s, s < length states -> In (nth s states []) states) by (intros; now apply nth_In).
  destruct q as [c|c|s], q' as [c'|c'|s']; cbn [valid] in *.
  - f_equal. cbn [plain_label] in E. apply app_inv_head in E.
    do 9 (destruct c as [|c]; [do 9 (destruct c' as [|c']; [first [reflexivity|discriminate E]|]); lia|]). lia.
  - cbn [plain_label] in E. discriminate E.
  - exfalso. apply (Hf (nth s' states []) c); auto. 
  - cbn [plain_label] in E. discriminate E.
  - f_equal. cbn [plain_label] in E. apply app_inv_head in E.
    do 6 (destruct c as [|c]; [do 6 (destruct c' as [|c']; [first [reflexivity|discriminate E]|]); lia|]). lia.
  - exfalso. apply (Hs (nth s' states []) c); auto.
  - exfalso. apply (Hf (nth s states []) c'); auto.
  - exfalso. apply (Hs (nth s states []) c'); auto.
  - f_equal. cbn [plain_label] in E. rewrite NoDup_nth_error in Hn. apply Hn; [now rewrite map_length|].
    rewrite !nth_error_map, !(nth_error_nth' states []) by auto. now rewrite E.
Qed.

Lemma all_labels_at nip states k l : nth_error (all_labels nip states) k = Some l ->
  exists i q, i < nip /\ valid states q /\ k = slot states i q /\ l = point_label states i q.
Proof.
  intros H. assert (Hk : k < per_element nip states) by (rewrite <- all_labels_length; apply nth_error_Some; congruence).
  destruct (@slot_onto _ _ _ Hk) as (i & q & Hi & Hq & ->). rewrite all_labels_nth in H by auto.
  exists i, q. repeat split; auto. congruence.
Qed.

Lemma filter_one (f : nat -> bool) k : forall n s, s <= k < s + n -> (forall i, s <= i < s + n -> (f i = true <-> i = k)) -> filter f (seq s n) = [k].
Proof.
  induction n as [|n IH]; intros s Hk H; [lia|]. cbn [seq filter].
  destruct (Nat.eq_dec s k) as [->|Hne].
  - rewrite (proj2 (H k ltac:(lia)) eq_refl). f_equal.
    assert (G : forall m t, k < t -> (forall i, t <= i < t + m -> f i = true -> i = k) -> filter f (seq t m) = []).
    { induction m as [|m IHm]; intros t Ht Hm; [reflexivity|]. cbn [seq filter]. destruct (f t) eqn:E; [apply Hm in E; lia|].
      apply IHm; [lia|]. intros i Hi. apply Hm. lia. }
    apply G; [lia|]. intros i Hi Hf. apply H; [lia|auto].
  - destruct (f s) eqn:E; [exfalso; apply Hne; apply H; auto; lia|]. apply IH; [lia|]. intros i Hi. apply H. lia.
Qed.
Lemma positions_point nip states i q : good_states states -> i < nip -> valid states q ->
  positions (all_labels nip states) (point_label states i q) = [slot states i q].
Proof.
  intros Hg Hi Hq. unfold positions. rewrite all_labels_length. apply filter_one.
  - pose proof (@slot_lt _ _ _ _ Hi Hq). lia.
  - intros k Hk. destruct (@slot_onto nip states k ltac:(lia)) as (i' & q' & Hi' & Hq' & ->).
    rewrite all_labels_nth by auto. rewrite chars_eqb_eq. split.
    + intros E. apply point_label_inj in E as [E ->]. apply plain_label_inj in E; auto. now subst.
    + intros E. apply slot_inj in E as [-> ->]; auto.
Qed.

(** ** Offsets *)
Definition places (nip n : nat) (states : list chars) (mk : nat -> quantity) : list nat :=
  flat_map (fun i => map (fun c => slot states i (mk c)) (seq 0 n)) (seq 0 nip).
Lemma flat_map_snoc {A} (f : nat -> list A) n : flat_map f (seq 0 (S n)) = flat_map f (seq 0 n) ++ f n.
Proof. rewrite seq_S, flat_map_app. cbn. now rewrite app_nil_r. Qed.
Lemma map_snoc {A} (f : nat -> A) n : map f (seq 0 (S n)) = map f (seq 0 n) ++ [f n].
Proof. now rewrite seq_S, map_app. Qed.
Lemma offsets_places nip n states mk label_of : good_states states -> (forall c, c < n -> valid states (mk c)) ->
  (forall c i, c < n -> i < nip -> label_of c i = Ok (point_label states i (mk c))) ->
  offsets_of nip n label_of (all_labels nip states) = Ok (places nip n states mk).
Proof.
  intros Hg Hv Hl. unfold offsets_of, places.
  apply (@oloop_const _ nip _ [] (fun k => flat_map (fun i => map (fun c => slot states i (mk c)) (seq 0 n)) (seq 0 k))); [reflexivity|].
  intros i Hi. cbv beta. rewrite flat_map_snoc.
  apply (@oloop_const _ n _ _ (fun k => flat_map (fun i => map (fun c => slot states i (mk c)) (seq 0 n)) (seq 0 i) ++ map (fun c => slot states i (mk c)) (seq 0 k))).
  - cbn. now rewrite app_nil_r.
  - intros c Hc. cbv beta. rewrite Hl by auto. cbn [obind]. rewrite positions_point by auto. rewrite map_snoc, app_assoc. reflexivity.
Qed.
Lemma places_length nip n states mk : length (places nip n states mk) = nip * n.
Proof. unfold places. apply length_flat_seq. intros. now rewrite map_length, seq_length. Qed.
Lemma component_full i c : c < 9 -> get_component_label (lit "deformation_gradient") FULL_TENSOR 3 c (Z.of_nat (i + 1)) = Ok (point_label [] i (DefGrad c)).
Proof. intros H. unfold get_component_label, point_label. do 9 (destruct c as [|c]; [reflexivity|]). lia. Qed.
Lemma component_sym i c : c < 6 -> get_component_label (lit "stress") SYMMETRIC_TENSOR 3 c (Z.of_nat (i + 1)) = Ok (point_label [] i (Stress c)).
Proof. intros H. unfold get_component_label, point_label. do 6 (destruct c as [|c]; [reflexivity|]). lia. Qed.
