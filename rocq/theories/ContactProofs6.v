(** Between the mesh and the contact submodel. *)
From Verif Require Import Base ListLemmas Loops ContactModel ContactSpec ContactProofs ContactProofs2 ContactProofs3 ContactProofs5.
From Coq Require Import Reals Lra Permutation.
Set Implicit Arguments.
Local Open Scope R_scope.

Lemma upd_eq (a : nat -> R) i v k : upd a i v k = if Nat.eqb k i then v else a k.
Proof. reflexivity. Qed.
Lemma write3 (a : nat -> R) m x y z k :
  node_vec (upd (upd (upd a (3 * m) x) (3 * m + 1) y) (3 * m + 2) z) k = if Nat.eqb k m then mkV3 x y z else node_vec a k.
Proof.
  unfold node_vec, upd. destruct (Nat.eqb_spec k m) as [->|Hne].
  - repeat match goal with |- context[Nat.eqb ?a ?b] => destruct (Nat.eqb_spec a b); try lia end; reflexivity.
  - repeat match goal with |- context[Nat.eqb ?a ?b] => destruct (Nat.eqb_spec a b); try lia end; reflexivity.
Qed.
Lemma apply_coord_node ids mc disp coord k :
  node_vec (apply_coord ids mc disp coord) k = if Nat.ltb k (length ids) then vadd (node_vec mc k) (node_vec disp (nth k ids 0%nat)) else node_vec coord k.
Proof.
  unfold apply_coord.
  pose (P := fun (i : nat) (c : nat -> R) => forall k, node_vec c k = if Nat.ltb k i then vadd (node_vec mc k) (node_vec disp (nth k ids 0%nat)) else node_vec coord k).
  cut (P (length ids) (floop 0 (length ids) (fun i coord => let node_id := nth i ids 0%nat in
    let coord := upd coord (3 * i) (mc (3 * i)%nat + disp (3 * node_id)%nat) in
    let coord := upd coord (3 * i + 1) (mc (3 * i + 1)%nat + disp (3 * node_id + 1)%nat) in
    upd coord (3 * i + 2) (mc (3 * i + 2)%nat + disp (3 * node_id + 2)%nat)) coord)); [intros H; apply H|].
  apply (@floop_ind (nat -> R) P); [lia| |].
  - intros k'. destruct (Nat.ltb_spec k' 0); [lia|reflexivity].
  - intros i c Hi IH k'. cbv zeta. rewrite write3. destruct (Nat.eqb_spec k' i) as [->|Hne].
    + destruct (Nat.ltb_spec i (1 + i)); [|lia]. reflexivity.
    + rewrite IH. destruct (Nat.ltb_spec k' i), (Nat.ltb_spec k' (1 + i)); try lia; reflexivity.
Qed.
Lemma get_forces_node ids force cf : NoDup ids ->
  (forall i, (i < length ids)%nat -> node_vec (get_forces ids force cf) (nth i ids 0%nat) = node_vec force i) /\
  (forall k, ~ In k ids -> node_vec (get_forces ids force cf) k = node_vec cf k).
Proof.
  intros HN. unfold get_forces.
  pose (P := fun (m : nat) (c : nat -> R) => (forall i, (i < m)%nat -> (i < length ids)%nat -> node_vec c (nth i ids 0%nat) = node_vec force i) /\ (forall k, ~ In k ids -> node_vec c k = node_vec cf k)).
  match goal with |- context[floop 0 (length ids) ?f cf] => cut (P (length ids) (floop 0 (length ids) f cf)) end; [intros [H1 H2]; split; auto|].
  apply (@floop_ind (nat -> R) P); [lia| |].
  - split; [intros; lia|reflexivity].
  - intros i c Hi [IH1 IH2]. cbv zeta. split.
    + intros j Hj Hl. rewrite write3. destruct (Nat.eqb_spec (nth j ids 0%nat) (nth i ids 0%nat)) as [E|E].
      * assert (j = i) by (apply (proj1 (NoDup_nth ids 0%nat) HN); [exact Hl|lia|exact E]). subst j. reflexivity.
      * apply IH1; [|exact Hl]. assert (j <> i) by congruence. lia.
    + intros k Hk. rewrite write3. destruct (Nat.eqb_spec k (nth i ids 0%nat)) as [->|E]; [|auto]. exfalso. apply Hk. apply nth_In. lia.
Qed.

Lemma NoDup_app_intro {A} (l m : list A) : NoDup l -> NoDup m -> (forall x, In x l -> In x m -> False) -> NoDup (l ++ m).
Proof.
  intros Hl Hm Hd. induction l as [|a l IH]; [exact Hm|]. inversion Hl as [|? ? N1 N2]; subst. cbn [app]. constructor.
  - rewrite in_app_iff. intros [H|H]; [auto|]. apply (Hd a); [now left|exact H].
  - apply IH; [exact N2|]. intros x Hx. apply Hd. now right.
Qed.
Lemma vsum_nodes_list n f : vsum_nodes n f = vsum (map f (seq 0 n)).
Proof. induction n as [|n IH]; [reflexivity|]. cbn [vsum_nodes]. rewrite seq_S, map_app, vsum_app, IH. cbn [map vsum fold_right]. rewrite vadd_zero. reflexivity. Qed.
Lemma seq_split_ids ids n : NoDup ids -> Forall (fun i => (i < n)%nat) ids ->
  Permutation (seq 0 n) (ids ++ filter (fun k => negb (existsb (Nat.eqb k) ids)) (seq 0 n)).
Proof.
  intros HN HF. apply NoDup_Permutation; [apply seq_NoDup| |].
  - apply NoDup_app_intro; [exact HN|apply NoDup_filter, seq_NoDup|]. intros x Hx Hf. apply filter_In in Hf as [_ Hf]. apply negb_true_iff in Hf.
    assert (existsb (Nat.eqb x) ids = true) by (apply existsb_exists; exists x; split; [exact Hx|apply Nat.eqb_refl]). congruence.
  - intros x. rewrite in_app_iff, filter_In. split.
    + intros Hx. destruct (existsb (Nat.eqb x) ids) eqn:E; [left|right; auto]. apply existsb_exists in E as (y & Hy & E). apply Nat.eqb_eq in E. now subst.
    + intros [Hx|[Hx _]]; [|exact Hx]. rewrite Forall_forall in HF. apply in_seq. specialize (HF x Hx). lia.
Qed.
Lemma vsum_gather ids n (f g : nat -> V3) : NoDup ids -> Forall (fun i => (i < n)%nat) ids ->
  (forall i, (i < length ids)%nat -> g (nth i ids 0%nat) = f i) -> (forall k, ~ In k ids -> g k = vzero) ->
  vsum_nodes n g = vsum_nodes (length ids) f.
Proof.
  intros HN HF H1 H2. rewrite !vsum_nodes_list. rewrite (vsum_perm (Permutation_map g (seq_split_ids HN HF))). rewrite map_app, vsum_app.
  replace (vsum (map g (filter (fun k => negb (existsb (Nat.eqb k) ids)) (seq 0 n)))) with vzero.
  - rewrite vadd_zero. f_equal. apply nth_ext with (d := vzero) (d' := vzero); [now rewrite !map_length, seq_length|].
    intros i Hi. rewrite map_length in Hi. rewrite (nth_indep _ vzero (g 0%nat)), map_nth, H1 by (rewrite ?map_length; lia).
    rewrite (nth_indep _ vzero (f 0%nat)) by (rewrite map_length, seq_length; lia). rewrite map_nth, seq_nth by lia. reflexivity.
  - symmetry. apply vsum_all_zero. apply Forall_forall. intros k Hk. apply filter_In in Hk as [_ Hk]. apply H2. intros Hi. apply negb_true_iff in Hk.
    assert (existsb (Nat.eqb k) ids = true) by (apply existsb_exists; exists k; split; [exact Hi|apply Nat.eqb_refl]). congruence.
Qed.

Lemma at3_node (c : nat -> R) m : at3 c (3 * m) = node_vec c m.
Proof. reflexivity. Qed.
Lemma set_coords_node c n e : node_of_submodel n e -> sits_on_node c n (set_coordinates c e).
Proof. intros (ET & Hn). unfold set_coordinates. cbv zeta. cbn [with_coords entity_type_]. rewrite ET. unfold set_bounding_box. cbn [with_coords entity_type_]. rewrite ET. split; [exact ET|]. split; [exact Hn|reflexivity]. Qed.
Lemma set_coords_face c n e : face_of_submodel n e -> sits_on_triangle c n (set_coordinates c e).
Proof.
  intros (ET & H1 & H2 & HL & HF). unfold set_coordinates. cbv zeta. cbn [with_coords entity_type_]. rewrite ET. unfold set_bounding_box. cbn [with_coords entity_type_]. rewrite ET.
  split; [exact ET|]. split; [exact H1|]. split; [exact H2|]. split; [reflexivity|]. split; [reflexivity|].
  destruct (node_ids_for_fictitious_node_ e) as [|a [|b [|cc [|d [|]]]]] eqn:EL; try discriminate.
  inversion HF as [|? ? A HF1]; subst. inversion HF1 as [|? ? B HF2]; subst. inversion HF2 as [|? ? C HF3]; subst. inversion HF3 as [|? ? D _]; subst.
  exists a, b, cc, d. split; [exact EL|]. repeat (split; [assumption|]).
  cbn [coord_3 with_box with_coords node_ids_for_fictitious_node_]. rewrite ?EL. cbn [nth].
  apply V3_eq; unfold mean4, node_vec, vscal, vadd; cbn [vx vy vz]; field.
Qed.
Lemma set_coords_keeps c e : let e' := set_coordinates c e in
  entity_type_ e' = entity_type_ e /\ num_nodes_ e' = num_nodes_ e /\ node_id_for_node_1_ e' = node_id_for_node_1_ e /\ node_id_for_node_2_ e' = node_id_for_node_2_ e /\
  node_ids_for_fictitious_node_ e' = node_ids_for_fictitious_node_ e /\ char_len_ e' = char_len_ e /\ inflation_factor e' = inflation_factor e /\
  force_1 e' = force_1 e /\ force_2 e' = force_2 e /\ force_3 e' = force_3 e /\
  contact_entity_global_id_ e' = contact_entity_global_id_ e /\ local_id_ e' = local_id_ e /\ contact_status_ e' = contact_status_ e.
Proof. unfold set_coordinates, set_bounding_box. destruct e as [ty]; destruct ty; repeat split; reflexivity. Qed.
Lemma face_sub_set c n e : face_of_submodel n e -> face_of_submodel n (set_coordinates c e).
Proof. intros H. destruct (set_coords_keeps c e) as (E1 & _ & E2 & E3 & E4 & _). unfold face_of_submodel in *. now rewrite E1, E2, E3, E4. Qed.
Lemma node_sub_set c n e : node_of_submodel n e -> node_of_submodel n (set_coordinates c e).
Proof. intros H. destruct (set_coords_keeps c e) as (E1 & _ & E2 & _). unfold node_of_submodel in *. now rewrite E1, E2. Qed.
