(** Contact forces: what each node gets, totals and moments. *)
From Verif Require Import Base ListLemmas Loops ContactModel ContactSpec ContactProofs.
From Coq Require Import Reals Lra Permutation.
Set Implicit Arguments.
Local Open Scope R_scope.

Lemma add3_node f m v k : node_vec (add3 f (3 * m) v) k = vadd (node_vec f k) (vscal (hit m k) v).
Proof.
  unfold hit. destruct (Nat.eqb_spec m k) as [->|H]; unfold node_vec, add3; apply V3_eq; unfold vadd, vscal, upd; cbn [vx vy vz];
  repeat match goal with |- context[(?a =? ?b)%nat] => destruct (Nat.eqb_spec a b); try lia end; ring.
Qed.
Lemma vadd_assoc a b c : vadd a (vadd b c) = vadd (vadd a b) c.
Proof. apply V3_eq; unfold vadd; simpl; ring. Qed.
Lemma vadd_comm a b : vadd a b = vadd b a.
Proof. apply V3_eq; unfold vadd; simpl; ring. Qed.
Lemma vadd_zero a : vadd a vzero = a.
Proof. apply V3_eq; unfold vadd, vzero; simpl; ring. Qed.
Lemma vadd_zero_l a : vadd vzero a = a.
Proof. apply V3_eq; unfold vadd, vzero; simpl; ring. Qed.

Lemma quarter_node l f v k :
  node_vec (fold_left (fun force n => add3 force (3 * n) v) l f) k = vadd (node_vec f k) (vscal (fold_right Rplus 0 (map (fun a => hit a k) l)) v).
Proof.
  revert f; induction l as [|a l IH]; intros f; cbn [fold_left map fold_right].
  - apply V3_eq; unfold vadd, vscal; simpl; ring.
  - rewrite IH, add3_node. apply V3_eq; unfold vadd, vscal; cbn [vx vy vz]; ring.
Qed.

(** What a pair adds at node k *)
Definition pair_add (F : V3) (node face : entity) (b : V3) (k : nat) : V3 :=
  vscal (share face b k - hit (node_id_for_node_1_ node) k) F.
Lemma enforce_node penalty node face gap normal b force : entity_type_ face = TRIANGLE ->
  exists force', enforce_contact penalty node face gap normal b force = Ok force' /\
  forall k, node_vec force' k = vadd (node_vec force k) (pair_add (vscal (penalty * gap) normal) node face b k).
Proof.
  intros HT. unfold enforce_contact. cbv zeta. unfold set_nodal_contact_forces at 1. cbn [copy_ids entity_type_]. rewrite HT. cbn [obind].
  unfold set_nodal_contact_forces. cbn [copy_node entity_type_ obind]. eexists. split; [reflexivity|]. intros k.
  unfold scatter. cbn [with_forces copy_ids copy_node entity_type_ node_id_for_node_1_ node_id_for_node_2_ node_ids_for_fictitious_node_ force_1 force_2 force_3]. rewrite HT.
  rewrite add3_node, quarter_node, !add3_node. unfold pair_add, share, get_contact_force, scale. apply V3_eq; unfold vadd, vscal; cbn [vx vy vz]; field.
Qed.

(** Sums over nodes *)
Lemma vsum_nodes_ext n f g : (forall k, (k < n)%nat -> f k = g k) -> vsum_nodes n f = vsum_nodes n g.
Proof. induction n as [|n IH]; intros H; [reflexivity|]. cbn [vsum_nodes]. rewrite IH, H by (intros; try apply H; lia). reflexivity. Qed.
Lemma vsum_nodes_add n f g : vsum_nodes n (fun k => vadd (f k) (g k)) = vadd (vsum_nodes n f) (vsum_nodes n g).
Proof. induction n as [|n IH]; cbn [vsum_nodes]; [symmetry; apply vadd_zero|]. rewrite IH. apply V3_eq; unfold vadd; simpl; ring. Qed.
Lemma vsum_nodes_zero n : vsum_nodes n (fun _ => vzero) = vzero.
Proof. induction n as [|n IH]; cbn [vsum_nodes]; [reflexivity|]. rewrite IH. apply vadd_zero. Qed.
(** A linear function of the weight at node m *)
Lemma vsum_hit n m (w : nat -> V3) : (m < n)%nat -> vsum_nodes n (fun k => vscal (hit m k) (w k)) = w m.
Proof.
  intros Hm. induction n as [|n IH]; [lia|]. cbn [vsum_nodes]. destruct (Nat.eq_dec m n) as [->|Hne].
  - rewrite vsum_nodes_ext with (g := fun _ => vzero).
    + rewrite vsum_nodes_zero, vadd_zero_l. unfold hit. rewrite Nat.eqb_refl. apply V3_eq; unfold vscal; simpl; ring.
    + intros k Hk. unfold hit. destruct (Nat.eqb_spec n k); [lia|]. apply V3_eq; unfold vscal, vzero; simpl; ring.
  - rewrite IH by lia. unfold hit. destruct (Nat.eqb_spec m n); [lia|]. apply V3_eq; unfold vscal, vadd; simpl; ring.
Qed.
Lemma vsum_hits n l (w : nat -> V3) : Forall (fun a => (a < n)%nat) l ->
  vsum_nodes n (fun k => vscal (fold_right Rplus 0 (map (fun a => hit a k) l)) (w k)) = vsum (map w l).
Proof.
  induction l as [|a l IH]; intros H; cbn [map fold_right vsum].
  - rewrite vsum_nodes_ext with (g := fun _ => vzero); [apply vsum_nodes_zero|]. intros. apply V3_eq; unfold vscal, vzero; simpl; ring.
  - inversion H as [|? ? H1 H2]; subst.
    rewrite vsum_nodes_ext with (g := fun k => vadd (vscal (hit a k) (w k)) (vscal (fold_right Rplus 0 (map (fun a => hit a k) l)) (w k))).
    + rewrite vsum_nodes_add, (vsum_hit _ H1), IH by auto. reflexivity.
    + intros. apply V3_eq; unfold vscal, vadd; cbn [vx vy vz]; ring.
Qed.
Lemma vsum_nodes_scal n s f : vsum_nodes n (fun k => vscal s (f k)) = vscal s (vsum_nodes n f).
Proof. induction n as [|n IH]; cbn [vsum_nodes]; [apply V3_eq; unfold vscal, vzero; simpl; ring|]. rewrite IH. apply V3_eq; unfold vscal, vadd; cbn [vx vy vz]; ring. Qed.
Lemma vsum_share n face b (w : nat -> V3) : (node_id_for_node_1_ face < n)%nat -> (node_id_for_node_2_ face < n)%nat ->
  Forall (fun a => (a < n)%nat) (node_ids_for_fictitious_node_ face) ->
  vsum_nodes n (fun k => vscal (share face b k) (w k)) =
  vadd (vadd (vscal (vx b) (w (node_id_for_node_1_ face))) (vscal (vy b) (w (node_id_for_node_2_ face)))) (vscal (vz b / 4) (vsum (map w (node_ids_for_fictitious_node_ face)))).
Proof.
  intros H1 H2 H3. rewrite <- (vsum_hit w H1), <- (vsum_hit w H2), <- (vsum_hits w H3), <- !vsum_nodes_scal, <- !vsum_nodes_add.
  apply vsum_nodes_ext. intros k _. unfold share. apply V3_eq; unfold vscal, vadd; cbn [vx vy vz]; ring.
Qed.

Lemma pair_total n node face b F : (node_id_for_node_1_ node < n)%nat -> (node_id_for_node_1_ face < n)%nat -> (node_id_for_node_2_ face < n)%nat ->
  Forall (fun a => (a < n)%nat) (node_ids_for_fictitious_node_ face) -> length (node_ids_for_fictitious_node_ face) = 4%nat -> bary_sum b = 1 ->
  vsum_nodes n (pair_add F node face b) = vzero.
Proof.
  intros H0 H1 H2 H3 H4 HS. rewrite vsum_nodes_ext with (g := fun k => vadd (vscal (share face b k) F) (vscal (-1) (vscal (hit (node_id_for_node_1_ node) k) F))).
  - rewrite vsum_nodes_add, vsum_nodes_scal, (vsum_hit (fun _ => F) H0), (@vsum_share n face b (fun _ => F) H1 H2 H3).
    destruct (node_ids_for_fictitious_node_ face) as [|a1 [|a2 [|a3 [|a4 [|]]]]]; try discriminate. cbn [map vsum fold_right].
    unfold bary_sum in HS. assert (X : vx b = 1 - vy b - vz b) by lra. apply V3_eq; unfold vadd, vscal, vzero; cbn [vx vy vz]; rewrite X; field.
  - intros k _. unfold pair_add. apply V3_eq; unfold vscal, vadd; cbn [vx vy vz]; ring.
Qed.
Lemma vcross_scal x s F : vcross x (vscal s F) = vscal s (vcross x F).
Proof. apply V3_eq; unfold vcross, vscal; cbn [vx vy vz]; ring. Qed.
Lemma pair_moment n coord node face b s : sits_on_node coord n node -> sits_on_triangle coord n face ->
  let p := coord_1 node in let p1 := coord_1 face in let p2 := coord_2 face in let p3 := coord_3 face in
  forall F, vcross (vminus p (bary_point p1 p2 p3 b)) F = vzero ->
  vsum_nodes n (fun k => vcross (node_vec coord k) (pair_add (vscal s F) node face b k)) = vzero.
Proof.
  intros (_ & N1 & N2) (_ & T1 & T2 & C1 & C2 & a & b' & c & d & EL & La & Lb & Lc & Ld & C3). cbv zeta. intros F HF.
  assert (H3 : Forall (fun a => (a < n)%nat) (node_ids_for_fictitious_node_ face)) by (rewrite EL; repeat constructor; auto).
  rewrite vsum_nodes_ext with (g := fun k => vscal s (vadd (vscal (share face b k) (vcross (node_vec coord k) F)) (vscal (-1) (vscal (hit (node_id_for_node_1_ node) k) (vcross (node_vec coord k) F))))).
  - rewrite vsum_nodes_scal, vsum_nodes_add, vsum_nodes_scal, (vsum_hit (fun k => vcross (node_vec coord k) F) N1), (@vsum_share n face b (fun k => vcross (node_vec coord k) F) T1 T2 H3).
    rewrite EL. cbn [map vsum fold_right]. rewrite N2, C1, C2, C3 in HF. pose proof (f_equal vx HF) as X. pose proof (f_equal vy HF) as Y. pose proof (f_equal vz HF) as Z. clear HF.
    unfold vcross, vminus, bary_point, mean4, vadd, vscal, vzero in *. cbn [vx vy vz] in *.
    apply V3_eq; cbn [vx vy vz]; match goal with H : ?l = 0 |- _ => transitivity (s * (-1 * l)); [solve [field]|rewrite H; ring] end.
  - intros k _. unfold pair_add. rewrite vcross_scal, vcross_scal. apply V3_eq; unfold vscal, vadd; cbn [vx vy vz]; ring.
Qed.
