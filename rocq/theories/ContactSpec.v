(** Vocabulary of the contact statements. *)
From Verif Require Import Base Loops ContactModel.
From Coq Require Import Reals.
Set Implicit Arguments.
Local Open Scope R_scope.

Definition vdot (a b : V3) : R := vx a * vx b + vy a * vy b + vz a * vz b.
Definition vadd (a b : V3) : V3 := mkV3 (vx a + vx b) (vy a + vy b) (vz a + vz b).
Definition vscal (s : R) (a : V3) : V3 := mkV3 (s * vx a) (s * vy a) (s * vz a).
Definition vminus (a b : V3) : V3 := vadd a (vscal (-1) b).
Definition vcross (a b : V3) : V3 :=
  mkV3 (vy a * vz b - vz a * vy b) (vz a * vx b - vx a * vz b) (vx a * vy b - vy a * vx b).
Definition vdist2 (a b : V3) : R := vdot (vminus a b) (vminus a b).
Definition vsum (l : list V3) : V3 := fold_right vadd vzero l.
(** Sum over the nodes 0 .. n-1 *)
Fixpoint vsum_nodes (n : nat) (f : nat -> V3) : V3 := match n with O => vzero | S n => vadd (vsum_nodes n f) (f n) end.
(** The vector of node k in an array with three entries per node *)
Definition node_vec (a : nat -> R) (k : nat) : V3 := mkV3 (a (3 * k)%nat) (a (3 * k + 1)%nat) (a (3 * k + 2)%nat).
Definition total_force (n : nat) (force : nat -> R) : V3 := vsum_nodes n (node_vec force).
(** Total moment about the origin of forces acting at the nodes' positions *)
Definition total_moment (n : nat) (coord force : nat -> R) : V3 := vsum_nodes n (fun k => vcross (node_vec coord k) (node_vec force k)).

(** Point with barycentric coordinates b *)
Definition bary_point (p1 p2 p3 b : V3) : V3 := vadd (vadd (vscal (vx b) p1) (vscal (vy b) p2)) (vscal (vz b) p3).
Definition bary_sum (b : V3) : R := vx b + vy b + vz b.
Definition triangle_normal (p1 p2 p3 : V3) : V3 := vcross (vminus p2 p1) (vminus p3 p1).
Definition nondegenerate (p1 p2 p3 : V3) : Prop := triangle_normal p1 p2 p3 <> vzero.
(** [b] are the barycentric coordinates of the orthogonal projection of p on the plane of the triangle *)
Definition projects_to (p p1 p2 p3 b : V3) : Prop :=
  bary_sum b = 1 /\ vdot (vminus p (bary_point p1 p2 p3 b)) (vminus p2 p1) = 0 /\ vdot (vminus p (bary_point p1 p2 p3 b)) (vminus p3 p1) = 0.
Definition all_between (lo hi : R) (b : V3) : Prop := lo < vx b < hi /\ lo < vy b < hi /\ lo < vz b < hi.
Definition in_triangle (p1 p2 p3 q : V3) : Prop :=
  exists b, bary_sum b = 1 /\ 0 <= vx b /\ 0 <= vy b /\ 0 <= vz b /\ q = bary_point p1 p2 p3 b.

(** An entity whose stored positions are those of its nodes in [coord], with its nodes below n: a node
    has one; a triangle has two nodes and the mean of four. *)
Definition sits_on_node (coord : nat -> R) (n : nat) (e : entity) : Prop :=
  entity_type_ e = NODE /\ (node_id_for_node_1_ e < n)%nat /\ coord_1 e = node_vec coord (node_id_for_node_1_ e).
Definition mean4 (a b c d : V3) : V3 := vscal (/ 4) (vadd (vadd a b) (vadd c d)).
Definition sits_on_triangle (coord : nat -> R) (n : nat) (e : entity) : Prop :=
  entity_type_ e = TRIANGLE /\ (node_id_for_node_1_ e < n)%nat /\ (node_id_for_node_2_ e < n)%nat /\
  coord_1 e = node_vec coord (node_id_for_node_1_ e) /\ coord_2 e = node_vec coord (node_id_for_node_2_ e) /\
  exists a b c d, node_ids_for_fictitious_node_ e = [a; b; c; d] /\ (a < n)%nat /\ (b < n)%nat /\ (c < n)%nat /\ (d < n)%nat /\
    coord_3 e = mean4 (node_vec coord a) (node_vec coord b) (node_vec coord c) (node_vec coord d).

(** The part of a face's force that its node k carries: the first two barycentric weights go to the
    first two nodes, the third in quarters to the four nodes of the face's centre. *)
Definition hit (a k : nat) : R := if Nat.eqb a k then 1 else 0.
Definition share (face : entity) (b : V3) (k : nat) : R :=
  vx b * hit (node_id_for_node_1_ face) k + vy b * hit (node_id_for_node_2_ face) k
  + vz b / 4 * fold_right Rplus 0 (map (fun a => hit a k) (node_ids_for_fictitious_node_ face)).
(** The unit normal, and the signed distance of p from the plane of a triangle *)
Definition unit_normal (p1 p2 p3 : V3) : V3 := let n := triangle_normal p1 p2 p3 in vscal (/ sqrt (vdot n n)) n.
Definition signed_distance (p p1 p2 p3 : V3) : R := vdot (vminus p p1) (unit_normal p1 p2 p3).
(** A node penetrates a triangle: its projection lies inside (up to tol) and it is behind the plane
    by less than the triangle's length; [b] are the projection's coordinates. *)
Definition penetrates (tol : R) (node face : entity) (b : V3) : Prop :=
  let p := coord_1 node in let p1 := coord_1 face in let p2 := coord_2 face in let p3 := coord_3 face in
  nondegenerate p1 p2 p3 /\ projects_to p p1 p2 p3 b /\ all_between (- tol) (1 + tol) b /\
  - char_len_ face < signed_distance p p1 p2 p3 < 0.

(** The tolerance of the penetration test, 1e-8 *)
Definition contact_tol : R := 1 / 100000000.
(** [v] is the force a reported pair exerts on node k of the submodel: penalty times the (negative)
    gap along the face's unit normal, +share on the face's nodes, -1 on the contact node; nothing if
    the node does not penetrate the face *)
Definition pair_force (penalty : R) (node face : entity) (k : nat) (v : V3) : Prop :=
  let g := signed_distance (coord_1 node) (coord_1 face) (coord_2 face) (coord_3 face) in
  let n := unit_normal (coord_1 face) (coord_2 face) (coord_3 face) in
  (exists b, penetrates contact_tol node face b /\ v = vscal (penalty * g * (share face b k - hit (node_id_for_node_1_ node) k)) n) \/
  ((forall b, ~ penetrates contact_tol node face b) /\ v = vzero).
(** Entity i of [nodes] and entity j of [faces] touch *)
Definition touching (nodes faces : list entity) (i j : nat) : Prop :=
  exists node face b, nth_error nodes i = Some node /\ nth_error faces j = Some face /\ penetrates contact_tol node face b.
(** [e'] is [e] except for its contact status, which says whether [P] holds *)
Definition same_but_status (e e' : entity) (P : Prop) : Prop :=
  e' = with_status e (contact_status_ e') /\ (contact_status_ e' = true <-> P).

(** Boxes *)
Definition in_box (lo hi q : V3) : Prop := vx lo <= vx q <= vx hi /\ vy lo <= vy q <= vy hi /\ vz lo <= vz q <= vz hi.
(** at distance exactly d from the tightest box around the points *)
Definition tight_box (d : R) (pts : list V3) (lo hi : V3) : Prop :=
  forall x, In x [vx; vy; vz] ->
    (forall q, In q pts -> x lo + d <= x q <= x hi - d) /\
    (exists q, In q pts /\ x q = x lo + d) /\ (exists q, In q pts /\ x q = x hi - d).
Definition boxes_meet (lo hi lo' hi' : V3) : Prop := exists q, in_box lo hi q /\ in_box lo' hi' q.
Definition vertices (e : entity) : list V3 :=
  match entity_type_ e with TRIANGLE => [coord_1 e; coord_2 e; coord_3 e] | _ => [coord_1 e] end.
(** entities as the constructors make them *)
Definition well_formed_entity (e : entity) : Prop :=
  (entity_type_ e = NODE /\ num_nodes_ e = 1%nat) \/ (entity_type_ e = TRIANGLE /\ num_nodes_ e = 3%nat).
(** Entities of a submodel with n nodes *)
Definition node_of_submodel (n : nat) (e : entity) : Prop := entity_type_ e = NODE /\ (node_id_for_node_1_ e < n)%nat.
Definition face_of_submodel (n : nat) (e : entity) : Prop :=
  entity_type_ e = TRIANGLE /\ (node_id_for_node_1_ e < n)%nat /\ (node_id_for_node_2_ e < n)%nat /\
  length (node_ids_for_fictitious_node_ e) = 4%nat /\ Forall (fun a => (a < n)%nat) (node_ids_for_fictitious_node_ e).

(** The two halves of a pair's force, when node and face may live on different ranks *)
Definition half_force (penalty : R) (node face : entity) (w : V3 -> R) (v : V3) : Prop :=
  let g := signed_distance (coord_1 node) (coord_1 face) (coord_2 face) (coord_3 face) in
  let n := unit_normal (coord_1 face) (coord_2 face) (coord_3 face) in
  (exists b, penetrates contact_tol node face b /\ v = vscal (penalty * g * w b) n) \/
  ((forall b, ~ penetrates contact_tol node face b) /\ v = vzero).
Definition node_half (penalty : R) (node face : entity) (k : nat) : V3 -> Prop := half_force penalty node face (fun _ => - hit (node_id_for_node_1_ node) k).
Definition face_half (penalty : R) (node face : entity) (k : nat) : V3 -> Prop := half_force penalty node face (fun b => share face b k).
(** A pair of the distributed lists: owners and entities *)
Definition pair_at (nodes faces : list (nat * entity)) (p : nat * nat) (rn : nat) (node : entity) (rf : nat) (face : entity) : Prop :=
  nth_error nodes (fst p) = Some (rn, node) /\ nth_error faces (snd p) = Some (rf, face).
