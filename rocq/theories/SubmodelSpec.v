(** Vocabulary of the contact submodel statements (C57). *)
From Verif Require Import Base ContactModel ContactSpec.
From Coq Require Import Reals.
Set Implicit Arguments.
Local Open Scope R_scope.

(** [n] is a node of one of the faces *)
Definition node_of (faces : list (list nat)) (n : nat) : Prop := exists face, In face faces /\ In n face.
(** [a b] is an edge of the polygon *)
Definition edge_of (face : list nat) (a b : nat) : Prop :=
  exists i, nth_error face i = Some a /\ nth_error face ((i + 1) mod length face) = Some b.
Definition vdist (a b : V3) : R := sqrt (vdist2 a b).
Definition greatest (P : R -> Prop) (m : R) : Prop := P m /\ forall x, P x -> x <= m.
(** [l] is the length of the polygon's longest edge; [pos] are the nodes' positions *)
Definition longest_edge (pos : nat -> V3) (face : list nat) (l : R) : Prop :=
  greatest (fun d => exists a b, edge_of face a b /\ d = vdist (pos a) (pos b)) l.
(** The list of partition boundary nodes says that node n belongs to another rank *)
Definition foreign (rank : nat) (boundary : list nat * list nat) (n : nat) : Prop :=
  exists i m, nth_error (fst boundary) i = Some n /\ nth_error (snd boundary) i = Some m /\ m <> rank.

(** [e] is triangle t of the quadrilateral [face] of the mesh: corners face[t], face[t+1] and the
    mean of the four; [ids] are the mesh nodes of the submodel's nodes *)
Definition is_triangle_of (ids : list nat) (pos : nat -> V3) (face : list nat) (t : nat) (e : entity) : Prop :=
  exists a b, nth_error face t = Some a /\ nth_error face ((t + 1) mod 4) = Some b /\
    entity_type_ e = TRIANGLE /\ num_nodes_ e = 3%nat /\
    nth_error ids (node_id_for_node_1_ e) = Some a /\ nth_error ids (node_id_for_node_2_ e) = Some b /\
    map (nth_error ids) (node_ids_for_fictitious_node_ e) = map Some face /\
    coord_1 e = pos a /\ coord_2 e = pos b /\
    (forall p q r s, face = [p; q; r; s] -> coord_3 e = mean4 (pos p) (pos q) (pos r) (pos s)) /\
    longest_edge pos face (char_len_ e) /\ contact_status_ e = false.
(** [e] is the contact node of mesh node n *)
Definition is_contact_node (ids : list nat) (pos : nat -> V3) (secondary : list (list nat)) (n : nat) (e : entity) : Prop :=
  entity_type_ e = NODE /\ num_nodes_ e = 1%nat /\ nth_error ids (node_id_for_node_1_ e) = Some n /\ coord_1 e = pos n /\
  greatest (fun l => exists face, In face secondary /\ In n face /\ longest_edge pos face l) (char_len_ e) /\ contact_status_ e = false.
(** Some contact node of the submodel stands for the mesh node with global id g (exodus id g + 1) *)
Definition has_contact_node (nodes : list entity) (g : Z) : Prop := exists e, In e nodes /\ contact_entity_global_id_ e = (g + 1)%Z.
