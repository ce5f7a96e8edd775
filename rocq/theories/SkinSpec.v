(** Vocabulary of the contact skin statements. *)
From Verif Require Import Base SkinModel.
From Coq Require Import Permutation.
Set Implicit Arguments.
Local Open Scope Z_scope.

(** A hexahedron: its global id and its eight nodes in Exodus order.  A mesh: blocks of them. *)
Definition hex := (Z * list Z)%type.
Definition hexes (block : list hex) : Prop := Forall (fun e => length (snd e) = 8%nat) block.
(** How a block of hexahedra is stored. *)
Definition stored (block : list hex) : hex_block :=
  HexBlock (length block) 8 (concat (map snd block)) (map fst block).

(** Face number o of a hexahedron, its four nodes in cyclic order (Exodus: sides -y +x +y -x -z +z). *)
Definition side (o : nat) (e : hex) : list Z :=
  let n k := nth k (snd e) 0 in
  match o with
  | 0%nat => [n 0%nat; n 1%nat; n 5%nat; n 4%nat]
  | 1%nat => [n 1%nat; n 2%nat; n 6%nat; n 5%nat]
  | 2%nat => [n 2%nat; n 3%nat; n 7%nat; n 6%nat]
  | 3%nat => [n 0%nat; n 4%nat; n 7%nat; n 3%nat]
  | 4%nat => [n 0%nat; n 3%nat; n 2%nat; n 1%nat]
  | _     => [n 4%nat; n 5%nat; n 6%nat; n 7%nat]
  end.
(** Every side of every element: element and face number. *)
Definition sides (elements : list hex) : list (hex * nat) := flat_map (fun e => map (fun o => (e, o)) (seq 0 6)) elements.
Definition nodes_of (s : hex * nat) : list Z := side (snd s) (fst s).
(** Two sides are the same face when they have the same four nodes. *)
Definition same_face (s t : hex * nat) : Prop := Permutation (nodes_of s) (nodes_of t).
(** The entity id of a side: 32 (element + 1 + offset) + 4 face, leaving two bits for the triangle. *)
Definition side_id (offset : Z) (s : hex * nat) : Z := 32 * (fst (fst s) + 1 + offset) + 4 * Z.of_nat (snd s).
(** All ids fit an int. *)
Definition ids_fit (offset : Z) (elements : list hex) : Prop :=
  Forall (fun e => 0 <= fst e + 1 + offset /\ 32 * (fst e + 1 + offset) + 32 <= 2147483648) elements.
(** The sides whose face no other side shares. *)
Definition lone_side (l : list (hex * nat)) (s : hex * nat) : Prop :=
  exists before after, l = before ++ s :: after /\ forall t, In t (before ++ after) -> ~ same_face t s.
(** A face shared by three sides. *)
Definition triple_side (l : list (hex * nat)) : Prop :=
  exists l1 a l2 b l3 c l4, l = l1 ++ a :: l2 ++ b :: l3 ++ c :: l4 /\ same_face a b /\ same_face b c.

(** ** Several ranks *)
(** Global number of local node n. *)
Definition global_node (global : list Z) (n : Z) : Z := nth (Z.to_nat n) global 0.
Definition global_nodes (global : list Z) (face : list Z) : list Z := map (global_node global) face.
(** Well formed input of a rank: an id for every face, faces of four existing nodes, and no two
    faces with the same nodes. *)
Definition rank_ok (inp : rank_input) : Prop :=
  length (ri_ids inp) = length (ri_faces inp) /\
  Forall (fun f => length f = 4%nat /\ Forall (fun n => 0 <= n < Z.of_nat (length (ri_global inp))) f) (ri_faces inp) /\
  ForallOrdPairs (fun f g => ~ Permutation (global_nodes (ri_global inp) f) (global_nodes (ri_global inp) g)) (ri_faces inp).
(** Face [f] of rank r is also a face of another rank. *)
Definition shared (inputs : list rank_input) (r : nat) (f : list Z) : Prop :=
  exists q inp inp' f', q <> r /\ nth_error inputs r = Some inp /\ nth_error inputs q = Some inp' /\ In f' (ri_faces inp') /\
    Permutation (global_nodes (ri_global inp) f) (global_nodes (ri_global inp') f').
(** An element with its nodes numbered globally. *)
Definition globalize (global : list Z) (e : hex) : hex := (fst e, global_nodes global (snd e)).

(** ** Edges *)
Definition is_edge (a b p q : Z) : Z := if ((a =? p) && (b =? q)) || ((a =? q) && (b =? p)) then 1 else 0.
(** How often {a, b} is an edge of a quadrilateral. *)
Definition edge_count (a b : Z) (face : list Z) : Z :=
  match face with
  | [w; x; y; z] => is_edge a b w x + is_edge a b x y + is_edge a b y z + is_edge a b z w
  | _ => 0
  end.
(** Conforming mesh: sides with the same nodes have the same edges. *)
Definition conforming (l : list (hex * nat)) : Prop :=
  forall s t, In s l -> In t l -> same_face s t -> forall a b, edge_count a b (nodes_of s) = edge_count a b (nodes_of t).
