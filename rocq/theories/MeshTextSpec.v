(** What a mesh is, independently of how the program stores it. *)
From Coq Require Import NArith Reals.
From Verif Require Import Base Strings InputSpec MeshTextModel.
Local Close Scope string_scope.
Local Open Scope list_scope.
Set Implicit Arguments.
Notation length := List.length.

(** a block: id, name, nodes per element, elements (global id, nodes); a node set: id, name, nodes *)
Record block := Block { b_id : Z; b_name : chars; b_npe : nat; b_elems : list (Z * list Z) }.
Record node_set := NodeSet { s_id : Z; s_name : chars; s_nodes : list Z }.
Record content (D : Type) := Content {
  c_nodes : list (Z * (D * D * D)); c_blocks : list block; c_sets : list node_set }.

(** the mesh object holds exactly this content *)
Definition holds {D} (m : mesh D) (c : content D) : Prop :=
  m_node_id m = map fst (c_nodes c) /\
  m_x m = map (fun n => fst (fst (snd n))) (c_nodes c) /\
  m_y m = map (fun n => snd (fst (snd n))) (c_nodes c) /\
  m_z m = map (fun n => snd (snd n)) (c_nodes c) /\
  m_elem_id m = List.concat (map (fun b => map fst (b_elems b)) (c_blocks c)) /\
  m_block_ids m = map b_id (c_blocks c) /\
  (forall b, In b (c_blocks c) ->
     assoc Z.eqb (b_id b) (m_block_names m) = Some (b_name b) /\
     assoc Z.eqb (b_id b) (m_nodes_per_elem m) = Some (Z.of_nat (b_npe b)) /\
     assoc Z.eqb (b_id b) (m_block_elem_ids m) = Some (map fst (b_elems b)) /\
     assoc Z.eqb (b_id b) (m_conn m) = Some (List.concat (map snd (b_elems b)))) /\
  m_ns_ids m = map s_id (c_sets c) /\
  (forall s, In s (c_sets c) ->
     assoc Z.eqb (s_id s) (m_ns_names m) = Some (s_name s) /\
     assoc Z.eqb (s_id s) (m_ns_nodes m) = Some (s_nodes s)).

(** ids as the files know them (counted from 1) fit an int *)
Definition int_id (z : Z) : Prop := int_range z /\ int_range (z + 1).
Definition one_word (w : chars) : Prop := w <> [] /\ none_of white w.
Record sound {D} (c : content D) : Prop := {
  so_nodes : Forall (fun n => int_id (fst n)) (c_nodes c);
  so_count : int_range (Z.of_nat (length (c_nodes c)));
  so_block : Forall (fun b => int_range (b_id b) /\ one_word (b_name b) /\ 0 < b_npe b /\
                              int_range (Z.of_nat (b_npe b)) /\
                              int_range (Z.of_nat (length (b_elems b) * b_npe b)) /\
                              Forall (fun e => int_id (fst e) /\ length (snd e) = b_npe b /\ Forall int_id (snd e))
                                     (b_elems b)) (c_blocks c);
  so_block_ids : NoDup (map b_id (c_blocks c));
  so_elems : int_range (Z.of_nat (length (List.concat (map b_elems (c_blocks c)))));
  so_set : Forall (fun s => int_range (s_id s) /\ one_word (s_name s) /\
                            int_range (Z.of_nat (length (s_nodes s))) /\ Forall int_id (s_nodes s)) (c_sets c);
  so_set_ids : NoDup (map s_id (c_sets c)) }.

(** the words that open a section of a mesh text file *)
Definition keywords : list chars := map lit
  ["number_of_nodes"; "number_of_elements"; "number_of_blocks"; "number_of_node_sets"; "node_coordinates";
   "element_block"; "nodeset"]%string.
(** a line that is no section: nothing but white space, or a first word that is no keyword *)
Definition harmless (l : chars) : Prop :=
  ~ In "010"%char l /\
  (all_of white l \/ exists b w r, l = b ++ w ++ r /\ all_of white b /\ one_word w /\
     (r = [] \/ exists c t, r = c :: t /\ white c) /\ ~ In w keywords).

(** a name for data of the results *)
Definition data_name (w : chars) : Prop := one_word w /\ ~ In w keywords.

Definition map_coordinates {D} (f : D -> D) (c : content D) : content D :=
  Content (map (fun n => (fst n, (f (fst (fst (snd n))), f (snd (fst (snd n))), f (snd (snd n))))) (c_nodes c))
          (c_blocks c) (c_sets c).
Definition coordinates {D} (c : content D) : list D :=
  flat_map (fun n => [fst (fst (snd n)); snd (fst (snd n)); snd (snd n)]) (c_nodes c).

(** * Decimals and doubles *)
Local Open Scope R_scope.
(** a number with 16 significant decimal digits *)
Definition sixteen_digits (q : R) : Prop :=
  exists k e : Z, (10 ^ 15 <= Z.abs k < 10 ^ 16)%Z /\ q = IZR k * powerRZ 10 e.
(** [q] is closest to [x] among them: what std::setprecision(16) prints (trailing zeros aside) *)
Definition prints (x q : R) : Prop :=
  sixteen_digits q /\ forall q', sixteen_digits q' -> Rabs (x - q) <= Rabs (x - q').
(** finite IEEE double precision numbers *)
Definition double (x : R) : Prop :=
  exists m e : Z, (Z.abs m < 2 ^ 53)%Z /\ (-1074 <= e <= 971)%Z /\ x = IZR m * powerRZ 2 e.

(** * Extreme values *)
Definition least (l : list R) (v : R) : Prop := In v l /\ forall x, In x l -> v <= x.
Definition greatest (l : list R) (v : R) : Prop := In v l /\ forall x, In x l -> x <= v.
