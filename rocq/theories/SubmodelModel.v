(** Model of the contact submodel: ContactManager::CreateContactEntities and
    CreateContactNodesAndFaces (nimble_contact_manager.cc), and the list of partition boundary nodes
    it starts from.  double is R; node ids of the mesh and of the submodel are nat (the code's ints
    are never negative here); coordinate arrays are functions of the index, so reading outside the
    mesh's arrays is not represented: the theorems ask for ids inside the mesh. *)
From Verif Require Import Base Loops LinModel MpiModel SkinModel ContactModel.
From Coq Require Import Reals.
Set Implicit Arguments.
Local Open Scope R_scope.

(** ReductionClique_t::GetMPICommWorldRanks, nimble.mpi.rank_clique_reducer.h 269-280: MPI_Allgather of
    the members' world ranks, sorted *)
Definition get_world_ranks (c : clique) : list nat := isort Nat.leb (comm_members (cl_comm c)).
(** ReductionInfo::GetAllIndices, nimble.mpi.reduction.h 150-162, called through
    VectorCommunicator::GetPartitionBoundaryNodeLocalIds, nimble_vector_communicator.h 130-138, on
    empty vectors *)
Definition get_all_indices (cliques : list clique) : outcome (list nat * list nat) :=
  ofold (fun acc c =>
    do min_rank <- vget (get_world_ranks c) 0;
    Ok (fst acc ++ cl_indices c, snd acc ++ map (fun _ => min_rank) (cl_indices c))) cliques ([], []).

(** nimble_contact_manager.cc 233-238 *)
Definition ghosted_node_local_ids (mpi_rank : nat) (local_ids min_ranks : list nat) : outcome (list nat) :=
  oloop 0 (length local_ids) (fun i acc =>
    do m <- vget min_ranks i;
    if Nat.eqb m mpi_rank then Ok acc else do n <- vget local_ids i; Ok (acc ++ [n])) [].

(** 242-249: std::set of the nodes of the faces; node_ids_ is its content in increasing order *)
Definition collect_nodes (faces : list (list nat)) (s : list nat) : list nat :=
  fold_left (fun s face => fold_left (fun s id => set_insert id s) face s) faces s.
Definition submodel_node_ids (primary secondary : list (list nat)) : list nat :=
  collect_nodes secondary (collect_nodes primary []).
(** 251-254: genesis_mesh_node_id_to_contact_submodel_id *)
Definition submodel_map (node_ids : list nat) : list (nat * nat) :=
  floop 0 (length node_ids) (fun i m => assoc_set Nat.eqb (nth i node_ids 0%nat) i m) [].
(** 258-269: map.at throws for an unknown node *)
Definition renumber (m : list (nat * nat)) (faces : list (list nat)) : outcome (list (list nat)) :=
  omapM (omapM (fun id => match assoc Nat.eqb id m with Some j => Ok j | None => Throw end)) faces.
(** 272-276 *)
Definition ghosted_contact_node_ids (m : list (nat * nat)) (ghosted : list nat) : list nat :=
  fold_left (fun acc id => match assoc Nat.eqb id m with Some j => acc ++ [j] | None => acc end) ghosted [].
(** 279-287: model_coord_ and coord_ (the same values) *)
Definition submodel_coord (node_ids : list nat) (coord_x coord_y coord_z : arr) (coord : arr) : arr :=
  floop 0 (length node_ids) (fun i coord =>
    let id := nth i node_ids 0%nat in
    let coord := upd coord (3 * i) (coord_x id) in
    let coord := upd coord (3 * i + 1) (coord_y id) in
    upd coord (3 * i + 2) (coord_z id)) coord.

(** The squared length of the edge from node a to node b, 303-308 and 1070-1075 *)
Definition edge_square (coord : arr) (a b : nat) : R :=
  (coord (3 * b)%nat - coord (3 * a)%nat) * (coord (3 * b)%nat - coord (3 * a)%nat)
  + (coord (3 * b + 1)%nat - coord (3 * a + 1)%nat) * (coord (3 * b + 1)%nat - coord (3 * a + 1)%nat)
  + (coord (3 * b + 2)%nat - coord (3 * a + 2)%nat) * (coord (3 * b + 2)%nat - coord (3 * a + 2)%nat).
(** node_id_1 and node_id_2 of edge i, 300-302 and 1067-1069 *)
Definition edge_end (face : list nat) (i : nat) : nat :=
  if Nat.ltb (i + 1) (length face) then nth (i + 1) face 0%nat else nth 0 face 0%nat.
(** 298-311; numeric_limits<double>::lowest() is - dbl_max *)
Definition secondary_length (coord : arr) (face : list nat) : R :=
  sqrt (floop 0 (length face) (fun i m => raise_to (edge_square coord (nth i face 0%nat) (edge_end face i)) m) (- dbl_max)).
(** 1064-1079 *)
Definition primary_length (coord : arr) (face : list nat) : R :=
  floop 0 (length face) (fun i m => raise_to (sqrt (edge_square coord (nth i face 0%nat) (edge_end face i))) m) (- dbl_max).

(** secondary_node_ids, secondary_node_entity_ids, secondary_node_char_lens *)
Record sec_state := Sec { sec_ids : list nat; sec_entity_ids : list Z; sec_lens : list (nat * R) }.
Definition mem (l : list nat) (n : nat) : bool := existsb (Nat.eqb n) l.
(** The body of the loop over a face's nodes, 313-334.  [global_ids] is GetNodeGlobalIds (an int + 1
    is taken to be an int). *)
Definition visit_secondary_node (node_ids ghosted : list nat) (global_ids : list Z) (len : R) (s : sec_state) (node_id : nat) : outcome sec_state :=
  if mem ghosted node_id then Ok s else
  if mem (sec_ids s) node_id then
    let old := match assoc Nat.eqb node_id (sec_lens s) with Some l => l | None => 0 end in
    if Rlt_dec old len then Ok (Sec (sec_ids s) (sec_entity_ids s) (assoc_set Nat.eqb node_id len (sec_lens s))) else Ok s
  else
    do mesh_id <- vget node_ids node_id;
    do gid <- vget global_ids mesh_id;
    Ok (Sec (sec_ids s ++ [node_id]) (sec_entity_ids s ++ [(gid + 1)%Z]) (assoc_set Nat.eqb node_id len (sec_lens s))).
(** 290-335 *)
Definition secondary_nodes (node_ids ghosted : list nat) (global_ids : list Z) (coord : arr) (faces : list (list nat)) : outcome sec_state :=
  ofold (fun s face => ofold (visit_secondary_node node_ids ghosted global_ids (secondary_length coord face)) face s) faces (Sec [] [] []).

(** 1081-1088: the barycentre; face has four nodes here *)
Definition fictitious_node (coord : arr) (face : list nat) : V3 :=
  let s := floop 0 (length face) (fun i s =>
      let n := nth i face 0%nat in
      mkV3 (vx s + coord (3 * n)%nat) (vy s + coord (3 * n + 1)%nat) (vz s + coord (3 * n + 2)%nat)) vzero in
  let k := INR (length face) in mkV3 (vx s / k) (vy s / k) (vz s / k).
(** One of the four triangles of a face, 1100-1191: its corners are face[a], face[b] and the barycentre *)
Definition face_triangle (coord : arr) (face : list nat) (entity_id : Z) (len : R) (index a b : nat) (ordinal : Z) : entity :=
  let node_id_1 := nth a face 0%nat in
  let node_id_2 := nth b face 0%nat in
  make_triangle (triangle_entity_id entity_id ordinal) (Z.of_nat index)
    (at3 coord (3 * node_id_1)) (at3 coord (3 * node_id_2)) (fictitious_node coord face) len node_id_1 node_id_2
    [nth 0 face 0; nth 1 face 0; nth 2 face 0; nth 3 face 0]%nat.
(** The loop over the primary faces, 1057-1192 *)
Definition create_faces (coord : arr) (faces : list (list nat)) (entity_ids : list Z) : outcome (list entity) :=
  oloop 0 (length faces) (fun i out =>
    let face := nth i faces [] in
    if negb (Nat.eqb (length face) 4) then Abort else
    let len := primary_length coord face in
    do id <- vget entity_ids i;
    let index := length out in
    Ok (out ++ [face_triangle coord face id len index 0 1 0;
                face_triangle coord face id len (index + 1) 1 2 1;
                face_triangle coord face id len (index + 2) 2 3 2;
                face_triangle coord face id len (index + 3) 3 0 3])) [].
(** The loop over the secondary nodes, 1195-1204 (vector::at and map::at throw) *)
Definition create_nodes (coord : arr) (s : sec_state) : outcome (list entity) :=
  oloop 0 (length (sec_ids s)) (fun i out =>
    do node_id <- vat (sec_ids s) i;
    do entity_id <- vat (sec_entity_ids s) i;
    do len <- match assoc Nat.eqb node_id (sec_lens s) with Some l => Ok l | None => Throw end;
    Ok (out ++ [make_node entity_id (Z.of_nat i) (at3 coord (3 * node_id)) len node_id])) [].

Record submodel := Submodel { sm_node_ids : list nat; sm_model_coord : arr; sm_coord : arr; sm_nodes : list entity; sm_faces : list entity }.
(** CreateContactEntities, 184-385, from the skins (after RemoveInternalSkinFaces) on; [junk1], [junk2]:
    the contents of model_coord_ and coord_ beyond the submodel, never read *)
Definition create_submodel (mpi_rank : nat) (boundary : list nat * list nat) (global_ids : list Z) (coord_x coord_y coord_z : arr)
    (primary : list (list nat)) (primary_ids : list Z) (secondary : list (list nat)) (junk1 junk2 : arr) : outcome submodel :=
  do ghosted <- ghosted_node_local_ids mpi_rank (fst boundary) (snd boundary);
  let node_ids := submodel_node_ids primary secondary in
  let m := submodel_map node_ids in
  do primary <- renumber m primary;
  do secondary <- renumber m secondary;
  let ghosted := ghosted_contact_node_ids m ghosted in
  let model_coord := submodel_coord node_ids coord_x coord_y coord_z junk1 in
  let coord := submodel_coord node_ids coord_x coord_y coord_z junk2 in
  do sec <- secondary_nodes node_ids ghosted global_ids coord secondary;
  do faces <- create_faces coord primary primary_ids;
  do nodes <- create_nodes coord sec;
  Ok (Submodel node_ids model_coord coord nodes faces).

(** CreateContactEntities on all ranks, with GenerateReductionInfo before it
    (VectorCommunicator::Initialize, nimble_vector_communicator.h 104-124) *)
Record contact_rank := CR { cr_global_ids : list Z; cr_x : arr; cr_y : arr; cr_z : arr;
  cr_primary : list (list nat); cr_primary_ids : list Z; cr_secondary : list (list nat); cr_junk1 : arr; cr_junk2 : arr }.
Definition create_all (ranks : list contact_rank) : outcome (list submodel) :=
  do cliques <- generate_reduction_info (map cr_global_ids ranks);
  omapM (fun r =>
    do k <- vget ranks r;
    do boundary <- get_all_indices (nth r cliques []);
    create_submodel r boundary (cr_global_ids k) (cr_x k) (cr_y k) (cr_z k) (cr_primary k) (cr_primary_ids k) (cr_secondary k) (cr_junk1 k) (cr_junk2 k))
    (seq 0 (length ranks)).
