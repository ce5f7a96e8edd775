(** Model of the distributed contact evaluation (contact/parallel/arborx_parallel_contact_manager.cc).
    The entities of all ranks are one list of (owning rank, entity); the (rank, index) of the code is
    the position in that list.  The search (ArborX) is a list of reported (node, face) pairs in the
    order in which the callbacks run; a callback updates its face with atomics, so callbacks on
    different ranks and threads commute into some such order. *)
From Verif Require Import Base ListLemmas Loops ContactModel.
From Coq Require Import Reals.
Set Implicit Arguments.
Local Open Scope R_scope.

(** ContactEntity::ExportGeometryInto, nimble_contact_entity.cc 49-73, into a default entity *)
Definition export_geometry (f : entity) : entity :=
  let d := default_entity in
  Entity (entity_type_ f) (num_nodes_ f) (coord_1 f) (coord_2 f) (coord_3 f) (force_1 d) (force_2 d) (force_3 d) (inflation_factor d) (char_len_ f)
    (bounding_box_min f) (bounding_box_max f) (centroid_ d) (node_id_for_node_1_ d) (node_id_for_node_2_ d)
    (node_ids_for_fictitious_node_ d) (contact_entity_global_id_ d) (local_id_ d) (contact_status_ d).
Definition vplus (a b : V3) : V3 := mkV3 (vx a + vx b) (vy a + vy b) (vz a + vz b).
Definition vneg (a : V3) : V3 := mkV3 (- vx a) (- vy a) (- vz a).
(** The set list_ of PairData, 104-126: same pair = same node and face *)
Definition same_pair (a b : nat * nat) : bool := Nat.eqb (fst a) (fst b) && Nat.eqb (snd a) (snd b).
(** OutputData as returned to the node's rank: node, has_force_, force_node_ *)
Record par_state := PS { ps_faces : list (nat * entity); ps_list : list (nat * nat); ps_results : list (nat * bool * V3) }.
(** ContactCallback::operator(), 130-179 *)
Definition parallel_callback (penalty : R) (nodes : list (nat * entity)) (pair : nat * nat) (s : par_state) : outcome par_state :=
  do node <- vget nodes (fst pair);
  do face <- vget (ps_faces s) (snd pair);
  let myNode := make_node 0 (-1) (coord_1 (snd node)) 0 0 in
  let myFace := export_geometry (snd face) in
  let r := projection myNode myFace 0 vzero vzero default_tol in
  if pr_in r then
    let force := get_contact_force penalty (pr_gap r) (pr_normal r) in
    let noSkip := negb (existsb (same_pair pair) (ps_list s)) in
    let list_ := if noSkip then pair :: ps_list s else ps_list s in
    do myFace <- set_nodal_contact_forces myFace force (Some (pr_bary r));
    let faces := if noSkip then
        list_set (ps_faces s) (snd pair)
          (fst face, with_status (with_forces (snd face) (vplus (force_1 (snd face)) (force_1 myFace)) (vplus (force_2 (snd face)) (force_2 myFace)) (vplus (force_3 (snd face)) (force_3 myFace))) true)
      else ps_faces s in
    Ok (PS faces list_ (ps_results s ++ [(fst pair, true, vneg force)]))
  else Ok (PS (ps_faces s) (ps_list s) (ps_results s ++ [(fst pair, false, vneg vzero)])).
(** "Update Node Force", 294-309, for one node: its results (the range offset(i) .. offset(i+1)) *)
Definition update_node (results : list (nat * bool * V3)) (i : nat) (node : entity) (force : arr) : entity * arr :=
  fold_left (fun (nf : entity * arr) res =>
    let '(j, has_force, f) := res in
    if Nat.eqb j i && has_force then
      let node := with_forces (with_status (fst nf) true) f (force_2 (fst nf)) (force_3 (fst nf)) in
      (node, scatter node (snd nf))
    else nf) results (node, force).
(** The loop over the nodes of rank r (positions from [i] on), then over its faces, 294-314 *)
Fixpoint update_nodes (results : list (nat * bool * V3)) (r i : nat) (nodes : list (nat * entity)) (force : arr) : arr :=
  match nodes with
  | [] => force
  | (owner, node) :: nodes =>
      update_nodes results r (S i) nodes (if Nat.eqb owner r then snd (update_node results i node force) else force)
  end.
Definition update_faces (r : nat) (faces : list (nat * entity)) (force : arr) : arr :=
  fold_left (fun force f => if Nat.eqb (fst f) r && contact_status_ (snd f) then scatter (snd f) force else force) faces force.
(** ZeroContactForce and ResetContactStatus, nimble_contact_manager.cc 1622-1663 *)
Definition reset_face (f : nat * entity) : nat * entity := (fst f, with_status (with_forces (snd f) vzero vzero vzero) false).
Definition reset_node (f : nat * entity) : nat * entity := (fst f, with_status (with_forces (snd f) vzero (force_2 (snd f)) (force_3 (snd f))) false).
(** ComputeContactForce, parallel_contact_manager.h 61-70, and ComputeParallelContactForce,
    arborx_parallel_contact_manager.cc 253-325, up to GetForces: nodes and faces afterwards, and every
    rank's force vector *)
Definition parallel_contact (penalty : R) (nodes faces : list (nat * entity)) (pairs : list (nat * nat))
    : outcome (list (nat * entity) * list (nat * entity) * (nat -> arr)) :=
  if Rlt_dec 0 penalty then
    let nodes := map reset_node nodes in
    do s <- ofold (fun s pair => parallel_callback penalty nodes pair s) pairs (PS (map reset_face faces) [] []);
    let nodes' := map (fun inode => (fst (snd inode), fst (update_node (ps_results s) (fst inode) (snd (snd inode)) zero_force)))
                      (combine (seq 0 (length nodes)) nodes) in
    Ok (nodes', ps_faces s, fun r => update_faces r (ps_faces s) (update_nodes (ps_results s) r 0 nodes zero_force))
  else Abort.
