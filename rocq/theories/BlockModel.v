(** Model of the block-level loops over elements (nimble_block.cc, nimble_block_base.cc).
    Arrays are functions, numbers reals; [junk] stands for the uninitialised local arrays.
    Connectivity entries are taken as natural numbers (they are node indices). *)
From Verif Require Import Base Loops TensorModel ElementModel.
From Coq Require Import Reals.
Set Implicit Arguments.
Local Open Scope nat_scope.

(** The loops loading the coordinates of an element's nodes: nimble_block.cc 131-136, 306-313;
    nimble_block_base.cc 70-75, 112-118.  [value k] is the expression assigned for flat index k. *)
Definition gather (elem_conn : nat -> nat) (elem : nat) (value : nat -> R) (coord : arr) : arr :=
  floop 0 8 (fun node c =>
    let node_id := elem_conn (elem * 8 + node) in
    floop 0 3 (fun i c => upd c (node * 3 + i) (value (3 * node_id + i))) c) coord.

(** Block::ComputeLumpedMassMatrix, nimble_block.cc 110-146 *)
Definition block_lumped_mass (density : R) (reference_coordinates : arr) (num_elem : nat) (elem_conn : nat -> nat) (junk lumped_mass : arr) : outcome arr :=
  oloop 0 num_elem (fun elem lumped_mass =>
    let ref_coord := gather elem_conn elem reference_coordinates junk in
    do mass <- compute_lumped_mass density ref_coord junk;
    Ok (floop 0 8 (fun node l =>
      let node_id := elem_conn (elem * 8 + node) in
      upd l node_id (l node_id + mass node)%R) lumped_mass)) lumped_mass.

(** BlockBase::ComputeCriticalTimeStep, nimble_block_base.cc 51-84 *)
Definition block_critical_time_step (dbl_max bulk_modulus density : R) (reference_coordinates displacement : arr) (num_elem : nat)
    (elem_conn : nat -> nat) (junk : arr) : R :=
  let sound_speed := sqrt (bulk_modulus / density) in
  floop 0 num_elem (fun elem critical_time_step =>
    let node_coord := gather elem_conn elem (fun k => reference_coordinates k + displacement k)%R junk in
    let elem_critical_time_step := (compute_characteristic_length dbl_max node_coord / sound_speed)%R in
    lower elem_critical_time_step critical_time_step) dbl_max.

(** ComputeInternalForceFunctor::operator(), nimble_block.cc 279-384, without the copies to and
    from the element data containers: [get_stress elem F] stands for the material's stress for the
    element's deformation gradients F (and whatever else the material looks at). *)
Definition internal_force_elem (get_stress : nat -> arr -> outcome arr) (reference_coordinates displacement : arr) (elem_conn : nat -> nat) (junk : arr)
    (elem : nat) (internal_force : arr) : outcome arr :=
  let ref_coord := gather elem_conn elem reference_coordinates junk in
  let cur_coord := gather elem_conn elem (fun k => reference_coordinates k + displacement k)%R junk in
  do def_grad_np1 <- compute_deformation_gradients ref_coord cur_coord junk;
  do stress_np1 <- get_stress elem def_grad_np1;
  do force <- compute_nodal_forces cur_coord stress_np1 junk;
  Ok (floop 0 8 (fun node f =>
    let node_id := elem_conn (elem * 8 + node) in
    floop 0 3 (fun i f => upd f (3 * node_id + i) (f (3 * node_id + i)%nat + force (node * 3 + i)%nat)%R) f) internal_force).
(** Block::ComputeInternalForce, nimble_block.cc 388-436: [order] lists the elements in the order
    in which they are processed (0, 1, ... without Kokkos; any order with Kokkos::parallel_for,
    whose atomic additions are taken one element at a time). *)
Definition block_internal_force (get_stress : nat -> arr -> outcome arr) (reference_coordinates displacement : arr) (order : list nat) (elem_conn : nat -> nat)
    (junk internal_force : arr) : outcome arr :=
  ofold (fun f elem => internal_force_elem get_stress reference_coordinates displacement elem_conn junk elem f) order internal_force.

(** BlockBase::ComputeTangentStiffnessMatrix, nimble_block_base.cc 86-142, for a matrix whose
    entries can all be addressed; [material_tangent] is what GetTangent writes. *)
Definition block_tangent (material_tangent : arr) (reference_coordinates displacement : arr) (num_elem : nat) (elem_conn global_node_ids : nat -> nat)
    (junk : arr) (tangent_stiffness : nat -> nat -> R) : outcome (nat -> nat -> R) :=
  oloop 0 num_elem (fun elem K =>
    let cur_coord := gather elem_conn elem (fun k => reference_coordinates k + displacement k)%R junk in
    do element_tangent <- compute_tangent cur_coord material_tangent junk;
    Ok (floop 0 8 (fun row K =>
      let global_row_node := global_node_ids (elem_conn (elem * 8 + row)) in
      floop 0 8 (fun col K =>
        let global_col_node := global_node_ids (elem_conn (elem * 8 + col)) in
        floop 0 3 (fun i K => floop 0 3 (fun j K =>
          let local_row_index := row * 3 + i in
          let local_col_index := col * 3 + j in
          let global_row_index := global_row_node * 3 + i in
          let global_col_index := global_col_node * 3 + j in
          let value := element_tangent (local_row_index * 8 * 3 + local_col_index) in
          upd2 K global_row_index global_col_index (K global_row_index global_col_index + value)%R) K) K) K) K)) tangent_stiffness.
