(** A plain sequential program over whole arrays, against which a history of calls on the device
    model is compared, and the calls themselves. *)
From Coq Require Import Reals Sorted Permutation.
From Verif Require Import Base Strings DataModel Loops TensorModel ElementModel BlockModel KokkosModel KokkosSpec.
Set Implicit Arguments.
Local Open Scope nat_scope.
Local Open Scope list_scope.
Local Notation length := List.length.

(** * The calls *)
Inductive kop :=
| KWriteDisp (node c : nat) (x : R)  (* an assignment to an entry of GetVectorNodeData("displacement") *)
| KWriteVel (node c : nat) (x : R)
| KKeepViews                         (* InitializeExodusOutput *)
| KPushDisp                          (* UpdateWithNewDisplacement *)
| KPushVel                           (* UpdateWithNewVelocity *)
| KForce (time_n time_np1 : R)       (* ComputeInternalForce *)
| KUpdate.                           (* UpdateStates *)
(** one call; [sched] orders the accesses of its loops *)
Definition call (reduce : list R -> list R) (sched : scheduler) (d : kdata) (o : kop) : outcome kdata :=
  match o with
  | KWriteDisp i c x => host_write d (f_disp (kd_ids d)) i c x
  | KWriteVel i c x => host_write d (f_vel (kd_ids d)) i c x
  | KKeepViews => keep_views d
  | KPushDisp => update_with_new_displacement d
  | KPushVel => update_with_new_velocity d
  | KForce t0 t1 => compute_internal_force sched true reduce t0 t1 d
  | KUpdate => update_states d
  end.
(** the n-th call uses the n-th schedule *)
Definition calls (reduce : list R -> list R) (scheds : nat -> scheduler) (ops : list kop) (d : kdata) : outcome kdata :=
  ofold (fun d x => call reduce (scheds (fst x)) d (snd x)) (combine (seq 1 (length ops)) ops) d.
(** the set-up of an explicit simulation, then the calls *)
Definition device_run (same keep : bool) (dbl_max : R) (reduce : list R -> list R) (scheds : nat -> scheduler) (out : chars) (dim N : nat) (coords : nat -> nat -> R) (mesh : list mblock) (ops : list kop) : outcome kdata :=
  do d <- initialize same (lit "explicit") dim N coords;
  do d <- initialize_blocks keep (lit "explicit") out mesh d;
  do d <- compute_lumped_mass_data (scheds 0) keep dbl_max reduce d;
  calls reduce scheds ops d.
(** what can be seen of a device object: host fields and the integration-point fields of the blocks *)
Definition host_scalar (d : kdata) (id : option nat) : outcome (list R) := do v <- host_node (kd_tables d) KScalarNode id; vget (kd_heap d) (v_id v).
Definition device_points (d : kdata) (st : step_t) : outcome (list (list R * list R)) :=
  omapM (fun e => do F <- dev_ipt (kd_tables d) KFullIntPt (fst e) (f_def_grad (kd_ids d)) st; do S <- dev_ipt (kd_tables d) KSymIntPt (fst e) (f_stress (kd_ids d)) st;
    do x <- vget (kd_heap d) (v_id F); do y <- vget (kd_heap d) (v_id S); Ok (x, y)) (kd_blocks d).

(** * The plain program *)
(** deformation gradients and stresses of a block, elements in order, with the host functions *)
Definition serial_points (time_n time_np1 : R) (ref disp : list R) (b : mblock) (old : list R * list R) : outcome (list R * list R) :=
  do l <- omapM (fun e =>
    do F <- compute_deformation_gradients (gather (conn_of (mb_conn b)) e (arr_of ref) zeros) (gather (conn_of (mb_conn b)) e (fun k => arr_of ref k + arr_of disp k)%R zeros) zeros;
    do S <- stress_of (mb_mat b) time_n time_np1 (fst old) (snd old) e F;
    Ok (F, S)) (seq 0 (mb_num_elem b));
  Ok (List.concat (map (fun x => map (fst x) (seq 0 72)) l), List.concat (map (fun x => map (snd x) (seq 0 48)) l)).
(** host and device copies of the displacements and velocities, the internal force, and for every
    block the deformation gradients and stresses of the last two steps *)
Record plain := Plain { p_kept : bool; p_hu : list R; p_du : list R; p_hv : list R; p_dv : list R; p_f : list R; p_old : list (list R * list R); p_new : list (list R * list R) }.
(** [ref]: the coordinates on the device; [same]: host and device share their memory *)
Definition plain_step (same : bool) (reduce : list R -> list R) (N : nat) (ref : list R) (mesh : list mblock) (p : plain) (o : kop) : outcome plain :=
  match o with
  | KWriteDisp i c x => if i <? N then let u := list_set (p_hu p) (i * 3 + c) x in Ok (Plain (p_kept p) u (if same then u else p_du p) (p_hv p) (p_dv p) (p_f p) (p_old p) (p_new p)) else UB
  | KWriteVel i c x => if i <? N then let v := list_set (p_hv p) (i * 3 + c) x in Ok (Plain (p_kept p) (p_hu p) (p_du p) v (if same then v else p_dv p) (p_f p) (p_old p) (p_new p)) else UB
  | KKeepViews => Ok (Plain true (p_hu p) (p_du p) (p_hv p) (p_dv p) (p_f p) (p_old p) (p_new p))
  | KPushDisp => Ok (Plain (p_kept p) (p_hu p) (if p_kept p then p_hu p else p_du p) (p_hv p) (p_dv p) (p_f p) (p_old p) (p_new p))
  | KPushVel => Ok (Plain (p_kept p) (p_hu p) (p_du p) (p_hv p) (if p_kept p then p_hv p else p_dv p) (p_f p) (p_old p) (p_new p))
  | KForce t0 t1 =>
      do f <- serial_force t0 t1 ref (p_du p) (combine mesh (p_old p));
      do new <- omapM (fun x => serial_points t0 t1 ref (p_du p) (fst x) (snd x)) (combine mesh (p_old p));
      Ok (Plain (p_kept p) (p_hu p) (p_du p) (p_hv p) (p_dv p) (reduce (map f (seq 0 (N * 3)))) (p_old p) new)
  | KUpdate => Ok (Plain (p_kept p) (p_hu p) (p_du p) (p_hv p) (p_dv p) (p_f p) (p_new p) (p_new p))
  end.
(** the deformation gradients of n undeformed elements: eight unit tensors (xx, yy, zz first) each *)
Definition unit_gradients (n : nat) : list R := List.concat (repeat [1; 1; 1; 0; 0; 0; 0; 0; 0]%R (n * 8)).
Definition undeformed (b : mblock) : list R * list R := (unit_gradients (mb_num_elem b), repeat 0%R (mb_num_elem b * 48)).
Definition plain_start (N : nat) (mesh : list mblock) : plain :=
  let z := repeat 0%R (N * 3) in Plain false z z z z z (map undeformed mesh) (map undeformed mesh).
(** the coordinates as a list: three entries per node, the third zero in a plane *)
Definition nodal_coordinates (dim N : nat) (coords : nat -> nat -> R) : list R := map (fun j => if j mod 3 <? dim then coords (j / 3) (j mod 3) else 0%R) (seq 0 (N * 3)).
(** the coordinates the device sees: the code never copies them when the memories are separate *)
Definition device_coordinates (same : bool) (dim N : nat) (coords : nat -> nat -> R) : list R := if same then nodal_coordinates dim N coords else repeat 0%R (N * 3).
Definition plain_run (same : bool) (reduce : list R -> list R) (dim N : nat) (coords : nat -> nat -> R) (mesh : list mblock) (ops : list kop) : outcome (arr * plain) :=
  do m <- serial_mass (device_coordinates same dim N coords) mesh;
  do p <- ofold (plain_step same reduce N (device_coordinates same dim N coords) mesh) ops (plain_start N mesh);
  Ok (m, p).
(** [d] shows what the plain program computed *)
Record shows (reduce : list R -> list R) (N : nat) (d : kdata) (m : arr) (p : plain) : Prop := {
  sh_disp : host_read d (f_disp (kd_ids d)) = Ok (p_hu p);
  sh_vel : host_read d (f_vel (kd_ids d)) = Ok (p_hv p);
  sh_force : host_read d (f_force (kd_ids d)) = Ok (p_f p);
  sh_mass : host_scalar d (f_mass (kd_ids d)) = Ok (reduce (map m (seq 0 N)));
  sh_old : device_points d STEP_N = Ok (p_old p);
  sh_new : device_points d STEP_NP1 = Ok (p_new p)
}.
(** * Assumptions *)
(** blocks of eight-node elements with distinct ids, connectivities naming nodes of the mesh and
    materials without state variables *)
Definition hex_block (N : nat) (b : mblock) : Prop :=
  mb_npe b = 8 /\ length (mb_conn b) = mb_num_elem b * 8 /\ (forall k, k < mb_num_elem b * 8 -> nth k (mb_conn b) 0 < N).
Record hex_mesh (N : nat) (mesh : list mblock) : Prop := {
  hm_ids : NoDup (map mb_id mesh);
  hm_hex : forall b, In b mesh -> hex_block N b;
  hm_states : forall b, In b mesh -> km_states (mb_mat b) = 0
}.
(** with a Kokkos whose resize keeps an allocation of the right size ([keep]), at most one block of one element *)
Definition work_arrays_apart (keep : bool) (mesh : list mblock) : Prop :=
  keep = false \/ length (filter (fun b => mb_num_elem b =? 1) mesh) <= 1.
(** the mesh in the order of the block ids *)
Definition by_id (ms mesh : list mblock) : Prop := Permutation ms mesh /\ StronglySorted lt (map mb_id ms).
Definition proper (o : kop) : Prop := match o with KWriteDisp _ c _ | KWriteVel _ c _ => c < 3 | _ => True end.
