(** Model of src/nimble_boundary_condition_manager.{h,cc} and of ComputeQuasistaticResidual
    (src/integrators/quasistatic_time_integrator.cc 57-111).  Doubles as reals; the value of a
    boundary condition expression is an arbitrary function of (x, y, z, t) (its parsing is
    modelled in ExprModel.v). *)
From Verif Require Import Base Loops LinModel LinSpec.
From Coq Require Import Reals.
Local Open Scope nat_scope.
Set Implicit Arguments.

(** nimble_boundary_condition.h 62-69 (UNDEFINED never survives Initialize) *)
Inductive bc_type := INITIAL_VELOCITY | PRESCRIBED_VELOCITY | PRESCRIBED_DISPLACEMENT | PRESCRIBED_TRACTION.
(** has_expression_ / magnitude_ / expression_ *)
Inductive bc_value := Magnitude (m : R) | Expression (f : R -> R -> R -> R -> R).
(** nimble_boundary_condition.h 98-108; ids are -1 when unset *)
Record bc := BC { bc_kind : bc_type; bc_node_set : Z; bc_side_set : Z; bc_coord : nat; bc_val : bc_value }.

(** nimble_boundary_condition_manager.h 62-67 *)
Inductive scheme := EXPLICIT | QUASISTATIC | UNDEFINED_SCHEME.
Record manager := Mgr {
  mg_node_sets : list (Z * list nat); mg_bcs : list bc; mg_dim : nat; mg_scheme : scheme }.

(** A two-dimensional view (nimble_view.h) of v_nodes x v_cols doubles; access outside is UB. *)
Record view := View { v_nodes : nat; v_cols : nat; v_at : nat -> nat -> R }.
Definition view_get (v : view) (n c : nat) : outcome R :=
  if (n <? v_nodes v) && (c <? v_cols v) then Ok (v_at v n c) else UB.
Definition view_set (v : view) (n c : nat) (x : R) : outcome view :=
  if (n <? v_nodes v) && (c <? v_cols v) then Ok (View (v_nodes v) (v_cols v) (upd2 (v_at v) n c x)) else UB.

(** std::map::operator[]: inserts an empty vector for a missing key *)
Definition map_index (k : Z) (m : list (Z * list nat)) : list nat * list (Z * list nat) :=
  match assoc Z.eqb k m with
  | Some l => (l, m)
  | None => ([], assoc_set Z.eqb k [] m)
  end.

(** the value at node n: magnitude_, or expression_.eval() after setting x, y, z, t
    (manager.h 115-121, 172-176, 191-195) *)
Definition bc_eval (dim : nat) (ref : view) (t : R) (n : nat) (v : bc_value) : outcome R :=
  match v with
  | Magnitude m => Ok m
  | Expression f =>
      do x <- view_get ref n 0;
      do y <- view_get ref n 1;
      do z <- (if dim =? 3 then view_get ref n 2 else Ok 0%R);
      Ok (f x y z t)
  end.

(** offnom_velocities[nuq](n, coordinate) = value for all nuq *)
Definition set_all_views (vs : list view) (n c : nat) (x : R) : outcome (list view) :=
  omapM (fun v => view_set v n c x) vs.

(** The views the calls below work on: displacement, velocity, off-nominal velocities *)
Record kin := Kin { k_disp : view; k_vel : view; k_off : list view }.
Definition with_sets (mg : manager) (sets : list (Z * list nat)) : manager :=
  Mgr sets (mg_bcs mg) (mg_dim mg) (mg_scheme mg).

(** ApplyInitialConditions, manager.h 95-126 (the displacement is not an argument of the call;
    it is carried along untouched here) *)
Definition init_velocity (mg : manager) (ref : view) (b : bc) (s : kin) (n : nat) : outcome kin :=
  do x <- bc_eval (mg_dim mg) ref 0%R n (bc_val b);
  do vel <- view_set (k_vel s) n (bc_coord b) x;
  do off <- set_all_views (k_off s) n (bc_coord b) x;
  Ok (Kin (k_disp s) vel off).
Definition initial_one (ref : view) (st : manager * kin) (b : bc) : outcome (manager * kin) :=
  let '(mg, s) := st in
  match bc_kind b with
  | INITIAL_VELOCITY =>
      let '(nodes, sets) := map_index (bc_node_set b) (mg_node_sets mg) in
      do s' <- ofold (init_velocity mg ref b) nodes s;
      Ok (with_sets mg sets, s')
  | _ => Ok st
  end.
Definition apply_initial (mg : manager) (ref : view) (s : kin) : outcome (manager * kin) :=
  ofold (initial_one ref) (mg_bcs mg) (mg, s).

Definition is_quasistatic (s : scheme) : bool := match s with QUASISTATIC => true | _ => false end.

(** ApplyKinematicBC, manager.h 138-204; the node set is looked up before the type is known *)
Definition kin_velocity (mg : manager) (dt t : R) (ref : view) (b : bc) (s : kin) (n : nat) : outcome kin :=
  do x <- bc_eval (mg_dim mg) ref t n (bc_val b);
  do vel <- view_set (k_vel s) n (bc_coord b) x;
  do off <- set_all_views (k_off s) n (bc_coord b) x;
  if is_quasistatic (mg_scheme mg) then
    do d <- view_get (k_disp s) n (bc_coord b);
    do disp <- view_set (k_disp s) n (bc_coord b) (d + x * dt)%R;
    Ok (Kin disp vel off)
  else Ok (Kin (k_disp s) vel off).
Definition kin_displacement (mg : manager) (dt t : R) (ref : view) (b : bc) (s : kin) (n : nat) : outcome kin :=
  do x <- bc_eval (mg_dim mg) ref t n (bc_val b);
  do d <- view_get (k_disp s) n (bc_coord b);
  do vel <- view_set (k_vel s) n (bc_coord b) ((x - d) / dt)%R;
  if is_quasistatic (mg_scheme mg) then
    do disp <- view_set (k_disp s) n (bc_coord b) x;
    Ok (Kin disp vel (k_off s))
  else Ok (Kin (k_disp s) vel (k_off s)).
Definition kinematic_one (dt t : R) (ref : view) (st : manager * kin) (b : bc) : outcome (manager * kin) :=
  let '(mg, s) := st in
  let '(nodes, sets) := map_index (bc_node_set b) (mg_node_sets mg) in
  let mg' := with_sets mg sets in
  match bc_kind b with
  | PRESCRIBED_VELOCITY => do s' <- ofold (kin_velocity mg dt t ref b) nodes s; Ok (mg', s')
  | PRESCRIBED_DISPLACEMENT =>
      if Rlt_dec 0 dt then do s' <- ofold (kin_displacement mg dt t ref b) nodes s; Ok (mg', s')
      else Ok (mg', s)
  | _ => Ok (mg', s)
  end.
Definition apply_kinematic (mg : manager) (time_current time_previous : R) (ref : view) (s : kin)
  : outcome (manager * kin) :=
  ofold (kinematic_one (time_current - time_previous)%R time_current ref) (mg_bcs mg) (mg, s).

Definition constrains (b : bc) : bool :=
  match bc_kind b with PRESCRIBED_DISPLACEMENT | PRESCRIBED_VELOCITY => true | _ => false end.

(** node_sets_.at(id), manager.cc 89, 128 *)
Definition node_set_at (mg : manager) (id : Z) : outcome (list nat) :=
  match assoc Z.eqb id (mg_node_sets mg) with Some l => Ok l | None => Throw end.

(** ModifyTangentStiffnessMatrixForKinematicBC, manager.cc 79-103, for either matrix class:
    [call] performs one SetRowValues / SetColumnValues / entry assignment *)
Section Tangent.
  Context {M : Type} (call : M -> mat_op R -> outcome M).
  Definition constrain_dof (diag : R) (a : M) (index : nat) : outcome M :=
    do a1 <- call a (OSetRow index 0%R);
    do a2 <- call a1 (OSetCol index 0%R);
    call a2 (OWrite index index diag).
  Definition modify_tangent (mg : manager) (gids : list nat) (diag : R) (a : M) : outcome M :=
    ofold (fun a b =>
      do nodes <- node_set_at mg (bc_node_set b);
      if constrains b then
        ofold (fun a n => do g <- vget gids n; constrain_dof diag a (g * mg_dim mg + bc_coord b)) nodes a
      else Ok a) (mg_bcs mg) a.
End Tangent.

(** ModifyRHSForKinematicBC, manager.cc 120-136 *)
Definition modify_rhs (mg : manager) (gids : list nat) (rhs : list R) : outcome (list R) :=
  ofold (fun rhs b =>
    do nodes <- node_set_at mg (bc_node_set b);
    if constrains b then
      ofold (fun rhs n => do g <- vget gids n; vset rhs (g * mg_dim mg + bc_coord b) 0%R) nodes rhs
    else Ok rhs) (mg_bcs mg) rhs.

(** ComputeQuasistaticResidual, quasistatic_time_integrator.cc 57-111 (serial), after the
    internal force has been computed: (residual vector, returned measure). *)
Definition assemble_residual (dim : nat) (ls_ids : list nat) (force : view) (residual : list R) : outcome (list R) :=
  let r0 := map (fun _ => 0%R) residual in
  oloop 0 (v_nodes force) (fun n r =>
    oloop 0 dim (fun dof r =>
      do l <- vget ls_ids n;
      do old <- vget r (l * dim + dof);
      do f <- view_get force n dof;
      vset r (l * dim + dof) (old + (-1) * f)%R) r) r0.
Definition linf (n : nat) (v : nat -> R) : R := floop 0 n (fun i m => Rmax m (Rabs (v i))) 0%R.
(** both norms run over num_nodes entries, lines 98 and 102 *)
Definition residual_measure (num_nodes : nat) (r : list R) : R :=
  let v := fun i => nth i r 0%R in
  (sqrt (inner num_nodes v v) + 20 * linf num_nodes v)%R.
Definition quasistatic_residual (mg : manager) (ls_ids : list nat) (force : view) (residual : list R)
  : outcome (list R * R) :=
  do r <- assemble_residual (mg_dim mg) ls_ids force residual;
  do r' <- modify_rhs mg ls_ids r;
  Ok (r', residual_measure (v_nodes force) r').
