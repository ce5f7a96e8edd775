(** Model of QuasistaticTimeIntegrator::Integrate (src/integrators/quasistatic_time_integrator.cc
    121-421).  Serial build, doubles as reals.  Console output is left out.  The internal force
    (ModelData::ComputeInternalForce) and the element tangents are arbitrary functions of what the
    code hands to them, as in IntegratorModel.v.
    The flag is_output_step handed to ComputeInternalForce (it only asks for derived element
    data) is left out. *)
From Verif Require Import Base Loops LinModel LinSpec BcModel.
From Coq Require Import Reals.
Local Open Scope nat_scope.
Set Implicit Arguments.

(** qp_internal: old element data, new element data, time_previous, time_current, displacement
    (nimble_model_data.cc 620-667) -> new element data and force.
    qp_tangent: the contributions (row, column, value) that Block::ComputeTangentStiffnessMatrix
    (nimble_block.cc) adds to the matrix, all blocks and elements in order. *)
Record qphysics (S : Type) := QPhysics {
  qp_internal : S -> S -> R -> R -> view -> outcome (S * (nat -> nat -> R));
  qp_tangent : view -> outcome (list (nat * nat * R)) }.

(** values of the parser and of the mesh, 128-157 and 203-210, 261-262 *)
Record qconfig := QConfig {
  qc_ranks : nat; qc_rank : nat; qc_uq : bool; qc_initial : R; qc_final : R; qc_load_steps : Z; qc_frequency : Z;
  qc_rel_tol : R; qc_max_iter : Z; qc_gids : list nat; qc_elems : list (list nat) }.

(** one call of DataManager::WriteOutput: the time, nodal fields and element data of that moment *)
Record qwritten (S : Type) := QWritten { qw_time : R; qw_disp : view; qw_vel : view; qw_int : view; qw_elem : S }.

Record qstate (S : Type) := QState {
  q_mgr : manager; q_ref : view; q_kin : kin; q_int : view; q_trial : view; q_trial_int : view;
  q_residual : list R; q_trial_residual : list R; q_matrix : rcrs;
  q_old : S; q_new : S; q_time : R; q_out : list (qwritten S) }.

(** how an attempt ends: with a value; with status 1; or with a division by zero, after which the
    program works with infinities or NaN, which the model does not follow *)
Inductive attempt (A : Type) := Done (a : A) | Failed | Degenerate.
Arguments Done {A} a. Arguments Failed {A}. Arguments Degenerate {A}.

(** defaults of CG_SolveSystem, nimble_linear_solver.h 273-274 *)
Definition cg_default_tol : R := (1 / 10 ^ 16)%R.
Definition cg_default_max : nat := 1000.

(** map_from_linear_system, 148-155 *)
Definition linear_system_map (gids : list nat) : list (nat * list nat) :=
  fold_left (fun m ng => assoc_set Nat.eqb (snd ng) [fst ng] m) (combine (seq 0 (length gids)) gids) [].

(** tangent_stiffness(row, col) += value *)
Definition sum_into (a : rcrs) (rcv : nat * nat * R) : outcome rcrs :=
  let '(r, c, v) := rcv in
  do x <- crs_get a r c; crs_set a r c (x + v)%R.

Section Run.
  Context {S : Type} (ph : qphysics S) (cfg : qconfig).
  (** 156-157; the number of nodes of the linear system is fixed before the loop *)
  Definition ls_nodes : nat := length (linear_system_map (qc_gids cfg)).
  Definition ls_unknowns (st : qstate S) : nat := ls_nodes * mg_dim (q_mgr st).

  (** 210 *)
  Definition q_user_step : R := ((qc_final cfg - qc_initial cfg) / IZR (qc_load_steps cfg))%R.

  (** 238-241 *)
  Definition q_is_output (step : nat) : bool :=
    if Z.eqb (qc_frequency cfg) 0 then false
    else Z.eqb (Z.rem (Z.of_nat step) (qc_frequency cfg)) 0 || Z.eqb (Z.of_nat step) (qc_load_steps cfg - 1).

  Definition q_write (st : qstate S) : qstate S :=
    QState (q_mgr st) (q_ref st) (q_kin st) (q_int st) (q_trial st) (q_trial_int st) (q_residual st) (q_trial_residual st)
      (q_matrix st) (q_old st) (q_new st) (q_time st)
      (q_out st ++ [QWritten (q_time st) (k_disp (q_kin st)) (k_vel (q_kin st)) (q_int st) (q_new st)]).

  (** ModelDataBase::ApplyKinematicConditions, nimble_model_data_base.cc 92-100 *)
  Definition q_kinematic (t t0 : R) (st : qstate S) : outcome (qstate S) :=
    do r <- apply_kinematic (q_mgr st) t t0 (q_ref st) (q_kin st);
    Ok (QState (fst r) (q_ref st) (snd r) (q_int st) (q_trial st) (q_trial_int st) (q_residual st) (q_trial_residual st)
          (q_matrix st) (q_old st) (q_new st) (q_time st) (q_out st)).

  (** ComputeQuasistaticResidual, 57-111, on a displacement, the force view and the residual
      vector to be overwritten: (new element data, force, residual vector, measure) *)
  Record evaluated := Evaluated { ev_elem : S; ev_force : view; ev_vector : list R; ev_measure : R }.
  Definition evaluate (st : qstate S) (tprev t : R) (disp force : view) (vector : list R) : outcome evaluated :=
    do r <- qp_internal ph (q_old st) (q_new st) tprev t disp;
    let f := View (v_nodes force) (v_cols force) (snd r) in
    do m <- quasistatic_residual (q_mgr st) (qc_gids cfg) f vector;
    Ok (Evaluated (fst r) f (fst m) (snd m)).

  (** the evaluation of the current displacement, 247-258, 369-380 *)
  Definition evaluate_current (st : qstate S) (tprev t : R) : outcome (qstate S * R) :=
    do e <- evaluate st tprev t (k_disp (q_kin st)) (q_int st) (q_residual st);
    Ok (QState (q_mgr st) (q_ref st) (q_kin st) (ev_force e) (q_trial st) (q_trial_int st) (ev_vector e) (q_trial_residual st)
          (q_matrix st) (q_old st) (ev_elem e) (q_time st) (q_out st), ev_measure e).
  (** the evaluation of the trial displacement, 332-343 *)
  Definition evaluate_trial (st : qstate S) (tprev t : R) : outcome (qstate S * R) :=
    do e <- evaluate st tprev t (q_trial st) (q_trial_int st) (q_trial_residual st);
    Ok (QState (q_mgr st) (q_ref st) (q_kin st) (q_int st) (q_trial st) (ev_force e) (q_residual st) (ev_vector e)
          (q_matrix st) (q_old st) (ev_elem e) (q_time st) (q_out st), ev_measure e).

  (** 271-298: the tangent matrix with the constraints and the right-hand side *)
  Definition assemble_tangent (st : qstate S) : outcome (qstate S) :=
    do contributions <- qp_tangent ph (k_disp (q_kin st));
    do a1 <- ofold sum_into contributions (set_all_values (q_matrix st) 0%R);
    do total <- oloop 0 (ls_unknowns st) (fun i s => do x <- crs_get a1 i i; Ok (s + Rabs x)%R) 0%R;
    let diagonal_entry := (total / INR (ls_unknowns st))%R in
    do a2 <- modify_tangent op_call (q_mgr st) (qc_gids cfg) diagonal_entry a1;
    do rhs <- modify_rhs (q_mgr st) (qc_gids cfg) (q_residual st);
    Ok (QState (q_mgr st) (q_ref st) (q_kin st) (q_int st) (q_trial st) (q_trial_int st) rhs (q_trial_residual st)
          a2 (q_old st) (q_new st) (q_time st) (q_out st)).

  (** 300-309: the solver starts from zero; its scratch space (overwritten before use) is taken
      to be zero *)
  Definition linear_solve (st : qstate S) : outcome (attempt (list R)) :=
    do res <- cg_solve (q_matrix st) (fun i => nth i (q_residual st) 0%R) (repeat 0%R (num_rows (q_matrix st)))
                (fun _ => 0%R) (fun _ => 0%R) cg_default_tol cg_default_max;
    match res with
    | None => Ok Degenerate
    | Some res => Ok (if cg_success res then Done (map (cg_solution res) (seq 0 (ls_unknowns st))) else Failed)
    end.

  (** 316-331 and 353-368: the loop over linear system nodes, their mesh nodes and components;
      map_from_linear_system[n] is empty for an n that is not a key *)
  Definition over_unknowns (st : qstate S) (f : nat -> nat -> nat -> view -> outcome view) (v : view) : outcome view :=
    oloop 0 ls_nodes (fun n v =>
      ofold (fun v node => oloop 0 (mg_dim (q_mgr st)) (fun dof v => f (n * mg_dim (q_mgr st) + dof) node dof v) v)
        (match assoc Nat.eqb n (linear_system_map (qc_gids cfg)) with Some l => l | None => [] end) v) v.
  (** trial_displacement(node_id, dof) = displacement(node_id, dof) - linear_solver_solution[ls_index] *)
  Definition set_trial (st : qstate S) (s : list R) : outcome (qstate S) :=
    do tr <- over_unknowns st (fun i node dof v =>
      do d <- view_get (k_disp (q_kin st)) node dof; do x <- vget s i; view_set v node dof (d - x)%R) (q_trial st);
    Ok (QState (q_mgr st) (q_ref st) (q_kin st) (q_int st) tr (q_trial_int st) (q_residual st) (q_trial_residual st)
          (q_matrix st) (q_old st) (q_new st) (q_time st) (q_out st)).
  (** displacement(node_id, dof) -= alpha * linear_solver_solution[ls_index] *)
  Definition move (st : qstate S) (alpha : R) (s : list R) : outcome (qstate S) :=
    do d <- over_unknowns st (fun i node dof v =>
      do d <- view_get v node dof; do x <- vget s i; view_set v node dof (d - alpha * x)%R) (k_disp (q_kin st));
    Ok (QState (q_mgr st) (q_ref st) (Kin d (k_vel (q_kin st)) (k_off (q_kin st))) (q_int st) (q_trial st) (q_trial_int st)
          (q_residual st) (q_trial_residual st) (q_matrix st) (q_old st) (q_new st) (q_time st) (q_out st)).
  (** 348-350 *)
  Definition list_inner (u v : list R) : R := inner (length u) (fun i => nth i u 0%R) (fun i => nth i v 0%R).
  Definition secant (st : qstate S) (s : list R) : option R :=
    let sr := list_inner s (q_residual st) in
    let s_trial_r := list_inner s (q_trial_residual st) in
    if Req_EM_T (s_trial_r - sr) 0 then None else Some (-1 * sr / (s_trial_r - sr))%R.
  (** 383-388: the element data are not copied back *)
  Definition take_trial (st : qstate S) : qstate S :=
    let d := k_disp (q_kin st) in
    QState (q_mgr st) (q_ref st) (Kin (View (v_nodes d) (v_cols d) (v_at (q_trial st))) (k_vel (q_kin st)) (k_off (q_kin st)))
      (View (v_nodes (q_int st)) (v_cols (q_int st)) (v_at (q_trial_int st))) (q_trial st) (q_trial_int st)
      (q_trial_residual st) (q_trial_residual st) (q_matrix st) (q_old st) (q_new st) (q_time st) (q_out st).

  (** one pass of the while loop, 270-397 *)
  Definition newton_step (tprev t : R) (st : qstate S) : outcome (attempt (qstate S * R)) :=
    do s1 <- assemble_tangent st;
    do sol <- linear_solve s1;
    match sol with
    | Degenerate => Ok Degenerate
    | Failed => Ok Failed
    | Done sol =>
        do s2 <- set_trial s1 sol;
        do e3 <- evaluate_trial s2 tprev t;
        match secant (fst e3) sol with
        | None => Ok Degenerate
        | Some alpha =>
            do s4 <- move (fst e3) alpha sol;
            do e5 <- evaluate_current s4 tprev t;
            if Rlt_dec (snd e3) (snd e5) then Ok (Done (take_trial (fst e5), snd e3)) else Ok (Done e5)
        end
    end.

  (** the while loop, 270-397; [fuel] is what is left of max_nonlinear_iterations.  The number
      is the iteration count when the loop ends. *)
  Fixpoint newton_loop (fuel : nat) (iteration : nat) (tol : R) (tprev t : R) (st : qstate S) (residual : R)
    : outcome (attempt (qstate S * R * nat)) :=
    match fuel with
    | 0 => Ok (Done (st, residual, iteration))
    | Datatypes.S fuel =>
        if Rlt_dec tol residual then
          do r <- newton_step tprev t st;
          match r with
          | Done (st', residual') => newton_loop fuel (1 + iteration) tol tprev t st' residual'
          | Failed => Ok Failed
          | Degenerate => Ok Degenerate
          end
        else Ok (Done (st, residual, iteration))
    end.

  (** ModelData::UpdateStates, nimble_model_data.h 103-107 *)
  Definition q_update_states (st : qstate S) : qstate S :=
    QState (q_mgr st) (q_ref st) (q_kin st) (q_int st) (q_trial st) (q_trial_int st) (q_residual st) (q_trial_residual st)
      (q_matrix st) (q_new st) (q_old st) (q_time st) (q_out st).
  Definition q_set_time (t : R) (st : qstate S) : qstate S :=
    QState (q_mgr st) (q_ref st) (q_kin st) (q_int st) (q_trial st) (q_trial_int st) (q_residual st) (q_trial_residual st)
      (q_matrix st) (q_old st) (q_new st) t (q_out st).

  (** one load step, 233-416 *)
  Definition load_step (step : nat) (st : qstate S) : outcome (attempt (qstate S)) :=
    let time_previous := q_time st in
    let time_current := (q_time st + q_user_step)%R in
    do s1 <- q_kinematic time_current time_previous (q_set_time time_current st);
    do e <- evaluate_current s1 time_previous time_current;
    do r <- newton_loop (Z.to_nat (qc_max_iter cfg)) 0 (qc_rel_tol cfg * snd e) time_previous time_current (fst e) (snd e);
    match r with
    | Failed => Ok Failed
    | Degenerate => Ok Degenerate
    | Done (s3, _, iteration) =>
        if Z.eqb (Z.of_nat iteration) (qc_max_iter cfg) then Ok Failed
        else Ok (Done (q_update_states (if q_is_output step then q_write s3 else s3)))
    end.
  Fixpoint load_steps (steps : list nat) (st : qstate S) : outcome (attempt (qstate S)) :=
    match steps with
    | [] => Ok (Done st)
    | k :: steps => do r <- load_step k st; match r with Done st' => load_steps steps st' | Failed => Ok Failed | Degenerate => Ok Degenerate end
    end.

  (** Integrate, 121-421: the final state with status 0, or status 1.  The vectors
      are created with zeros (178-180), the matrix with its pattern (184-188). *)
  Definition q_start (st : qstate S) : outcome (qstate S) :=
    if 1 <? qc_ranks cfg then Throw
    else
      do ij <- tangent_structure (mg_dim (q_mgr st)) (qc_gids cfg) (qc_elems cfg);
      do a <- allocate_nonzeros 0%R crs_new (fst ij) (snd ij);
      if (Nat.eqb (qc_rank cfg) 0) && (if Rlt_dec (qc_final cfg) (qc_initial cfg) then true else false) then Throw
      else if qc_uq cfg then Abort
      else
        let s0 := QState (q_mgr st) (q_ref st) (q_kin st) (q_int st) (q_trial st) (q_trial_int st)
                    (repeat 0%R (ls_unknowns st)) (repeat 0%R (ls_unknowns st)) a (q_old st) (q_new st) (qc_initial cfg) (q_out st) in
        do s1 <- q_kinematic (qc_initial cfg) (qc_initial cfg) s0;
        Ok (q_write s1).
  Definition q_integrate (st : qstate S) : outcome (attempt (qstate S)) :=
    do s <- q_start st;
    load_steps (seq 0 (Z.to_nat (qc_load_steps cfg))) s.
End Run.
