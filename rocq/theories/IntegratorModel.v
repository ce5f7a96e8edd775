(** Model of ExplicitTimeIntegrator::Integrate (src/integrators/explicit_time_integrator.cc 61-330),
    of the view operations it uses (src/nimble_view.h 117-222) and of
    ModelData::ComputeExternalForce / UpdateStates (src/nimble_model_data.cc 610-618,
    src/nimble_model_data.h 103-107).  Doubles as reals.  Timers, console output, the contact
    visualisation file and UpdateWithNewVelocity / UpdateWithNewDisplacement (empty in
    ModelDataBase, nimble_model_data_base.h 245, 257) are left out; the off-nominal velocities
    of UQ runs are empty. *)
From Verif Require Import Base Loops BcModel.
From Coq Require Import Reals.
Local Open Scope nat_scope.
Set Implicit Arguments.

(** What the integrator calls: ModelData::ComputeInternalForce (nimble_model_data.cc 620-667) reads
    the old and new element data, the two times and the displacement, and produces new element
    data and the (reduced) force; ContactManager::ComputeContactForce gets step + 1 and the
    displacement held by the model data.  Either call may fail.  nimble_block.cc passes the
    velocity and is_output_step along, but no material of the code base reads them. *)
Record physics (S : Type) := Physics {
  ph_internal : S -> S -> R -> R -> view -> outcome (S * (nat -> nat -> R));
  ph_contact : option (nat -> view -> outcome (nat -> nat -> R)) }.

(** parser values read at explicit_time_integrator.cc 128-136, and the rank *)
Record run_config := Config {
  rc_rank : nat; rc_initial : R; rc_final : R; rc_load_steps : Z; rc_frequency : Z; rc_mass : list R }.

(** one call of DataManager::WriteOutput: time and nodal fields at that moment *)
Record written := Written {
  w_time : R; w_disp : view; w_vel : view; w_acc : view; w_int : view; w_ext : view; w_con : view }.

(** the data the loop works on *)
Record istate (S : Type) := IState {
  i_mgr : manager; i_ref : view; i_kin : kin; i_acc : view; i_int : view; i_ext : view; i_con : view;
  i_old : S; i_new : S; i_time : R; i_out : list written }.

(** Viewify::zero, nimble_view.h 117-122 *)
Definition view_zero (v : view) : view := View (v_nodes v) (v_cols v) (fun _ _ => 0%R).
(** dest += alpha * A: nimble_view.h 166-221 with destCoef = rhsCoef = 1; the number of entries is
    the one of dest *)
Definition view_axpy (dest : view) (alpha : R) (A : view) : outcome view :=
  if (v_nodes dest =? v_nodes A) && (v_cols dest =? v_cols A)
  then Ok (View (v_nodes dest) (v_cols dest) (fun n c => v_at dest n c + (alpha * 1) * v_at A n c)%R)
  else UB.

Section Run.
  Context {S : Type} (ph : physics S) (cfg : run_config).

  (** user_specified_time_step, explicit_time_integrator.cc 136 *)
  Definition user_step : R := ((rc_final cfg - rc_initial cfg) / IZR (rc_load_steps cfg))%R.

  (** is_output_step, explicit_time_integrator.cc 187-190 *)
  Definition is_output (step : nat) : bool :=
    if Z.eqb (rc_frequency cfg) 0 then false
    else Z.eqb (Z.rem (Z.of_nat step) (rc_frequency cfg)) 0 || Z.eqb (Z.of_nat step) (rc_load_steps cfg - 1).

  (** data_manager.WriteOutput(time_current): records what is in the fields *)
  Definition write_output (st : istate S) : istate S :=
    IState (i_mgr st) (i_ref st) (i_kin st) (i_acc st) (i_int st) (i_ext st) (i_con st) (i_old st) (i_new st) (i_time st)
      (i_out st ++ [Written (i_time st) (k_disp (i_kin st)) (k_vel (i_kin st)) (i_acc st) (i_int st) (i_ext st) (i_con st)]).

  (** ModelDataBase::ApplyKinematicConditions, nimble_model_data_base.cc 92-100 *)
  Definition kinematic_conditions (t t0 : R) (st : istate S) : outcome (istate S) :=
    do r <- apply_kinematic (i_mgr st) t t0 (i_ref st) (i_kin st);
    Ok (IState (fst r) (i_ref st) (snd r) (i_acc st) (i_int st) (i_ext st) (i_con st) (i_old st) (i_new st) (i_time st) (i_out st)).
  (** ModelDataBase::ApplyInitialConditions, nimble_model_data_base.cc 82-90 *)
  Definition initial_conditions (st : istate S) : outcome (istate S) :=
    do r <- apply_initial (i_mgr st) (i_ref st) (i_kin st);
    Ok (IState (fst r) (i_ref st) (snd r) (i_acc st) (i_int st) (i_ext st) (i_con st) (i_old st) (i_new st) (i_time st) (i_out st)).

  (** velocity += h * acceleration, explicit_time_integrator.cc 199, 260 *)
  Definition kick (h : R) (st : istate S) : outcome (istate S) :=
    do v <- view_axpy (k_vel (i_kin st)) h (i_acc st);
    Ok (IState (i_mgr st) (i_ref st) (Kin (k_disp (i_kin st)) v (k_off (i_kin st))) (i_acc st) (i_int st) (i_ext st) (i_con st)
          (i_old st) (i_new st) (i_time st) (i_out st)).
  (** displacement += delta_time * velocity, explicit_time_integrator.cc 210 *)
  Definition drift (h : R) (st : istate S) : outcome (istate S) :=
    do d <- view_axpy (k_disp (i_kin st)) h (k_vel (i_kin st));
    Ok (IState (i_mgr st) (i_ref st) (Kin d (k_vel (i_kin st)) (k_off (i_kin st))) (i_acc st) (i_int st) (i_ext st) (i_con st)
          (i_old st) (i_new st) (i_time st) (i_out st)).

  (** explicit_time_integrator.cc 219-239: external force (zeroed), internal force, contact force *)
  Definition forces (step : nat) (time_previous : R) (st : istate S) : outcome (istate S) :=
    do r <- ph_internal ph (i_old st) (i_new st) time_previous (i_time st) (k_disp (i_kin st));
    do con <- match ph_contact ph with
              | Some f => do g <- f (step + 1) (k_disp (i_kin st)); Ok (View (v_nodes (i_con st)) (v_cols (i_con st)) g)
              | None => Ok (i_con st)
              end;
    Ok (IState (i_mgr st) (i_ref st) (i_kin st) (i_acc st) (View (v_nodes (i_int st)) (v_cols (i_int st)) (snd r))
          (view_zero (i_ext st)) con (i_old st) (fst r) (i_time st) (i_out st)).

  (** explicit_time_integrator.cc 243-257 for one node i and component c; 1.0 / lumped_mass(i) is 0 here when the mass is
      0 (the code gets an infinity) *)
  Definition set_acceleration (st : istate S) (i c : nat) (acc : view) : outcome view :=
    do m <- vget (rc_mass cfg) i;
    do fi <- view_get (i_int st) i c;
    do fe <- view_get (i_ext st) i c;
    match ph_contact ph with
    | Some _ => do fc <- view_get (i_con st) i c; view_set acc i c ((1 / m) * (fi + fe + fc))%R
    | None => view_set acc i c ((1 / m) * (fi + fe))%R
    end.
  Definition accelerations (num_nodes : nat) (st : istate S) : outcome (istate S) :=
    do acc <- oloop 0 num_nodes (fun i acc => oloop 0 3 (fun c acc => set_acceleration st i c acc) acc) (i_acc st);
    Ok (IState (i_mgr st) (i_ref st) (i_kin st) acc (i_int st) (i_ext st) (i_con st) (i_old st) (i_new st) (i_time st) (i_out st)).

  (** ModelData::UpdateStates, nimble_model_data.h 103-107 *)
  Definition update_states (st : istate S) : istate S :=
    IState (i_mgr st) (i_ref st) (i_kin st) (i_acc st) (i_int st) (i_ext st) (i_con st) (i_new st) (i_old st) (i_time st) (i_out st).
  Definition set_time (t : R) (st : istate S) : istate S :=
    IState (i_mgr st) (i_ref st) (i_kin st) (i_acc st) (i_int st) (i_ext st) (i_con st) (i_old st) (i_new st) t (i_out st).

  (** the body of the time stepping loop, explicit_time_integrator.cc 177-278 *)
  Definition explicit_step (num_nodes step : nat) (st : istate S) : outcome (istate S) :=
    let time_previous := i_time st in
    let time_current := (i_time st + user_step)%R in
    let delta_time := (time_current - time_previous)%R in
    let half_delta_time := (1 / 2 * delta_time)%R in
    do s1 <- kick half_delta_time (set_time time_current st);
    do s2 <- kinematic_conditions time_current time_previous s1;
    do s3 <- drift delta_time s2;
    do s4 <- kinematic_conditions time_current time_previous s3;
    do s5 <- forces step time_previous s4;
    do s6 <- accelerations num_nodes s5;
    do s7 <- kick half_delta_time s6;
    do s8 <- (if is_output step
              then do s <- kinematic_conditions time_current time_previous s7; Ok (write_output s)
              else Ok s7);
    Ok (update_states s8).

  (** explicit_time_integrator.cc 138-150: the initial conditions *)
  Definition explicit_start (st : istate S) : outcome (istate S) :=
    if (Nat.eqb (rc_rank cfg) 0) && (if Rlt_dec (rc_final cfg) (rc_initial cfg) then true else false) then Throw
    else
      do s1 <- initial_conditions (set_time (rc_initial cfg) st);
      do s2 <- kinematic_conditions 0 0 s1;
      Ok (write_output s2).

  (** Integrate, from the views obtained at explicit_time_integrator.cc 108-134 to the end *)
  Definition integrate (num_nodes : nat) (st : istate S) : outcome (istate S) :=
    do s <- explicit_start st;
    oloop 0 (Z.to_nat (rc_load_steps cfg)) (explicit_step num_nodes) s.
End Run.
