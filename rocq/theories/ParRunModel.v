(** Model of an explicit run over all ranks: ExplicitTimeIntegrator::Integrate
    (src/integrators/explicit_time_integrator.cc 61-330) executed by every rank on its part of the mesh.
    Between two reductions the ranks do not exchange anything, so they are written one after the other;
    the schedule within a reduction is arbitrary.  No contact; materials whose stress depends on the
    deformation gradients only (the element data carry nothing else, so [unit] here). *)
From Coq Require Import Reals.
From Verif Require Import Base Loops TensorModel BcModel IntegratorModel MpiModel ParModel.
Set Implicit Arguments.
Local Open Scope nat_scope.

(** the parser values read at explicit_time_integrator.cc 128-136; the same on all ranks *)
Record deck := Deck { dk_initial : R; dk_final : R; dk_load_steps : Z; dk_frequency : Z }.
(** a rank: its mesh and materials, what it got from the parser and its mass, the data of its loop *)
Record proc := Proc { p_rank : hrank; p_cfg : run_config; p_state : istate unit }.

(** explicit_time_integrator.cc 177-217: a step up to the forces *)
Definition step_head (cfg : run_config) (st : istate unit) : outcome (istate unit) :=
  let time_previous := i_time st in
  let time_current := (i_time st + user_step cfg)%R in
  let delta_time := (time_current - time_previous)%R in
  let half_delta_time := (1 / 2 * delta_time)%R in
  do s1 <- kick half_delta_time (set_time time_current st);
  do s2 <- kinematic_conditions time_current time_previous s1;
  do s3 <- drift delta_time s2;
  kinematic_conditions time_current time_previous s3.
(** the internal force a rank holds after the reduction *)
Definition received (f : nat -> nat -> R) : physics unit := Physics (fun _ _ _ _ _ => Ok (tt, f)) None.
(** explicit_time_integrator.cc 219-278: the rest of the step that began in [st] and is now in [s4] *)
Definition step_tail (cfg : run_config) (num_nodes step : nat) (st : istate unit) (f : nat -> nat -> R) (s4 : istate unit) : outcome (istate unit) :=
  let time_previous := i_time st in
  let time_current := (i_time st + user_step cfg)%R in
  let delta_time := (time_current - time_previous)%R in
  let half_delta_time := (1 / 2 * delta_time)%R in
  do s5 <- forces (received f) step time_previous s4;
  do s6 <- accelerations (received f) cfg num_nodes s5;
  do s7 <- kick half_delta_time s6;
  do s8 <- (if is_output cfg step
            then do s <- kinematic_conditions time_current time_previous s7; Ok (write_output s)
            else Ok s7);
  Ok (update_states s8).

(** the displacement field of the integrator is the one ComputeInternalForce reads, packed by nodes *)
Definition with_disp (r : hrank) (d : view) : hrank :=
  HRank (hr_ids r) (hr_blocks r) (hr_ref r) (fun k => v_at d (k / 3) (k mod 3)) (hr_junk r).
Definition is_done (s : rstate R) : bool := match rs_pc s with PDone => true | _ => false end.

(** One time step of all ranks; None: with this schedule some rank is still in the reduction *)
Definition all_step (step : nat) (sched : list (nat * bool)) (ps : list proc) : outcome (option (list proc)) :=
  do heads <- omapM (fun p => step_head (p_cfg p) (p_state p)) ps;
  do g <- all_internal_force (map (fun q => with_disp (p_rank (fst q)) (k_disp (i_kin (snd q)))) (combine ps heads)) sched;
  if forallb is_done g then
    do ps' <- omapM (fun q : proc * (istate unit * rstate R) =>
        let '(p, (s4, m)) := q in
        do s <- step_tail (p_cfg p) (length (hr_ids (p_rank p))) step (p_state p) (fun n c => rs_mem m (n * 3 + c)) s4;
        Ok (Proc (p_rank p) (p_cfg p) s)) (combine ps (combine heads g));
    Ok (Some ps')
  else Ok None.

(** the loop over the time steps *)
Definition all_loop (n : nat) (scheds : nat -> list (nat * bool)) (ps : list proc) : outcome (option (list proc)) :=
  oloop 0 n (fun k o => match o with Some ps => all_step k (scheds k) ps | None => Ok None end) (Some ps).

(** Integrate on all ranks: ComputeLumpedMass (124) under the schedule [msched], the initial conditions, the loop.
    [starts]: the fields of the ranks when Integrate is called *)
Definition all_integrate (dk : deck) (ranks : list hrank) (starts : list (istate unit))
    (msched : list (nat * bool)) (scheds : nat -> list (nat * bool)) : outcome (option (list proc)) :=
  do g <- all_lumped_mass ranks msched;
  if forallb is_done g then
    do ps <- omapM (fun q : nat * (hrank * (istate unit * rstate R)) =>
        let '(r, (rk, (st, m))) := q in
        let cfg := Config r (dk_initial dk) (dk_final dk) (dk_load_steps dk) (dk_frequency dk) (map (rs_mem m) (seq 0 (length (hr_ids rk)))) in
        do s <- explicit_start cfg st;
        Ok (Proc rk cfg s)) (combine (seq 0 (length ranks)) (combine ranks (combine starts g)));
    all_loop (Z.to_nat (dk_load_steps dk)) scheds ps
  else Ok None.
