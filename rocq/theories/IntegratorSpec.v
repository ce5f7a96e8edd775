(** Vocabulary of the time integration statements. *)
From Verif Require Import Base Loops BcModel BcSpec IntegratorModel.
From Coq Require Import Reals.
Local Open Scope nat_scope.
Set Implicit Arguments.

(** the fields handed to the integrator: N nodes, three components, nothing written yet, no UQ *)
Record start_ok {S} (N : nat) (cfg : run_config) (st : istate S) : Prop := {
  so_bc : bc_input_ok (i_mgr st) N;
  so_dim : mg_dim (i_mgr st) = 3;
  so_scheme : mg_scheme (i_mgr st) = EXPLICIT;
  so_ref : shaped N 3 (i_ref st);
  so_disp : shaped N 3 (k_disp (i_kin st));
  so_vel : shaped N 3 (k_vel (i_kin st));
  so_off : k_off (i_kin st) = [];
  so_acc : shaped N 3 (i_acc st);
  so_acc0 : forall n c, v_at (i_acc st) n c = 0%R;
  so_int : shaped N 3 (i_int st);
  so_ext : shaped N 3 (i_ext st);
  so_con : shaped N 3 (i_con st);
  so_mass : length (rc_mass cfg) = N;
  so_out : i_out st = [] }.

(** the number of time steps, their length and the time after k of them *)
Definition steps (cfg : run_config) : nat := Z.to_nat (rc_load_steps cfg).
Definition step_length (cfg : run_config) : R := ((rc_final cfg - rc_initial cfg) / IZR (rc_load_steps cfg))%R.
Definition time_after (cfg : run_config) (k : nat) : R := (rc_initial cfg + INR k * step_length cfg)%R.

(** the user asked for output after step k (counting from 0): every frequency-th step and the
    last one, unless the frequency is 0 *)
Definition wanted (cfg : run_config) (k : nat) : bool :=
  negb (Z.eqb (rc_frequency cfg) 0) &&
  (Z.eqb (Z.of_nat k mod rc_frequency cfg) 0 || (k + 1 =? steps cfg)).

(** every step is written *)
Definition writes_all (cfg : run_config) : Prop := rc_frequency cfg = 1%Z.

(** no kinematic boundary condition names component c of node n *)
Definition free (mg : manager) (n c : nat) : Prop :=
  forall b, In b (mg_bcs mg) -> (bc_kind b = PRESCRIBED_VELOCITY \/ bc_kind b = PRESCRIBED_DISPLACEMENT) ->
    covers mg b n c = false.

(** the last kinematic boundary condition naming component c of node n is b *)
Definition last_driver (mg : manager) (n c : nat) (b : bc) : Prop :=
  exists l1 l2, mg_bcs mg = l1 ++ b :: l2 /\ covers mg b n c = true /\
    forall b', In b' l2 -> (bc_kind b' = PRESCRIBED_VELOCITY \/ bc_kind b' = PRESCRIBED_DISPLACEMENT) -> covers mg b' n c = false.

(** total nodal force of a record (the contact force counts only if contact is enabled) *)
Definition total_force {S} (ph : physics S) (w : written) (n c : nat) : R :=
  (v_at (w_int w) n c + v_at (w_ext w) n c + match ph_contact ph with Some _ => v_at (w_con w) n c | None => 0 end)%R.
Definition mass_of (cfg : run_config) (n : nat) : R := nth n (rc_mass cfg) 0%R.
(** sum over the nodes and components of a field *)
Definition nodal_sum (N : nat) (f : nat -> nat -> R) : R := Rsum N (fun n => Rsum 3 (f n)).

(** the same run with output after every step *)
Definition every_step (cfg : run_config) : run_config :=
  Config (rc_rank cfg) (rc_initial cfg) (rc_final cfg) (rc_load_steps cfg) 1 (rc_mass cfg).

(** linear momentum, centre of mass times mass, and the (i, j) component of angular momentum *)
Definition momentum (cfg : run_config) (N : nat) (w : written) (c : nat) : R :=
  Rsum N (fun n => mass_of cfg n * v_at (w_vel w) n c)%R.
Definition mass_centre (cfg : run_config) (N : nat) (w : written) (c : nat) : R :=
  Rsum N (fun n => mass_of cfg n * v_at (w_disp w) n c)%R.
Definition moment_of (N : nat) (ref : view) (w : written) (f : nat -> nat -> R) (i j : nat) : R :=
  Rsum N (fun n => (v_at ref n i + v_at (w_disp w) n i) * f n j - (v_at ref n j + v_at (w_disp w) n j) * f n i)%R.
Definition angular_momentum (cfg : run_config) (N : nat) (ref : view) (w : written) (i j : nat) : R :=
  moment_of N ref w (fun n c => mass_of cfg n * v_at (w_vel w) n c)%R i j.

(** a linear force law: stiffness times displacement *)
Definition stiffness_times (N : nat) (K : nat -> nat -> nat -> nat -> R) (d : nat -> nat -> R) (n c : nat) : R :=
  nodal_sum N (fun n' c' => K n c n' c' * d n' c')%R.
Definition quadratic (N : nat) (K : nat -> nat -> nat -> nat -> R) (a b : nat -> nat -> R) : R :=
  nodal_sum N (fun n c => a n c * stiffness_times N K b n c)%R.
Definition mass_form (cfg : run_config) (N : nat) (a : nat -> nat -> R) : R :=
  nodal_sum N (fun n c => mass_of cfg n * (a n c * a n c))%R.
(** the velocity over one step, from two consecutive records *)
Definition step_velocity (cfg : run_config) (w w' : written) (n c : nat) : R :=
  ((v_at (w_disp w') n c - v_at (w_disp w) n c) / step_length cfg)%R.
(** twice the discrete energy of two consecutive records *)
Definition energy2 (cfg : run_config) (N : nat) K (w w' : written) : R :=
  (mass_form cfg N (step_velocity cfg w w') + quadratic N K (v_at (w_disp w')) (v_at (w_disp w)))%R.
