(** Vocabulary of the quasistatic statements. *)
From Coq Require Import Reals.
From Verif Require Import Base Loops LinModel LinSpec BcModel BcSpec IntegratorModel IntegratorSpec QuasiModel.
Local Open Scope nat_scope.
Set Implicit Arguments.

(** component c of node n is held by a kinematic boundary condition *)
Definition held (mg : manager) (n c : nat) : Prop :=
  exists b, In b (mg_bcs mg) /\ (bc_kind b = PRESCRIBED_DISPLACEMENT \/ bc_kind b = PRESCRIBED_VELOCITY) /\
    covers mg b n c = true.

(** what a serial quasistatic run must be given: N nodes whose ids are a permutation of
    0 .. N-1, elements that use every node and no other number, fields of the right shape *)
Record q_ok {S} (N : nat) (cfg : qconfig) (st : qstate S) : Prop := {
  qo_bc : bc_input_ok (q_mgr st) N;
  qo_scheme : mg_scheme (q_mgr st) = QUASISTATIC;
  qo_pos : 0 < N;
  qo_len : length (qc_gids cfg) = N;
  qo_nodup : NoDup (qc_gids cfg);
  qo_range : Forall (fun g => g < N) (qc_gids cfg);
  qo_elems : Forall (Forall (fun a => a < N)) (qc_elems cfg);
  qo_used : forall n, n < N -> exists e, In e (qc_elems cfg) /\ In n e;
  qo_ref : shaped N (mg_dim (q_mgr st)) (q_ref st);
  qo_disp : shaped N (mg_dim (q_mgr st)) (k_disp (q_kin st));
  qo_vel : shaped N (mg_dim (q_mgr st)) (k_vel (q_kin st));
  qo_off : k_off (q_kin st) = [];
  qo_int : shaped N (mg_dim (q_mgr st)) (q_int st);
  qo_trial : shaped N (mg_dim (q_mgr st)) (q_trial st);
  qo_trial_int : shaped N (mg_dim (q_mgr st)) (q_trial_int st);
  qo_out : q_out st = [];
  qo_serial : qc_ranks cfg <= 1;
  qo_uq : qc_uq cfg = false;
  qo_times : (qc_initial cfg <= qc_final cfg)%R }.

(** the element routines do not fail and the tangents touch only rows and columns of nodes that
    share an element *)
Record physics_ok {S} (N dim : nat) (cfg : qconfig) (ph : qphysics S) : Prop := {
  po_internal : forall old new tprev t d, shaped N dim d -> exists r, qp_internal ph old new tprev t d = Ok r;
  po_tangent : forall d, shaped N dim d -> exists l, qp_tangent ph d = Ok l /\
    Forall (fun rcv => coupled dim (qc_gids cfg) (qc_elems cfg) (fst (fst rcv)) (snd (fst rcv))) l }.

(** the number of load steps, their length and the time after k of them *)
Definition q_steps (cfg : qconfig) : nat := Z.to_nat (qc_load_steps cfg).
Definition q_step_length (cfg : qconfig) : R := ((qc_final cfg - qc_initial cfg) / IZR (qc_load_steps cfg))%R.
Definition q_time_after (cfg : qconfig) (k : nat) : R := (qc_initial cfg + INR k * q_step_length cfg)%R.
(** output is wanted after load step k (counting from 0) *)
Definition q_wanted (cfg : qconfig) (k : nat) : bool :=
  negb (Z.eqb (qc_frequency cfg) 0) &&
  (Z.eqb (Z.of_nat k mod qc_frequency cfg) 0 || (k + 1 =? q_steps cfg)).

(** r is minus the nodal force, ordered by node id, with the held components set to zero *)
Definition out_of_balance (mg : manager) (gids : list nat) (N : nat) (f : nat -> nat -> R) (r : list R) : Prop :=
  length r = N * mg_dim mg /\
  forall n c g, nth_error gids n = Some g -> c < mg_dim mg ->
    (held mg n c -> nth (g * mg_dim mg + c) r 0%R = 0%R) /\
    (~ held mg n c -> nth (g * mg_dim mg + c) r 0%R = (- f n c)%R).

Fixpoint largest (n : nat) (f : nat -> R) : R :=
  match n with 0 => 0%R | Datatypes.S n => Rmax (largest n f) (f n) end.
(** the measure the solver works with; it sees the first N entries only (see C46) *)
Definition measured (N : nat) (r : list R) : R :=
  (sqrt (Rsum N (fun i => nth i r 0 * nth i r 0)) + 20 * largest N (fun i => Rabs (nth i r 0)))%R.

(** b is the only kinematic boundary condition naming component c of node n *)
Definition only_driver (mg : manager) (n c : nat) (b : bc) : Prop :=
  covers mg b n c = true /\ exists l1 l2, mg_bcs mg = l1 ++ b :: l2 /\
    forall b', In b' (l1 ++ l2) -> (bc_kind b' = PRESCRIBED_VELOCITY \/ bc_kind b' = PRESCRIBED_DISPLACEMENT) ->
      covers mg b' n c = false.

(** [start] is d0 with the prescribed motion of the step from tprev to t applied *)
Definition prescribed_motion (mg : manager) (ref : view) (N : nat) (tprev t : R) (d0 start : view) : Prop :=
  forall n c, n < N -> c < mg_dim mg ->
    (~ held mg n c -> v_at start n c = v_at d0 n c) /\
    (forall b, last_driver mg n c b -> bc_kind b = PRESCRIBED_DISPLACEMENT -> (tprev < t)%R ->
       v_at start n c = value_at mg ref t n b) /\
    (forall b, only_driver mg n c b -> bc_kind b = PRESCRIBED_VELOCITY ->
       v_at start n c = (v_at d0 n c + value_at mg ref t n b * (t - tprev))%R).

(** One load step from displacement d0 and element data e0 to d1, e1 with nodal force f1: d1 has
    the prescribed motion, and the measured imbalance of d1 is at most rel_tol times that of d0
    with the prescribed motion applied.  The element data e1 are those of some evaluation in this
    step: of d1, or of a displacement with a larger measured imbalance. *)
Definition solved_step {S} (ph : qphysics S) (mg : manager) (ref : view) (gids : list nat) (N : nat) (rel_tol tprev t : R)
  (d0 : view) (e0 : S) (d1 : view) (f1 : nat -> nat -> R) (e1 : S) : Prop :=
  exists start f0 r0 r1,
    prescribed_motion mg ref N tprev t d0 start /\
    (forall n c, n < N -> c < mg_dim mg -> held mg n c -> v_at d1 n c = v_at start n c) /\
    (exists x y, qp_internal ph e0 x tprev t start = Ok (y, f0)) /\ out_of_balance mg gids N f0 r0 /\
    (exists x y, qp_internal ph e0 x tprev t d1 = Ok (y, f1)) /\ out_of_balance mg gids N f1 r1 /\
    (measured N r1 <= rel_tol * measured N r0)%R /\
    exists d2 f2 r2 x, qp_internal ph e0 x tprev t d2 = Ok (e1, f2) /\ out_of_balance mg gids N f2 r2 /\
      (forall n c, n < N -> c < mg_dim mg -> held mg n c -> v_at d2 n c = v_at start n c) /\
      (d2 = d1 \/ (measured N r1 < measured N r2)%R).

(** ** linear problems *)
(** total of the contributions to entry (i, j) of the matrix *)
Definition contributed (l : list (nat * nat * R)) (i j : nat) : R :=
  fold_right (fun rcv s => if (fst (fst rcv) =? i) && (snd (fst rcv) =? j) then (snd rcv + s)%R else s) 0%R l.

(** the unknown of component c of node n *)
Definition unknown (dim : nat) (gids : list nat) (n c : nat) : nat := nth n gids 0 * dim + c.

(** the nodal force is f0 - K u (f0 may depend on the old element data and the times), and the
    element tangents add up to K *)
Record linear_physics {S} (N dim : nat) (gids : list nat) (ph : qphysics S) (f0 : S -> R -> R -> nat -> nat -> R)
  (K : nat -> nat -> R) : Prop := {
  lp_force : forall old new tprev t d y f, qp_internal ph old new tprev t d = Ok (y, f) -> shaped N dim d ->
    forall n c, n < N -> c < dim ->
      f n c = (f0 old tprev t n c -
        Rsum N (fun n' => Rsum dim (fun c' => K (unknown dim gids n c) (unknown dim gids n' c') * v_at d n' c')))%R;
  lp_tangent : forall d l, qp_tangent ph d = Ok l -> forall i j, contributed l i j = K i j }.

(** unknown i belongs to a held component *)
Definition held_unknown (mg : manager) (gids : list nat) (i : nat) : Prop :=
  exists n c, n < length gids /\ c < mg_dim mg /\ held mg n c /\ i = unknown (mg_dim mg) gids n c.

(** K is positive definite on the unknowns that are not held, with diagonal entries between lo
    and hi there; the diagonal entries of held unknowns are at most hi in absolute value *)
Record stiffness_ok (N : nat) (mg : manager) (gids : list nat) (K : nat -> nat -> R) (lo hi : R) : Prop := {
  so_sym : symmetric (N * mg_dim mg) K;
  so_pd : forall x, (forall i, held_unknown mg gids i -> x i = 0%R) -> (exists i, i < N * mg_dim mg /\ x i <> 0%R) ->
    (0 < dot (N * mg_dim mg) x (mv (N * mg_dim mg) K x))%R;
  so_lo : (0 < lo)%R;
  so_diag : forall i, i < N * mg_dim mg -> ~ held_unknown mg gids i -> (lo <= K i i)%R;
  so_hi : forall i, i < N * mg_dim mg -> (Rabs (K i i) <= hi)%R }.

(** Euclidean norm of a list *)
Definition norm2 (r : list R) : R := sqrt (Rsum (length r) (fun i => nth i r 0 * nth i r 0))%R.

(** what one pass of the nonlinear solver reaches on a linear problem: the linear solver's
    tolerance is 1e-16 on the square of the imbalance, and the measure is at most 21 times the
    Euclidean norm *)
Definition attainable (lo hi : R) (r : list R) : R := (21 / 10 ^ 8 * sqrt (hi / lo) * norm2 r)%R.

(** the load step from d0, e0 begins with an imbalance that one pass is not certain to reduce
    enough *)
Definition too_tight {S} (ph : qphysics S) (mg : manager) (ref : view) (gids : list nat) (N : nat) (lo hi rel_tol tprev t : R)
  (d0 : view) (e0 : S) : Prop :=
  exists start f0 r0 x y, prescribed_motion mg ref N tprev t d0 start /\ qp_internal ph e0 x tprev t start = Ok (y, f0) /\
    out_of_balance mg gids N f0 r0 /\ (rel_tol * measured N r0 < attainable lo hi r0)%R.
