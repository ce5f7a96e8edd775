(** Vocabulary of the boundary condition statements. *)
From Verif Require Import Base Loops BcModel.
From Coq Require Import Reals.
Local Open Scope nat_scope.
Set Implicit Arguments.

(** the nodes of a node set (none if there is no such set) *)
Definition node_set (mg : manager) (id : Z) : list nat :=
  match assoc Z.eqb id (mg_node_sets mg) with Some l => l | None => [] end.

(** boundary condition b names component c of node n *)
Definition covers (mg : manager) (b : bc) (n c : nat) : bool :=
  (bc_coord b =? c) && existsb (Nat.eqb n) (node_set mg (bc_node_set b)).

(** the prescribed value at node n and time t *)
Definition value_at (mg : manager) (ref : view) (t : R) (n : nat) (b : bc) : R :=
  match bc_val b with
  | Magnitude m => m
  | Expression f => f (v_at ref n 0) (v_at ref n 1) (if mg_dim mg =? 3 then v_at ref n 2 else 0%R) t
  end.

(** a view of N nodes and D components *)
Definition shaped (N D : nat) (v : view) : Prop := v_nodes v = N /\ v_cols v = D.

(** what the input deck and the mesh must provide *)
Record bc_input_ok (mg : manager) (N : nat) : Prop := {
  bi_dim : mg_dim mg = 2 \/ mg_dim mg = 3;
  bi_coord : forall b, In b (mg_bcs mg) -> bc_coord b < mg_dim mg;
  bi_nodes : forall id n, In n (node_set mg id) -> n < N;
  bi_nodup : forall id, NoDup (node_set mg id) }.

(** the run uses the quasistatic integrator *)
Definition quasistatic_scheme (s : scheme) : bool := match s with QUASISTATIC => true | _ => false end.

(** (displacement, velocity) of one entry under one boundary condition *)
Definition entry_effect (mg : manager) (dt t : R) (ref : view) (n c : nat) (dv : R * R) (b : bc) : R * R :=
  let '(d, v) := dv in
  let x := value_at mg ref t n b in
  if covers mg b n c then
    match bc_kind b with
    | PRESCRIBED_VELOCITY => ((if quasistatic_scheme (mg_scheme mg) then d + x * dt else d)%R, x)
    | PRESCRIBED_DISPLACEMENT =>
        if Rlt_dec 0 dt then ((if quasistatic_scheme (mg_scheme mg) then x else d), ((x - d) / dt)%R) else (d, v)
    | _ => (d, v)
    end
  else (d, v).
(** off-nominal velocities follow prescribed velocities only *)
Definition off_effect (mg : manager) (t : R) (ref : view) (n c : nat) (v : R) (b : bc) : R :=
  if covers mg b n c then
    match bc_kind b with PRESCRIBED_VELOCITY => value_at mg ref t n b | _ => v end
  else v.
Definition init_effect (mg : manager) (ref : view) (n c : nat) (v : R) (b : bc) : R :=
  if covers mg b n c then
    match bc_kind b with INITIAL_VELOCITY => value_at mg ref 0%R n b | _ => v end
  else v.

(** row i of the linear system belongs to a node and component constrained by some kinematic
    boundary condition *)
Definition constrained (mg : manager) (gids : list nat) (i : nat) : Prop :=
  exists b n g, In b (mg_bcs mg) /\
    (bc_kind b = PRESCRIBED_DISPLACEMENT \/ bc_kind b = PRESCRIBED_VELOCITY) /\ In n (node_set mg (bc_node_set b)) /\
    nth_error gids n = Some g /\ i = g * mg_dim mg + bc_coord b.
