(** Vocabulary of the statements about Tpetra. *)
From Coq Require Import Reals Permutation.
From Verif Require Import Base TpetraModel.
Set Implicit Arguments.
Local Open Scope nat_scope.

(** whatever order the library uses, it neither loses nor invents anything *)
Definition library_ok (lib : tlib) : Prop :=
  (forall g l, Permutation (tl_directory lib g l) l) /\ (forall r l, Permutation (tl_order lib r l) l) /\
  (forall r g l, Permutation (tl_arrivals lib r g l) l).

(** A history of sums over the ranks: the number of components and the arrays of the ranks for every
    call; the arrays after every call *)
Fixpoint history (lib : tlib) (t : tpetra) (calls : list (nat * list (nat -> R))) : outcome (list (list (nat -> R))) :=
  match calls with
  | [] => Ok []
  | c :: calls => do r <- vector_reduction lib t (fst c) (snd c); do rest <- history lib (fst r) calls; Ok (snd r :: rest)
  end.

(** dof [d] of the node with global id [g] *)
Definition dof (dim : nat) (g : Z) (d : nat) : Z := (g * Z.of_nat dim + Z.of_nat d)%Z.
(** the elements of a block, as lists of nodes of the rank *)
Definition block_elems (b : tblock) : list (list nat) :=
  map (fun e => map (fun i => nth (e * tbk_nodes b + i) (tbk_conn b) 0) (seq 0 (tbk_nodes b))) (seq 0 (tbk_elem b)).
(** some element has a node owning row r and a node owning column c *)
Definition coupled_dofs (dim : nat) (ids : list Z) (blocks : list tblock) (r c : Z) : Prop :=
  exists b e i j x y, In b blocks /\ In e (block_elems b) /\ In i e /\ In j e /\ x < dim /\ y < dim /\
    r = dof dim (nth i ids 0%Z) x /\ c = dof dim (nth j ids 0%Z) y.
(** the connectivity of a block is complete and names nodes of the rank *)
Definition block_ok (ids : list Z) (b : tblock) : Prop :=
  length (tbk_conn b) = tbk_elem b * tbk_nodes b /\ Forall (fun i => i < length ids) (tbk_conn b).
(** the entries of a matrix given by rows *)
Definition entries_of (a : list (Z * list (Z * R))) : list (Z * Z) := flat_map (fun e => map (fun c => (fst e, fst c)) (snd e)) a.
