(** Vocabulary of the element statements (independent of the model): the trilinear hexahedron. *)
From Verif Require Import Base Loops TensorSpec.
From Coq Require Import Reals.
Set Implicit Arguments.
Local Open Scope R_scope.

(** Corner [a] of the reference cell [-1,1]^3, in Exodus node order. *)
Definition corner (a k : nat) : R :=
  let plus := match k with
              | 0%nat => [1; 2; 5; 6]%nat
              | 1%nat => [2; 3; 6; 7]%nat
              | _ => [4; 5; 6; 7]%nat
              end in
  if existsb (Nat.eqb a) plus then 1 else -1.

(** The trilinear shape function of corner [a] at the reference point [p], and its partial
    derivative with respect to reference coordinate [k]. *)
Definition hat (a : nat) (p : nat -> R) (k : nat) : R := 1 + corner a k * p k.
Definition shape (a : nat) (p : nat -> R) : R := / 8 * (hat a p 0 * hat a p 1 * hat a p 2).
Definition dshape (a k : nat) (p : nat -> R) : R :=
  / 8 * corner a k * (match k with 0%nat => hat a p 1 * hat a p 2 | 1%nat => hat a p 0 * hat a p 2 | _ => hat a p 0 * hat a p 1 end).

(** The integration points: the corners scaled by the constant of the source. *)
Definition gauss (q : nat) : nat -> R := fun k => corner q k * (577350269189626 / 10 ^ 15).

(** Nodal vectors stored node by node. *)
Definition nodes (c : nat -> R) : nat -> nat -> R := fun n i => c (3 * n + i)%nat.
(** Derivative at integration point [q] of the field interpolating the nodal vectors [x]. *)
Definition jac (x : nat -> nat -> R) (q : nat) : mat3 := fun i j => Rsum 8 (fun n => x n i * dshape n j (gauss q)).
(** The element is not inverted at any integration point. *)
Definition well_shaped (x : nat -> nat -> R) : Prop := forall q, (q < 8)%nat -> 0 < mdet (jac x q).
(** [G q] is the gradient at integration point q, with respect to the position field x, of the field u. *)
Definition gradient_of (x u : nat -> nat -> R) (G : nat -> mat3) : Prop :=
  forall q, (q < 8)%nat -> meq (mmul (G q) (jac x q)) (jac u q).

(** The contraction A : B. *)
Definition contract (A B : mat3) : R := Rsum 3 (fun i => Rsum 3 (fun j => A i j * B i j)).
(** Engineering strain of a displacement gradient, in the order xx yy zz xy yz zx. *)
Definition eng_strain (G : mat3) (k : nat) : R :=
  match k with
  | 0%nat => G 0%nat 0%nat | 1%nat => G 1%nat 1%nat | 2%nat => G 2%nat 2%nat
  | 3%nat => G 0%nat 1%nat + G 1%nat 0%nat
  | 4%nat => G 1%nat 2%nat + G 2%nat 1%nat
  | _ => G 2%nat 0%nat + G 0%nat 2%nat
  end.
(** u . K v for an n x n matrix stored by rows. *)
Definition quad (n : nat) (K : nat -> R) (u v : nat -> R) : R :=
  Rsum n (fun i => Rsum n (fun j => u i * K (i * n + j)%nat * v j)).
(** The vectors x and f of all nodes, and the resultant moment. *)
Definition moment (x f : nat -> nat -> R) (i j : nat) : R := Rsum 8 (fun n => x n i * f n j - x n j * f n i).

(** Symmetric stress stored for integration point q, and the 6 x 6 material tangent stored for it. *)
Definition stress_at (s : nat -> R) (q : nat) : mat3 := sym (fun k => s (6 * q + k)%nat).
Definition cmat (C : nat -> R) (q k l : nat) : R := C (36 * q + 6 * k + l)%nat.
(** The volume of the element by the quadrature rule (all weights are one). *)
Definition element_volume (x : nat -> nat -> R) : R := Rsum 8 (fun q => mdet (jac x q)).
(** Squared distance of two nodes. *)
Definition dsq (x : nat -> nat -> R) (n m : nat) : R :=
  (x n 0%nat - x m 0%nat) * (x n 0%nat - x m 0%nat) + (x n 1%nat - x m 1%nat) * (x n 1%nat - x m 1%nat) + (x n 2%nat - x m 2%nat) * (x n 2%nat - x m 2%nat).

(** Block level: a global nodal vector field [x] is stored node by node; node n of element e is
    number [conn (8 e + n)]. *)
Definition enodes (conn : nat -> nat) (x : nat -> R) (e : nat) : nat -> nat -> R := fun n i => x (3 * conn (e * 8 + n)%nat + i)%nat.
(** u . K v for a global N x N matrix. *)
Definition bil (N : nat) (K : nat -> nat -> R) (u v : nat -> R) : R := Rsum N (fun i => Rsum N (fun j => u i * K i j * v j)).
(** The extent of the nodes along axis i is w. *)
Definition spread (x : nat -> nat -> R) (i : nat) (w : R) : Prop :=
  (exists n m, (n < 8)%nat /\ (m < 8)%nat /\ w = x n i - x m i) /\ forall n m, (n < 8)%nat -> (m < 8)%nat -> x n i - x m i <= w.
(** L is the least of the extents along the axes and the distances between nodes. *)
Definition least_size (x : nat -> nat -> R) (L : R) : Prop :=
  (forall n m, (n < 8)%nat -> (m < 8)%nat -> n <> m -> L <= sqrt (dsq x n m)) /\
  (forall i w, (i < 3)%nat -> spread x i w -> L <= w) /\
  ((exists n m, (n < 8)%nat /\ (m < 8)%nat /\ n <> m /\ L = sqrt (dsq x n m)) \/ exists i, (i < 3)%nat /\ spread x i L).
(** The nodes moved by the vector t. *)
Definition moved (x : nat -> nat -> R) (t : nat -> R) : nat -> nat -> R := fun n i => x n i + t i.
