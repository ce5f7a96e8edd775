(** Vocabulary of the tensor statements: 3x3 matrices of reals and how they are stored. *)
From Verif Require Import Base Loops.
From Coq Require Import Reals.
Set Implicit Arguments.
Local Open Scope R_scope.

(** 3x3 matrices; only indices below 3 matter *)
Definition mat3 := nat -> nat -> R.
Definition meq (A B : mat3) : Prop := forall i j, (i < 3)%nat -> (j < 3)%nat -> A i j = B i j.
Definition mone : mat3 := fun i j => if (i =? j)%nat then 1 else 0.
Definition mzero : mat3 := fun _ _ => 0.
Definition madd (A B : mat3) : mat3 := fun i j => A i j + B i j.
Definition msub (A B : mat3) : mat3 := fun i j => A i j - B i j.
Definition mscale (c : R) (A : mat3) : mat3 := fun i j => c * A i j.
Definition mmul (A B : mat3) : mat3 := fun i j => Rsum 3 (fun k => A i k * B k j).
Definition mT (A : mat3) : mat3 := fun i j => A j i.
(** Leibniz formula *)
Definition mdet (A : mat3) : R :=
  A 0%nat 0%nat * A 1%nat 1%nat * A 2%nat 2%nat + A 0%nat 1%nat * A 1%nat 2%nat * A 2%nat 0%nat
  + A 0%nat 2%nat * A 1%nat 0%nat * A 2%nat 1%nat - A 0%nat 2%nat * A 1%nat 1%nat * A 2%nat 0%nat
  - A 0%nat 1%nat * A 1%nat 0%nat * A 2%nat 2%nat - A 0%nat 0%nat * A 1%nat 2%nat * A 2%nat 1%nat.
Definition commutator (A B : mat3) : mat3 := msub (mmul A B) (mmul B A).
(** the matrix of v -> n x v *)
Definition cross_matrix (n : nat -> R) : mat3 := fun i j =>
  match i, j with
  | 0, 1 => (- n 2%nat)%R | 0, 2 => n 1
  | 1, 0 => n 2 | 1, 2 => (- n 0%nat)%R
  | 2, 0 => (- n 1%nat)%R | 2, 1 => n 0
  | _, _ => 0%R
  end%nat.

(** Storage order of a full tensor: xx yy zz xy yz zx yx zy xz *)
Definition full_index (i j : nat) : nat :=
  match i, j with
  | 0, 0 => 0 | 1, 1 => 1 | 2, 2 => 2
  | 0, 1 => 3 | 1, 2 => 4 | 2, 0 => 5
  | 1, 0 => 6 | 2, 1 => 7 | 0, 2 => 8
  | _, _ => 9
  end%nat.
(** Storage order of a symmetric tensor: xx yy zz xy yz zx *)
Definition sym_index (i j : nat) : nat :=
  match i, j with
  | 0, 0 => 0 | 1, 1 => 1 | 2, 2 => 2
  | 0, 1 => 3 | 1, 0 => 3 | 1, 2 => 4 | 2, 1 => 4 | 2, 0 => 5 | 0, 2 => 5
  | _, _ => 6
  end%nat.
Definition full (a : nat -> R) : mat3 := fun i j => a (full_index i j).
Definition sym (a : nat -> R) : mat3 := fun i j => a (sym_index i j).

(** 3-vectors *)
Definition dot3 (u v : nat -> R) : R := Rsum 3 (fun k => u k * v k).
Definition mvec (A : mat3) (v : nat -> R) : nat -> R := fun i => Rsum 3 (fun j => A i j * v j).
(** rotation by theta about the unit vector n (Rodrigues) *)
Definition rodrigues (n : nat -> R) (theta : R) : mat3 :=
  madd (madd mone (mscale (sin theta) (cross_matrix n)))
       (mscale (1 - cos theta) (mmul (cross_matrix n) (cross_matrix n))).
Definition rotation_matrix (A : mat3) : Prop := meq (mmul A (mT A)) mone /\ mdet A = 1.

(** deviator and sum of the squares of the entries *)
Definition mtrace (A : mat3) : R := Rsum 3 (fun i => A i i).
Definition mdev (A : mat3) : mat3 := msub A (mscale (mtrace A / 3) mone).
Definition msumsq (A : mat3) : R := Rsum 3 (fun i => Rsum 3 (fun j => A i j * A i j)).
(** a non-zero vector that the matrix scales by l *)
Definition eigenpair (A : mat3) (l : R) (v : nat -> R) : Prop :=
  (exists n, (n < 3)%nat /\ v n <> 0) /\ forall n, (n < 3)%nat -> mvec A v n = l * v n.
Definition pairwise_orthogonal (u v w : nat -> R) : Prop := dot3 u v = 0 /\ dot3 u w = 0 /\ dot3 v w = 0.
Definition positive_definite (A : mat3) : Prop :=
  forall z, (exists n, (n < 3)%nat /\ z n <> 0) -> 0 < dot3 z (mvec A z).
