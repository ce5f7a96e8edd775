(** Vocabulary of the material statements. *)
From Verif Require Import Base Loops TensorSpec ElementSpec.
From Coq Require Import Reals.
Set Implicit Arguments.
Local Open Scope R_scope.

(** Deformation gradient stored for material point p. *)
Definition gradient_at (F : nat -> R) (p : nat) : mat3 := full (fun k => F (9 * p + k)%nat).
(** Symmetric part. *)
Definition msym (A : mat3) : mat3 := mscale (1 / 2) (madd A (mT A)).
(** Isotropic linear elasticity: bulk modulus K, shear modulus mu, small strain eps. *)
Definition hooke (K mu : R) (eps : mat3) : mat3 := madd (mscale (K * mtrace eps) mone) (mscale (2 * mu) (mdev eps)).
(** The neo-Hookean Cauchy stress for deformation gradient F of determinant J, where g is the
    positive number with g^3 J^2 = 1 (that is, J to the power -2/3). *)
Definition neo_hooke (K mu J g : R) (F : mat3) : mat3 :=
  madd (mscale (K / 2 * (J - / J)) mone) (mscale (mu / J) (mdev (mscale g (mmul F (mT F))))).
(** The components xx yy zz xy yz zx of a symmetric tensor. *)
Definition component (A : mat3) (k : nat) : R :=
  match k with
  | 0%nat => A 0%nat 0%nat | 1%nat => A 1%nat 1%nat | 2%nat => A 2%nat 2%nat
  | 3%nat => A 0%nat 1%nat | 4%nat => A 1%nat 2%nat | _ => A 2%nat 0%nat
  end.
