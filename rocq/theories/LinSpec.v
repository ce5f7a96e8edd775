(** Vocabulary of the linear algebra statements. *)
From Verif Require Import Base Loops LinModel.
From Coq Require Import Reals Sorting.Sorted.
Local Open Scope nat_scope.
Set Implicit Arguments.

(** Row-major order on (row, column). *)
Definition lex_lt (p q : nat * nat) : Prop := fst p < fst q \/ (fst p = fst q /\ snd p < snd q).

(** A sorted duplicate-free pattern in which every row up to the last one has an entry. *)
Record good_pattern (pat : list (nat * nat)) : Prop := {
  gp_sorted : StronglySorted lex_lt pat;
  gp_nonempty : pat <> [];
  gp_rows : forall r i j, In (i, j) pat -> r <= i -> exists j', In (r, j') pat }.

(** Row r exists in the pattern. *)
Definition is_row (pat : list (nat * nat)) (r : nat) : Prop := exists j, In (r, j) pat.

(** Matrix operations and their meaning on an abstract matrix. *)
Inductive mat_op (T : Type) := OSetAll (v : T) | OSetRow (r : nat) (v : T) | OSetCol (c : nat) (v : T) | OWrite (i j : nat) (v : T).
Arguments OSetAll {T} v. Arguments OSetRow {T} r v. Arguments OSetCol {T} c v. Arguments OWrite {T} i j v.

Definition op_valid {T} (pat : list (nat * nat)) (o : mat_op T) : Prop :=
  match o with OSetAll _ => True | OSetRow r _ => is_row pat r | OSetCol _ _ => True | OWrite i j _ => In (i, j) pat end.
Definition op_meaning {T} (D : nat -> nat -> T) (o : mat_op T) : nat -> nat -> T :=
  fun a b => match o with
             | OSetAll v => v
             | OSetRow r v => if a =? r then v else D a b
             | OSetCol c v => if b =? c then v else D a b
             | OWrite i j v => if (a =? i) && (b =? j) then v else D a b
             end.
(** the corresponding calls *)
Definition op_call {T} (a : crs T) (o : mat_op T) : outcome (crs T) :=
  match o with
  | OSetAll v => Ok (set_all_values a v)
  | OSetRow r v => set_row_values a r v
  | OSetCol c v => set_column_values a c v
  | OWrite i j v => crs_set a i j v
  end.

(** the same for the dense matrix class, whose entries all exist *)
Definition dense_call {T} (a : dense T) (o : mat_op T) : outcome (dense T) :=
  match o with
  | OSetAll v => Ok (dense_set_all a v)
  | OSetRow r v => dense_set_row a r v
  | OSetCol c v => dense_set_col a c v
  | OWrite i j v => dense_set a i j v
  end.
Definition dense_valid {T} (n : nat) (o : mat_op T) : Prop :=
  match o with
  | OSetAll _ => True | OSetRow r _ => r < n | OSetCol c _ => c < n | OWrite i j _ => i < n /\ j < n
  end.

(** node a of the mesh owns row r of the linear system *)
Definition owns (dim : nat) (lsn : list nat) (a r : nat) : Prop :=
  exists l d, nth_error lsn a = Some l /\ d < dim /\ r = l * dim + d.
(** some element has a node owning r and a node owning c *)
Definition coupled (dim : nat) (lsn : list nat) (elems : list (list nat)) (r c : nat) : Prop :=
  exists e a b, In e elems /\ In a e /\ In b e /\ owns dim lsn a r /\ owns dim lsn b c.

Definition nn_dec (p q : nat * nat) : {p = q} + {p <> q}.
Proof. decide equality; apply Nat.eq_dec. Defined.

Local Open Scope R_scope.
(** The dense matrix with the values D on the pattern and 0 elsewhere. *)
Definition dense_of (pat : list (nat * nat)) (D : nat -> nat -> R) (i j : nat) : R :=
  if in_dec nn_dec (i, j) pat
  then D i j else 0.

(** (A x)_i for an n x n matrix *)
Definition mv (n : nat) (A : nat -> nat -> R) (x : nat -> R) (i : nat) : R := Rsum n (fun j => A i j * x j).
Definition dot (n : nat) (x y : nat -> R) : R := Rsum n (fun i => x i * y i).

(** A x = 0 has only the trivial solution *)
Definition nonsingular (n : nat) (A : nat -> nat -> R) : Prop :=
  forall x, (forall i, (i < n)%nat -> mv n A x i = 0) -> forall i, (i < n)%nat -> x i = 0.

(** a symmetric positive definite n x n matrix *)
Definition symmetric (n : nat) (A : nat -> nat -> R) : Prop :=
  forall i j, (i < n)%nat -> (j < n)%nat -> A i j = A j i.
Definition positive_definite (n : nat) (A : nat -> nat -> R) : Prop :=
  forall x, (exists i, (i < n)%nat /\ x i <> 0) -> 0 < dot n x (mv n A x).
