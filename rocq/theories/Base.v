(** Common vocabulary of the model: outcomes of C++ calls, list helpers.
    Nothing in this file models a particular NimbleSM function. *)
From Coq Require Export List Arith ZArith Lia Bool.
From Coq Require Export ZifyBool ZifyNat.
Export ListNotations.
Set Implicit Arguments.

(** Result of a C++ call: a value, a C++ exception, NIMBLE_ABORT
    (nimble_macros.h; ends the process), or undefined behaviour. *)
Inductive outcome (A : Type) : Type :=
| Ok (a : A)
| Throw
| Abort
| UB.
Arguments Ok {A} a.
Arguments Throw {A}.
Arguments Abort {A}.
Arguments UB {A}.

Definition obind {A B} (x : outcome A) (f : A -> outcome B) : outcome B :=
  match x with Ok a => f a | Throw => Throw | Abort => Abort | UB => UB end.
Definition omap {A B} (f : A -> B) (x : outcome A) : outcome B :=
  obind x (fun a => Ok (f a)).
Notation "'do' x <- e ; f" := (obind e (fun x => f))
  (at level 200, x name, e at level 100, f at level 200, right associativity).

Fixpoint omapM {A B} (f : A -> outcome B) (l : list A) : outcome (list B) :=
  match l with
  | [] => Ok []
  | a :: l => do b <- f a; do bs <- omapM f l; Ok (b :: bs)
  end.

Fixpoint ofold {A B} (f : A -> B -> outcome A) (l : list B) (a : A) : outcome A :=
  match l with
  | [] => Ok a
  | b :: l => do a' <- f a b; ofold f l a'
  end.

(** v[i] with i out of range being undefined behaviour. *)
Definition vget {A} (l : list A) (i : nat) : outcome A :=
  match nth_error l i with Some a => Ok a | None => UB end.
(** v.at(i). *)
Definition vat {A} (l : list A) (i : nat) : outcome A :=
  match nth_error l i with Some a => Ok a | None => Throw end.

Fixpoint list_set {A} (l : list A) (i : nat) (v : A) : list A :=
  match l, i with
  | [], _ => []
  | _ :: l, 0 => v :: l
  | a :: l, S i => a :: list_set l i v
  end.
(** v[i] = x with i out of range being undefined behaviour. *)
Definition vset {A} (l : list A) (i : nat) (v : A) : outcome (list A) :=
  if i <? length l then Ok (list_set l i v) else UB.

Lemma list_set_length {A} (l : list A) i v : length (list_set l i v) = length l.
Proof. revert i; induction l as [|a l IH]; intros [|i]; simpl; auto. Qed.

Lemma nth_error_list_set {A} (l : list A) i v k :
  nth_error (list_set l i v) k =
  if (k =? i) && (i <? length l) then Some v else nth_error l k.
Proof.
  revert i k; induction l as [|a l IH]; intros [|i] [|k]; simpl; auto.
  - destruct (k =? i); reflexivity.
  - rewrite IH. reflexivity.
Qed.

Lemma nth_list_set {A} (l : list A) i v k d :
  nth k (list_set l i v) d =
  if (k =? i) && (i <? length l) then v else nth k l d.
Proof.
  revert i k; induction l as [|a l IH]; intros [|i] [|k]; simpl; auto.
  - destruct (k =? i); reflexivity.
  - rewrite IH. reflexivity.
Qed.

(** Association lists used for std::map / std::unordered_map. *)
Section Assoc.
  Context {K V : Type} (eqb : K -> K -> bool).
  Fixpoint assoc (k : K) (m : list (K * V)) : option V :=
    match m with
    | [] => None
    | (k', v) :: m => if eqb k k' then Some v else assoc k m
    end.
  Fixpoint assoc_set (k : K) (v : V) (m : list (K * V)) : list (K * V) :=
    match m with
    | [] => [(k, v)]
    | (k', v') :: m => if eqb k k' then (k, v) :: m else (k', v') :: assoc_set k v m
    end.
End Assoc.

(** Insertion sort with a boolean "a goes before b" test; used where the code calls
    std::sort on pairwise distinct keys (the result is then unique). *)
Section Sort.
  Context {A : Type} (leb : A -> A -> bool).
  Fixpoint insert (a : A) (l : list A) : list A :=
    match l with
    | [] => [a]
    | b :: l' => if leb a b then a :: l else b :: insert a l'
    end.
  Fixpoint isort (l : list A) : list A :=
    match l with [] => [] | a :: l => insert a (isort l) end.
End Sort.

(** std::unique: drops elements equal to their predecessor. *)
Section Uniq.
  Context {A : Type} (eqb : A -> A -> bool).
  Fixpoint uniq (l : list A) : list A :=
    match l with
    | [] => []
    | a :: l' => match l' with
                 | [] => [a]
                 | b :: _ => if eqb a b then uniq l' else a :: uniq l'
                 end
    end.
End Uniq.
