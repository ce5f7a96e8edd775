(** Model of src/nimble_view.h: Viewify (views of foreign memory, 70-155), AXPYResult and y += a * x
    (158-222), View (shared handles, 225-309; without serialize, which only exists with DARMA).
    Numbers are real. *)
From Coq Require Import Reals.
From Verif Require Import Base.
Set Implicit Arguments.
Local Open Scope Z_scope.

(** Memory: value of index z of allocation a, if there is such memory *)
Definition heap := nat -> Z -> option R.
Record ptr := Ptr { p_alloc : nat; p_off : Z }.
Definition load (h : heap) (p : ptr) (k : Z) : outcome R :=
  match h (p_alloc p) (p_off p + k) with Some x => Ok x | None => UB end.
Definition update (h : heap) (a : nat) (z : Z) (x : R) : heap :=
  fun b w => if Nat.eqb b a && Z.eqb w z then Some x else h b w.
Definition store (h : heap) (p : ptr) (k : Z) (x : R) : outcome heap :=
  match h (p_alloc p) (p_off p + k) with Some _ => Ok (update h (p_alloc p) (p_off p + k) x) | None => UB end.
(** product of two ints *)
Definition int_mul (a b : Z) : outcome Z := if (- 2 ^ 31 <=? a * b) && (a * b <? 2 ^ 31) then Ok (a * b) else UB.
(** for (ii = i; ii < i + n; ++ii) *)
Fixpoint for_up (n : nat) (i : Z) (body : Z -> heap -> outcome heap) (h : heap) : outcome heap :=
  match n with O => Ok h | S n => do h <- body i h; for_up n (i + 1) body h end.

(** Viewify, 73-85 and 152-154; a one-dimensional view has no second length and stride ([len1], [str1] unused) *)
Record viewify := Viewify { data : ptr; len0 : Z; len1 : Z; str0 : Z; str1 : Z }.
(** operator()(i) of a one-dimensional view, 87-99 *)
Definition get1 (v : viewify) (i : Z) (h : heap) : outcome R := load h (data v) i.
Definition set1 (v : viewify) (i : Z) (x : R) (h : heap) : outcome heap := store h (data v) i x.
(** operator()(i, j), 101-113 *)
Definition get2 (v : viewify) (i j : Z) (h : heap) : outcome R := load h (data v) (i * str0 v + j * str1 v).
Definition set2 (v : viewify) (i j : Z) (x : R) (h : heap) : outcome heap := store h (data v) (i * str0 v + j * str1 v) x.
(** zero, 115-120 *)
Definition zero (v : viewify) (h : heap) : outcome heap :=
  do n <- int_mul (str0 v) (len0 v);
  for_up (Z.to_nat n) 0 (fun ii h => store h (data v) ii 0%R) h.
(** copy, 122-127 *)
Definition copy (v ref : viewify) (h : heap) : outcome heap :=
  do n <- int_mul (str0 v) (len0 v);
  for_up (Z.to_nat n) 0 (fun ii h => do x <- load h (data ref) ii; store h (data v) ii x) h.
(** AXPYResult::assignTo, 181-203 *)
Definition assign_to (A : viewify) (alpha destCoef rhsCoef : R) (dest : viewify) (h : heap) : outcome heap :=
  let prod := (alpha * rhsCoef)%R in
  do n <- int_mul (len0 dest) (str0 dest);
  if Req_EM_T destCoef 1 then
    for_up (Z.to_nat n) 0 (fun ii h => do d <- load h (data dest) ii; do x <- load h (data A) ii; store h (data dest) ii (d + prod * x)%R) h
  else if Req_EM_T destCoef 0 then
    for_up (Z.to_nat n) 0 (fun ii h => do x <- load h (data A) ii; store h (data dest) ii (prod * x)%R) h
  else
    for_up (Z.to_nat n) 0 (fun ii h => do d <- load h (data dest) ii; do x <- load h (data A) ii; store h (data dest) ii (destCoef * d + prod * x)%R) h.
(** y += alpha * A, 207-221 *)
Definition plus_assign (y : viewify) (alpha : R) (A : viewify) (h : heap) : outcome heap := assign_to A alpha 1 1 y h.

(** * View, 225-274, 306-309: a handle with a shared pointer, a raw pointer and the number of entries.
    Allocations are numbered and not reused; fresh memory holds arbitrary numbers ([junk]). *)
Section Handles.
  (** static_cast<int>(FieldT): 1, 3, 6 or 9 *)
  Variable comps : Z.
  Variable junk : nat -> Z -> R.

  (** [h_owns]: data_ is not null; [h_raw]: data_ptr_ *)
  Record handle := Handle { h_num : Z; h_owns : bool; h_raw : nat }.
  Record vstate := VState { vs_heap : heap; vs_refs : nat -> nat; vs_next : nat; vs_vars : list (option handle); vs_read : list R }.
  Inductive vop :=
  | New (x : nat) (num_entries : Z)                  (* View x(num_entries); *)
  | CopyOf (x y : nat)                               (* View x(y); *)
  | MoveOf (x y : nat)                               (* View x(std::move(y)); *)
  | Assign (x y : nat)                               (* x = y; *)
  | Destroy (x : nat)
  | Get (x : nat) (i c : Z)                          (* read x(i, c), or x(i) of a scalar view *)
  | Set_ (x : nat) (i c : Z) (v : R).                (* x(i, c) = v; *)
  (** slots of variables: outside the list there is no variable *)
  Definition var (s : vstate) (x : nat) : option handle := match nth_error (vs_vars s) x with Some o => o | None => None end.
  Definition refs_set (r : nat -> nat) (a n : nat) : nat -> nat := fun b => if Nat.eqb b a then n else r b.
  (** shared_ptr: one owner fewer; the last one frees the memory *)
  Definition release (v : handle) (s : vstate) : vstate :=
    if h_owns v then
      match vs_refs s (h_raw v) with
      | S (S n) => VState (vs_heap s) (refs_set (vs_refs s) (h_raw v) (S n)) (vs_next s) (vs_vars s) (vs_read s)
      | _ => VState (fun b z => if Nat.eqb b (h_raw v) then None else vs_heap s b z) (refs_set (vs_refs s) (h_raw v) 0) (vs_next s) (vs_vars s) (vs_read s)
      end
    else s.
  Definition acquire (v : handle) (s : vstate) : vstate :=
    if h_owns v then VState (vs_heap s) (refs_set (vs_refs s) (h_raw v) (S (vs_refs s (h_raw v)))) (vs_next s) (vs_vars s) (vs_read s) else s.
  Definition bind_var (x : nat) (o : option handle) (s : vstate) : vstate :=
    VState (vs_heap s) (vs_refs s) (vs_next s) (list_set (vs_vars s) x o) (vs_read s).
  Definition in_slot (x : nat) (s : vstate) : bool := (x <? length (vs_vars s))%nat.
  (** A step; [UB] also stands for programs that do not compile (unknown variables).  A negative size
      throws std::bad_array_new_length. *)
  Definition vstep (o : vop) (s : vstate) : outcome vstate :=
    match o with
    | New x n =>
      match var s x with
      | Some _ => UB
      | None =>
        if negb (in_slot x s) then UB else
        do size <- int_mul n comps;
        if size <? 0 then Throw else
        let a := vs_next s in
        Ok (bind_var x (Some (Handle n true a))
             (VState (fun b z => if Nat.eqb b a then (if (0 <=? z) && (z <? size) then Some (junk a z) else None) else vs_heap s b z)
                     (refs_set (vs_refs s) a 1) (S a) (vs_vars s) (vs_read s)))
      end
    | CopyOf x y =>
      match var s x, var s y with
      | None, Some v => if in_slot x s then Ok (bind_var x (Some v) (acquire v s)) else UB
      | _, _ => UB
      end
    | MoveOf x y =>                                  (* the raw pointer of y stays *)
      match var s x, var s y with
      | None, Some v => if in_slot x s then Ok (bind_var x (Some v) (bind_var y (Some (Handle (h_num v) false (h_raw v))) s)) else UB
      | _, _ => UB
      end
    | Assign x y =>
      match var s x, var s y with
      | Some old, Some v => Ok (release old (bind_var x (Some v) (acquire v s)))
      | _, _ => UB
      end
    | Destroy x =>
      match var s x with
      | Some v => Ok (release v (bind_var x None s))
      | None => UB
      end
    | Get x i c =>
      match var s x with
      | Some v => do u <- load (vs_heap s) (Ptr (h_raw v) 0) (i * comps + c); Ok (VState (vs_heap s) (vs_refs s) (vs_next s) (vs_vars s) (vs_read s ++ [u]))
      | None => UB
      end
    | Set_ x i c u =>
      match var s x with
      | Some v => do h <- store (vs_heap s) (Ptr (h_raw v) 0) (i * comps + c) u; Ok (VState h (vs_refs s) (vs_next s) (vs_vars s) (vs_read s))
      | None => UB
      end
    end.
  Definition vrun (ops : list vop) (s : vstate) : outcome vstate := ofold (fun s o => vstep o s) ops s.
  Definition vinit (slots : nat) : vstate := VState (fun _ _ => None) (fun _ => O) 0 (repeat None slots) [].
  (** rank, extent, 257-274 *)
  Definition view_rank : Z := if comps =? 1 then 1 else 2.
  Definition view_extent (v : handle) (dim : Z) : Z := if dim =? 0 then h_num v else if dim =? 1 then comps else 1.
End Handles.
