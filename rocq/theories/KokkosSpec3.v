(** Histories of field allocations on the device model. *)
From Coq Require Import Reals.
From Verif Require Import Base Strings DataModel KokkosModel.
Set Implicit Arguments.
Local Open Scope nat_scope.
Local Open Scope list_scope.
Local Notation length := List.length.

(** where a field lives: at the nodes, on the elements of a block, at the integration points of a block *)
Inductive home := AtNodes | OnElements (block : nat) | AtPoints (block : nat).
(** AllocateNodeData, AllocateElementData, AllocateIntegrationPointData: [al_n] nodes or elements;
    initial values are for integration points only *)
Record alloc := Alloc { al_home : home; al_len : length_t; al_label : chars; al_n : nat; al_init : list R }.
Definition allocate (same : bool) (s : tables * heap) (a : alloc) : outcome ((tables * heap) * nat) :=
  match al_home a with
  | AtNodes => allocate_node_data same s (al_len a) (al_label a) (al_n a)
  | OnElements b => allocate_element_data same s b (al_len a) (al_label a) (al_n a)
  | AtPoints b => allocate_ipt_data same s b (al_len a) (al_label a) (al_n a) (al_init a)
  end.
(** all of them, in order, from an empty object; the ids returned *)
Definition allocate_all (same : bool) (l : list alloc) : outcome ((tables * heap) * list nat) :=
  ofold (fun s a => do r <- allocate same (fst s) a; Ok (fst r, snd s ++ [snd r])) l (@pair tables heap no_tables [], []).
(** the type of view a field gets *)
Definition kind_for (p : home) (len : length_t) : option kind :=
  match p, len with
  | AtNodes, SCALAR | AtPoints _, SCALAR => Some KScalarNode
  | AtNodes, VECTOR | AtPoints _, VECTOR => Some KVectorNode
  | OnElements _, SCALAR => Some KScalarElem
  | OnElements _, SYMMETRIC_TENSOR => Some KSymElem
  | OnElements _, FULL_TENSOR => Some KFullElem
  | AtPoints _, SYMMETRIC_TENSOR => Some KSymIntPt
  | AtPoints _, FULL_TENSOR => Some KFullIntPt
  | _, _ => None
  end.
(** numbers per point (or node, or element), and points per index *)
Definition numbers (len : length_t) : nat := match len with SCALAR => 1 | VECTOR => 3 | SYMMETRIC_TENSOR => 6 | FULL_TENSOR => 9 | _ => 0 end.
Definition points (p : home) (len : length_t) : nat :=
  match p, len with AtPoints _, SYMMETRIC_TENSOR | AtPoints _, FULL_TENSOR => 8 | _, _ => 1 end.
Definition acceptable (a : alloc) : Prop :=
  kind_for (al_home a) (al_len a) <> None /\
  (al_init a = [] \/ (exists b, al_home a = AtPoints b) /\ numbers (al_len a) <= length (al_init a)).
(** the contents of a new field: zeros, or the initial values at every point *)
Definition contents (a : alloc) : list R :=
  let cells := al_n a * points (al_home a) (al_len a) in
  match al_init a with
  | [] => repeat 0%R (cells * numbers (al_len a))
  | iv => List.concat (repeat (firstn (numbers (al_len a)) iv) cells)
  end.
(** no later allocation at the same place under the same label *)
Definition latest (l : list alloc) (i : nat) : Prop :=
  forall j a b, i < j -> nth_error l i = Some a -> nth_error l j = Some b -> ~ (al_home b = al_home a /\ al_label b = al_label a).
(** the views a user gets for an id ([st] matters for integration points only) *)
Definition host_view (tb : tables) (p : home) (k : kind) (id : nat) (st : step_t) : outcome view :=
  match p with AtNodes => host_node tb k (Some id) | OnElements b => host_elem tb k b (Some id) | AtPoints b => host_ipt tb k b (Some id) st end.
Definition device_view (tb : tables) (p : home) (k : kind) (id : nat) (st : step_t) : outcome view :=
  match p with AtNodes => dev_node tb k (Some id) | OnElements b => dev_elem tb k b (Some id) | AtPoints b => dev_ipt tb k b (Some id) st end.
(** (i, st) and (j, st') are different fields *)
Definition different (l : list alloc) (i : nat) (st : step_t) (j : nat) (st' : step_t) : Prop :=
  i <> j \/ (st <> st' /\ exists a b, nth_error l i = Some a /\ al_home a = AtPoints b).
