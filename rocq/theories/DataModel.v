(** Model of field labels, lengths and the field table.
    Sources: src/nimble_data_utils.{h,cc}, src/nimble_model_data.cc. *)
From Verif Require Import Base Strings.
From Coq Require Import NArith.
Local Open Scope nat_scope.
Local Open Scope list_scope.

(** enum Relation, nimble_data_utils.h 57-63. *)
Inductive relation_t := UNDEFINED_RELATION | NODE | ELEMENT | GLOBAL.
(** enum Length, nimble_data_utils.h 65-93; LEN n stands for LENGTH_n, 0 <= n <= 20. *)
Inductive length_t := LEN (n : nat) | SCALAR | VECTOR | SYMMETRIC_TENSOR | FULL_TENSOR | UNDEFINED_LENGTH.
Definition length_eq_dec (a b : length_t) : {a = b} + {a <> b}.
Proof. decide equality. apply Nat.eq_dec. Defined.
Definition relation_eq_dec (a b : relation_t) : {a = b} + {a <> b}.
Proof. decide equality. Defined.

(** static_cast<int>(Length) following the enumerator values. *)
Definition length_cast (l : length_t) : nat :=
  match l with
  | LEN n => n | SCALAR => 21 | VECTOR => 22 | SYMMETRIC_TENSOR => 23
  | FULL_TENSOR => 24 | UNDEFINED_LENGTH => 25
  end.

(** LengthToInt, nimble_data_utils.cc 56-82. *)
Definition length_to_int (l : length_t) (dim : nat) : outcome nat :=
  match dim with
  | 2 => match l with
         | SCALAR => Ok 1 | VECTOR => Ok 2 | SYMMETRIC_TENSOR => Ok 3 | FULL_TENSOR => Ok 4
         | UNDEFINED_LENGTH => Throw | LEN n => Ok n end
  | 3 => match l with
         | SCALAR => Ok 1 | VECTOR => Ok 3 | SYMMETRIC_TENSOR => Ok 6 | FULL_TENSOR => Ok 9
         | UNDEFINED_LENGTH => Throw | LEN n => Ok n end
  | _ => Throw
  end.

(** operator<<(int): decimal with a minus sign. *)
Definition show_int (z : Z) : chars :=
  match z with
  | Zneg p => "-"%char :: dec (Npos p)
  | _ => dec (Z.to_N z)
  end.

(** AddIntegrationPointPrefix, nimble_data_utils.cc 84-96. *)
Definition add_ipt_prefix (label : chars) (ipt : Z) : chars :=
  let s := show_int ipt in
  if List.length s =? 1 then lit "ipt0" ++ s ++ lit "_" ++ label
  else lit "ipt" ++ s ++ lit "_" ++ label.

(** RemoveIntegrationPointPrefix, nimble_data_utils.cc 98-121: strips "ipt", the digits and one
    more character; std::string::substr throws when that is past the end. *)
Definition remove_ipt_prefix (label : chars) : outcome chars :=
  if starts_with (lit "ipt") label then
    let temp := skipn 3 label in
    substr_from temp (1 + List.length (take_digits temp))
  else Ok label.

(** HasIntegrationPointPrefix, nimble_data_utils.cc 123-129. *)
Definition has_ipt_prefix (label : chars) : outcome bool :=
  do s <- remove_ipt_prefix label; Ok (negb (chars_eqb label s)).

(** LabelToIntegrationPointNumber, nimble_data_utils.cc 131-156.  NIMBLE_ASSERT failing is
    Abort; with no digit the stream extraction fails and stores 0 (C++11); a number above
    INT_MAX stores INT_MAX. *)
Definition INT_MAX : N := 2147483647%N.
Definition label_to_ipt_number (label : chars) : outcome Z :=
  if starts_with (lit "ipt") label then
    Ok (Z.of_N (N.min INT_MAX (undec (take_digits (skipn 3 label)))))
  else Abort.

(** GetComponentLabels, nimble_data_utils.cc 158-207. *)
Definition component_suffixes (length : length_t) (dim : nat) : list chars :=
  match length with
  | SCALAR => [[]]
  | VECTOR => [lit "_x"; lit "_y"] ++ (if dim =? 3 then [lit "_z"] else [])
  | SYMMETRIC_TENSOR =>
      match dim with
      | 2 => [lit "_xx"; lit "_yy"; lit "_xy"]
      | 3 => [lit "_xx"; lit "_yy"; lit "_zz"; lit "_xy"; lit "_yz"; lit "_zx"]
      | _ => [] end
  | FULL_TENSOR =>
      match dim with
      | 2 => [lit "_xx"; lit "_yy"; lit "_xy"; lit "_xy"]
      | 3 => [lit "_xx"; lit "_yy"; lit "_zz"; lit "_xy"; lit "_yz"; lit "_zx";
              lit "_yx"; lit "_zy"; lit "_xz"]
      | _ => [] end
  | _ => map (fun i => lit "_" ++ dec (N.of_nat (i + 1))) (seq 0 (length_cast length))
  end.
Definition get_component_labels (label : chars) (length : length_t) (dim : nat) : list chars :=
  map (fun s => label ++ s) (component_suffixes length dim).

(** GetComponentLabel, nimble_data_utils.cc 209-266 (the suffix tables it switches over; for
    other lengths and dimensions no suffix is added). *)
Definition component_label_table (length : length_t) (dim : nat) : option (list chars) :=
  match length with
  | VECTOR => Some [lit "_x"; lit "_y"; lit "_z"]
  | SYMMETRIC_TENSOR =>
      match dim with
      | 2 => Some [lit "_xx"; lit "_yy"; lit "_xy"]
      | 3 => Some [lit "_xx"; lit "_yy"; lit "_zz"; lit "_xy"; lit "_yz"; lit "_zx"]
      | _ => None end
  | FULL_TENSOR =>
      match dim with
      | 2 => Some [lit "_xx"; lit "_yy"; lit "_xy"; lit "_yx"]
      | 3 => Some [lit "_xx"; lit "_yy"; lit "_zz"; lit "_xy"; lit "_yz"; lit "_zx";
                   lit "_yx"; lit "_zy"; lit "_xz"]
      | _ => None end
  | _ => None
  end.
Definition get_component_label (label : chars) (length : length_t) (dim component : nat) (ipt : Z)
  : outcome chars :=
  match component_label_table length dim with
  | None => Ok (add_ipt_prefix label ipt)
  | Some t => match nth_error t component with
              | Some s => Ok (add_ipt_prefix (label ++ s) ipt)
              | None => Throw
              end
  end.

(** class Field, nimble_data_utils.h 121-143. *)
Record field := Field { f_id : nat; f_label : chars; f_relation : relation_t; f_length : length_t }.

(** std::map<int, Field>: key/value pairs in increasing key order. *)
Fixpoint map_put {V} (k : nat) (v : V) (m : list (nat * V)) : list (nat * V) :=
  match m with
  | [] => [(k, v)]
  | (k', v') :: m' => if k <? k' then (k, v) :: m
                      else if k =? k' then (k, v) :: m'
                      else (k', v') :: map_put k v m'
  end.

(** ::tolower of the C locale. *)
Definition tolower_char (c : ascii) : ascii :=
  let n := N_of_ascii c in
  if ((65 <=? n) && (n <=? 90))%N then ascii_of_N (n + 32) else c.
Definition tolower (s : chars) : chars := map tolower_char s.

(** ModelData::AssignFieldId, nimble_model_data.cc 370-398: first field with the same
    case-insensitive label, in id order. *)
Fixpoint find_field (name : chars) (m : list (nat * field)) : option field :=
  match m with
  | [] => None
  | (_, f) :: m => if chars_eqb name (tolower (f_label f)) then Some f else find_field name m
  end.
Definition assign_field_id (fields : list (nat * field)) (label : chars) (rel : relation_t) (len : length_t)
  : outcome (list (nat * field) * nat) :=
  match find_field (tolower label) fields with
  | Some f => if (if relation_eq_dec rel (f_relation f) then
                    (if length_eq_dec len (f_length f) then true else false) else false)
              then Ok (fields, f_id f) else Abort
  | None => let id := List.length fields in
            Ok (map_put id (Field id label rel len) fields, id)
  end.

(** ModelData::GetFieldId, nimble_model_data.cc 64-71: exact comparison; None stands for -1. *)
Fixpoint get_field_id (label : chars) (fields : list (nat * field)) : option nat :=
  match fields with
  | [] => None
  | (k, f) :: m => if chars_eqb (f_label f) label then Some k else get_field_id label m
  end.

Section NodeData.
  Context {T : Type} (zero : T).

  (** ModelData: data_fields_, node_data_ (std::map<int, vector<double>>), dim_. *)
  Record model_data := MD {
    md_dim : nat;
    md_fields : list (nat * field);
    md_node : list (nat * list T) }.

  (** ModelData::AllocateNodeData, nimble_model_data.cc 79-91. *)
  Definition allocate_node_data (md : model_data) (len : length_t) (label : chars) (num_objects : nat)
    : outcome (model_data * nat) :=
    do r <- assign_field_id (md_fields md) label NODE len;
    do nc <- length_to_int len (md_dim md);
    Ok (MD (md_dim md) (fst r) (map_put (snd r) (repeat zero (num_objects * nc)) (md_node md)), snd r).

  (** ModelData::GetNodeData, nimble_model_data.cc 93-97 (map::at). *)
  Definition get_node_data (md : model_data) (id : nat) : outcome (list T) :=
    match assoc Nat.eqb id (md_node md) with Some d => Ok d | None => Throw end.

  (** ModelData::GetNodeDataComponent, nimble_model_data.cc 400-414, applied to the field's
      length and array.  Division by zero components (LENGTH_0) is undefined behaviour. *)
  Definition node_data_component (len : length_t) (dim : nat) (data : list T) (component : nat)
    : outcome (list T) :=
    do nc <- length_to_int len dim;
    if nc <=? component then Abort
    else omapM (fun i => vget data (i * nc + component)) (seq 0 (List.length data / nc)).

  (** ModelData::GetNodeDataForOutput, nimble_model_data.cc 99-123, for one output label: all
      components of all node fields whose label matches, in order; each match overwrites the
      output array, so the last one wins. *)
  Definition node_output (md : model_data) (output_label : chars) : outcome (option (list T)) :=
    ofold (fun acc kd =>
      let '(id, data) := kd in
      match assoc Nat.eqb id (md_fields md) with
      | None => Throw
      | Some f =>
        ofold (fun acc ic =>
          let '(i, lab) := ic in
          if chars_eqb lab output_label then
            do v <- node_data_component (f_length f) (md_dim md) data i; Ok (Some v)
          else Ok acc)
        (combine (seq 0 (List.length (get_component_labels (f_label f) (f_length f) (md_dim md))))
                 (get_component_labels (f_label f) (f_length f) (md_dim md))) acc
      end) (md_node md) None.
End NodeData.
Arguments model_data : clear implicits.
