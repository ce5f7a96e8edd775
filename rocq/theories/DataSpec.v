(** Vocabulary of the statements about field registration and node output. *)
From Verif Require Import Base Strings DataModel.
Local Open Scope nat_scope.
Local Open Scope list_scope.

(** A registration request: label, relation, length. *)
Definition request := (chars * relation_t * length_t)%type.
Definition rq_label (r : request) := fst (fst r).
Definition rq_attr (r : request) := (snd (fst r), snd r).

(** A history of calls of AssignFieldId on an initially empty table: the table and the ids returned so far. *)
Definition register_all (rs : list request) : outcome (list (nat * field) * list nat) :=
  ofold (fun (st : list (nat * field) * list nat) (r : request) =>
           do x <- assign_field_id (fst st) (rq_label r) (snd (fst r)) (snd r);
           Ok (fst x, snd st ++ [snd x])) rs ([], []).

(** Field [id] has record f and array data. *)
Definition node_field {T} (md : model_data T) id f data :=
  In (id, data) (md_node md) /\ assoc Nat.eqb id (md_fields md) = Some f.
(** [lab] names component k of field f. *)
Definition names_component (dim : nat) (f : field) (k : nat) (lab : chars) :=
  nth_error (get_component_labels (f_label f) (f_length f) dim) k = Some lab.

