(** Vocabulary for the properties of the contact set-up, independent of the model. *)
From Verif Require Import Base Strings InputSpec.
Local Close Scope string_scope.
Local Open Scope list_scope.
Set Implicit Arguments.

(** [text] starts with the words [ws], each preceded by any white space and ended by white space or
    the end of the text; [rest] is what follows the last of them *)
Inductive phrase : chars -> list chars -> chars -> Prop :=
| ph_done s : phrase s [] s
| ph_word b w s ws rest :
    all_of white b -> w <> [] -> none_of white w -> (s = [] \/ exists c r, s = c :: r /\ white c) ->
    phrase s ws rest -> phrase (b ++ w ++ s) (w :: ws) rest.
Definition primary_keys : list chars := [lit "primary_blocks"; lit "master_blocks"].
Definition secondary_keys : list chars := [lit "secondary_blocks"; lit "slave_blocks"].
(** what the penalty parameter is after the command: [None] when it was never set *)
Definition value_after {D} (rdouble : chars -> option D) (zero : D) (rest : chars) (x : option D) : Prop :=
  (all_of white rest /\ x = None) \/
  (exists b c s, rest = b ++ c :: s /\ all_of white b /\ ~ white c /\ x = Some (or_default zero (rdouble (c :: s)))).

(** The points of the contact faces and nodes of a rank, in the order of the visualisation: three
    corners per face, then one point per node. *)
From Verif Require Import ContactSetupModel.
Definition points {D} (faces : list (vface D)) (nodes : list (vnode D)) : list (D * D * D) :=
  flat_map (fun f => [vf_1 f; vf_2 f; vf_3 f]) faces ++ map (@vn_1 D) nodes.
Definition statuses {D} (faces : list (vface D)) (nodes : list (vnode D)) : list bool :=
  flat_map (fun f => [vf_status f; vf_status f; vf_status f]) faces ++ map (@vn_status D) nodes.
Definition entity_ids {D} (e : list (vface D) * list (vnode D)) : list Z := map (@vf_id D) (fst e) ++ map (@vn_id D) (snd e).
