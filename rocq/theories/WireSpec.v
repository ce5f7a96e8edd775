(** Vocabulary for the exchange of contact faces. *)
From Verif Require Import Base ContactModel ContactSpec WireModel.
From Coq Require Import Reals.
Set Implicit Arguments.
Local Open Scope Z_scope.

Definition is_double_bits (d : Z) : Prop := 0 <= d < 2 ^ 64.
Definition is_int (i : Z) : Prop := - 2 ^ 31 <= i < 2 ^ 31.
Definition machine_face (w : wire_face) : Prop :=
  Forall is_double_bits [coord_1_x_ w; coord_1_y_ w; coord_1_z_ w; coord_2_x_ w; coord_2_y_ w; coord_2_z_ w; coord_3_x_ w; coord_3_y_ w; coord_3_z_ w; w_char_len_ w] /\
  Forall is_int [w_global_id_ w; w_node_1_ w; w_node_2_ w; w_fict_1_ w; w_fict_2_ w; w_fict_3_ w; w_fict_4_ w].
(** [w] are the machine values of the entity's travelling members *)
Definition machine_values (real : Z -> R) (e : entity) (w : wire_face) : Prop :=
  coord_1 e = mkV3 (real (coord_1_x_ w)) (real (coord_1_y_ w)) (real (coord_1_z_ w)) /\
  coord_2 e = mkV3 (real (coord_2_x_ w)) (real (coord_2_y_ w)) (real (coord_2_z_ w)) /\
  coord_3 e = mkV3 (real (coord_3_x_ w)) (real (coord_3_y_ w)) (real (coord_3_z_ w)) /\
  char_len_ e = real (w_char_len_ w) /\ contact_entity_global_id_ e = w_global_id_ w /\
  Z.of_nat (node_id_for_node_1_ e) = w_node_1_ w /\ Z.of_nat (node_id_for_node_2_ e) = w_node_2_ w /\
  map Z.of_nat (node_ids_for_fictitious_node_ e) = [w_fict_1_ w; w_fict_2_ w; w_fict_3_ w; w_fict_4_ w].
