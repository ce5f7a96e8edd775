(** Model of SerializeContactFaces and UnserializeContactFaces (nimble_contact_entity.h 597-702) on
    bytes.  A double is its 64-bit pattern (a number below 2^64) and an int a number from -2^31 to
    2^31 - 1, both little-endian as on the supported platforms; memcpy outside the vector is UB. *)
From Verif Require Import Base ListLemmas Loops ContactModel.
From Coq Require Import Reals.
Set Implicit Arguments.
Local Open Scope Z_scope.

(** The members of a contact entity that travel *)
Record wire_face := WF {
  coord_1_x_ : Z; coord_1_y_ : Z; coord_1_z_ : Z;
  coord_2_x_ : Z; coord_2_y_ : Z; coord_2_z_ : Z;
  coord_3_x_ : Z; coord_3_y_ : Z; coord_3_z_ : Z;
  w_char_len_ : Z;
  w_global_id_ : Z; w_node_1_ : Z; w_node_2_ : Z;
  w_fict_1_ : Z; w_fict_2_ : Z; w_fict_3_ : Z; w_fict_4_ : Z }.

(** The object representation of an n-byte integer *)
Fixpoint to_bytes (n : nat) (z : Z) : list Z :=
  match n with O => [] | S n => z mod 256 :: to_bytes n (z / 256) end.
Fixpoint from_bytes (l : list Z) : Z := match l with [] => 0 | b :: l => b + 256 * from_bytes l end.
Definition size_double : nat := 8.
Definition size_int : nat := 4.
Definition double_bytes (d : Z) : list Z := to_bytes size_double d.
Definition int_bytes (i : Z) : list Z := to_bytes size_int (i mod 2 ^ 32).
Definition double_of (l : list Z) : Z := from_bytes l.
Definition int_of (l : list Z) : Z := let u := from_bytes l in if u <? 2 ^ 31 then u else u - 2 ^ 32.
(** memcpy into and out of a vector at an offset *)
Definition memcpy_to (buffer : list Z) (scan : nat) (bytes : list Z) : outcome (list Z) :=
  if (scan + length bytes <=? length buffer)%nat
  then Ok (firstn scan buffer ++ bytes ++ skipn (scan + length bytes) buffer) else UB.
Definition memcpy_from (buffer : list Z) (scan n : nat) : outcome (list Z) :=
  if (scan + n <=? length buffer)%nat then Ok (firstn n (skipn scan buffer)) else UB.
(** vector::resize *)
Definition resize (buffer : list Z) (n : nat) : list Z := firstn n buffer ++ repeat 0 (n - length buffer).
Definition entity_size : nat := (10 * size_double + 8 * size_int)%nat.

(** One memcpy and the following scan += size *)
Definition put (bytes : list Z) (st : list Z * nat) : outcome (list Z * nat) :=
  do buffer <- memcpy_to (fst st) (snd st) bytes;
  Ok (buffer, (snd st + length bytes)%nat).
(** The loop body, 609-642 *)
Definition serialize_face (f : wire_face) (st : list Z * nat) : outcome (list Z * nat) :=
  do st <- put (double_bytes (coord_1_x_ f)) st;
  do st <- put (double_bytes (coord_1_y_ f)) st;
  do st <- put (double_bytes (coord_1_z_ f)) st;
  do st <- put (double_bytes (coord_2_x_ f)) st;
  do st <- put (double_bytes (coord_2_y_ f)) st;
  do st <- put (double_bytes (coord_2_z_ f)) st;
  do st <- put (double_bytes (coord_3_x_ f)) st;
  do st <- put (double_bytes (coord_3_y_ f)) st;
  do st <- put (double_bytes (coord_3_z_ f)) st;
  do st <- put (double_bytes (w_char_len_ f)) st;
  do st <- put (int_bytes (w_global_id_ f)) st;
  do st <- put (int_bytes (w_node_1_ f)) st;
  do st <- put (int_bytes (w_node_2_ f)) st;
  do st <- put (int_bytes (w_fict_1_ f)) st;
  do st <- put (int_bytes (w_fict_2_ f)) st;
  do st <- put (int_bytes (w_fict_3_ f)) st;
  put (int_bytes (w_fict_4_ f)) st.
(** SerializeContactFaces, 597-644; &buffer[0] of an empty vector is undefined.  [faces] is
    contact_entities[0 .. num_entities - 1]. *)
Definition serialize_faces (faces : list wire_face) (buffer : list Z) : outcome (list Z) :=
  let buffer := resize buffer (entity_size * length faces) in
  if Nat.eqb (length buffer) 0 then UB else
  do st <- ofold (fun st f => serialize_face f st) faces (buffer, 0%nat);
  Ok (fst st).

Definition get_double (buffer : list Z) (scan : nat) : outcome (Z * nat) :=
  do b <- memcpy_from buffer scan size_double; Ok (double_of b, (scan + size_double)%nat).
Definition get_int (buffer : list Z) (scan : nat) : outcome (Z * nat) :=
  do b <- memcpy_from buffer scan size_int; Ok (int_of b, (scan + size_int)%nat).
(** The loop body, 664-697 *)
Definition unserialize_face (buffer : list Z) (scan : nat) : outcome (wire_face * nat) :=
  do a <- get_double buffer scan; let '(c1x, scan) := a in
  do a <- get_double buffer scan; let '(c1y, scan) := a in
  do a <- get_double buffer scan; let '(c1z, scan) := a in
  do a <- get_double buffer scan; let '(c2x, scan) := a in
  do a <- get_double buffer scan; let '(c2y, scan) := a in
  do a <- get_double buffer scan; let '(c2z, scan) := a in
  do a <- get_double buffer scan; let '(c3x, scan) := a in
  do a <- get_double buffer scan; let '(c3y, scan) := a in
  do a <- get_double buffer scan; let '(c3z, scan) := a in
  do a <- get_double buffer scan; let '(len, scan) := a in
  do a <- get_int buffer scan; let '(gid, scan) := a in
  do a <- get_int buffer scan; let '(n1, scan) := a in
  do a <- get_int buffer scan; let '(n2, scan) := a in
  do a <- get_int buffer scan; let '(f1, scan) := a in
  do a <- get_int buffer scan; let '(f2, scan) := a in
  do a <- get_int buffer scan; let '(f3, scan) := a in
  do a <- get_int buffer scan; let '(f4, scan) := a in
  Ok (WF c1x c1y c1z c2x c2y c2z c3x c3y c3z len gid n1 n2 f1 f2 f3 f4, scan).
(** UnserializeContactFaces, 646-702: the members read, per entity *)
Fixpoint unserialize_from (n : nat) (buffer : list Z) (scan : nat) : outcome (list wire_face) :=
  match n with
  | O => Ok []
  | S n => do r <- unserialize_face buffer scan; do l <- unserialize_from n buffer (snd r); Ok (fst r :: l)
  end.
Definition unserialize_faces (num_entities : nat) (buffer : list Z) : outcome (list wire_face) :=
  if Nat.eqb (length buffer) 0 then UB else unserialize_from num_entities buffer 0.
(** The entity made from the members read (650-662 and SetBoundingBox, 698-699); [real] is the value
    of a bit pattern.  num_nodes_, type and the zero forces are set before the loop, everything else
    keeps its default. *)
Definition received_entity (real : Z -> R) (w : wire_face) : entity :=
  let d := default_entity in
  set_bounding_box (Entity TRIANGLE 3
    (mkV3 (real (coord_1_x_ w)) (real (coord_1_y_ w)) (real (coord_1_z_ w)))
    (mkV3 (real (coord_2_x_ w)) (real (coord_2_y_ w)) (real (coord_2_z_ w)))
    (mkV3 (real (coord_3_x_ w)) (real (coord_3_y_ w)) (real (coord_3_z_ w)))
    vzero vzero vzero (inflation_factor d) (real (w_char_len_ w)) (bounding_box_min d) (bounding_box_max d) (centroid_ d)
    (Z.to_nat (w_node_1_ w)) (Z.to_nat (w_node_2_ w))
    [Z.to_nat (w_fict_1_ w); Z.to_nat (w_fict_2_ w); Z.to_nat (w_fict_3_ w); Z.to_nat (w_fict_4_ w)]
    (w_global_id_ w) (local_id_ d) (contact_status_ d)).
