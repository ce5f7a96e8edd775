(** Property theorems C08 (serialization).  Model: SerialModel.v.  Non-vacuity:
    ex_serial_typed in SerialProofs.v. *)
From Verif Require Import Base SerialModel SerialProofs.
From Coq Require Import NArith.
Local Open Scope nat_scope.

(** C08: for every type built from PODs, pairs, vectors and arrays and every value of it, into
    a vector of any element size with any previous contents, packing succeeds without writing
    out of bounds, returns the announced size, and unpacking returns the value. *)
Theorem C08_pack_unpack_round_trip :
  forall t v d vect, supported t = true -> has_type t v -> 0 < d ->
    exists buf, pack_vec t v d vect = Ok (buf, size t v) /\ unpack_vec t buf = Ok v.
Proof. exact pack_vec_spec. Qed.
Print Assumptions C08_pack_unpack_round_trip.

Theorem C08_pack_avoid_resize_round_trip :
  forall t v d vect, supported t = true -> has_type t v -> 0 < d ->
    exists buf, pack_avoid_resize t v d vect = Ok (buf, size t v) /\ unpack_vec t buf = Ok v.
Proof. exact pack_avoid_resize_spec. Qed.
Print Assumptions C08_pack_avoid_resize_round_trip.

(** At any position of any buffer with room for the announced size: exactly the announced
    bytes are written and later consumed, and no other byte changes (so that values can be
    packed one after the other). *)
Theorem C08_exact_extent :
  forall t v buf pos, supported t = true -> has_type t v -> pos + size t v <= length buf ->
    exists buf', pack t v (buf, pos) = Ok (buf', pos + size t v) /\
      unpack t (buf', pos) = Ok (v, (buf', pos + size t v)) /\
      length buf' = length buf /\
      (forall i, i < pos \/ pos + size t v <= i -> nth_error buf' i = nth_error buf i).
Proof. exact pack_at_spec. Qed.
Print Assumptions C08_exact_extent.
