(** Model of src/nimble.mpi.serialization.h.  Buffers are byte lists with a write/read position
    (the char*& the code advances); touching bytes past the end of the buffer is UB. *)
From Verif Require Import Base ListLemmas.
From Coq Require Import NArith.
Local Open Scope nat_scope.
Local Open Scope list_scope.

(** A byte is a number below 256. *)
Definition byte := N.

(** Types the templates can be instantiated with.  POD n: a trivially copyable type of n bytes;
    an array of PODs (or of such arrays) is itself copied with memcpy.  Pointers
    (serial<T*>, lines 112-149, and arrays of pointers, 259-277) forward to the pointee and are
    not modelled separately; an array whose elements are memcpy-able std::pairs (where memcpy
    would copy padding) is not modelled, see [supported]. *)
Inductive ty := Pod (n : nat) | Pair (a b : ty) | Vec (a : ty) | Arr (n : nat) (a : ty).

(** Values: object representation of a POD, pairs, sequences. *)
Inductive val := VPod (bytes : list byte) | VPair (a b : val) | VSeq (l : list val).

(** meta<T>::mem, lines 57-81. *)
Fixpoint mem (t : ty) : bool :=
  match t with Pod _ => true | Pair a b => mem a && mem b | Vec _ => false | Arr _ a => mem a end.

(** sizeof for the memcpy-ed types (PODs and arrays of them). *)
Fixpoint sizeof (t : ty) : nat :=
  match t with Pod n => n | Arr n a => n * sizeof a | _ => 0 end.

(** The array types modelled: elements are PODs, arrays of PODs, or not memcpy-able. *)
Fixpoint plain (t : ty) : bool := match t with Pod _ => true | Arr _ a => plain a | _ => false end.
Fixpoint supported (t : ty) : bool :=
  match t with
  | Pod _ => true
  | Pair a b => supported a && supported b
  | Vec a => supported a
  | Arr _ a => supported a && (plain a || negb (mem a))
  end.

Fixpoint has_type (t : ty) (v : val) {struct t} : Prop :=
  match t, v with
  | Pod n, VPod bs => length bs = n
  | Pair a b, VPair x y => has_type a x /\ has_type b y
  | Vec a, VSeq l => (N.of_nat (length l) < 2 ^ 64)%N /\ Forall (has_type a) l
  | Arr n a, VSeq l => length l = n /\ Forall (has_type a) l
  | _, _ => False
  end.

Definition buffer := (list byte * nat)%type.

(** memcpy(dest, src, n); dest += n (lines 99-104). *)
Definition put (bs : list byte) (b : buffer) : outcome buffer :=
  let '(buf, pos) := b in
  if pos + length bs <=? length buf
  then Ok (firstn pos buf ++ bs ++ skipn (pos + length bs) buf, pos + length bs)
  else UB.
(** memcpy(dest, src, n); src += n (lines 105-110). *)
Definition get (n : nat) (b : buffer) : outcome (list byte * buffer) :=
  let '(buf, pos) := b in
  if pos + n <=? length buf then Ok (firstn n (skipn pos buf), (buf, pos + n)) else UB.

(** size_t on the little-endian 64-bit targets. *)
Fixpoint le_bytes (k : nat) (n : N) : list byte :=
  match k with 0 => [] | S k => (n mod 256)%N :: le_bytes k (n / 256) end.
Fixpoint le_value (bs : list byte) : N :=
  match bs with [] => 0%N | b :: bs => (b + 256 * le_value bs)%N end.
Definition sizeof_size_t := 8.

(** serial_t<T>::size, lines 94-98, 153-157, 174-178, 195-201, 220-224, 243-247, 281-287.
    For vectors of memcpy-able elements the code multiplies the size of element 0 by the
    count; the element size depends on the type only, so reading it through vect[0] (a reference
    that is never dereferenced) is modelled as the size of the type. *)
Fixpoint fixed_size (t : ty) : nat :=
  match t with
  | Pod n => n
  | Pair a b => fixed_size a + fixed_size b
  | Arr n a => sizeof (Arr n a)
  | Vec _ => 0
  end.
Fixpoint size (t : ty) (v : val) {struct t} : nat :=
  match t, v with
  | Pod n, _ => n
  | Pair a b, VPair x y => size a x + size b y
  | Vec a, VSeq l =>
      if mem a then fixed_size a * length l + sizeof_size_t
      else fold_left (fun acc e => acc + size a e) l 0 + sizeof_size_t
  | Arr n a, VSeq l =>
      if mem a then sizeof (Arr n a) else fold_left (fun acc e => acc + size a e) l 0
  | _, _ => 0
  end.

(** Object representation of a memcpy-ed value. *)
Fixpoint flat (v : val) : list byte :=
  match v with VPod bs => bs | VSeq l => concat (map flat l) | VPair a b => flat a ++ flat b end.

(** serial_t<T>::pack, lines 99-104, 158-163, 179-184, 202-207, 225-230, 248-252, 288-292. *)
Fixpoint pack (t : ty) (v : val) (b : buffer) {struct t} : outcome buffer :=
  match t, v with
  | Pod n, VPod bs => put bs b
  | Pair a c, VPair x y => do b1 <- pack a x b; pack c y b1
  | Vec a, VSeq l =>
      do b1 <- put (le_bytes 8 (N.of_nat (length l))) b;
      ofold (fun b e => pack a e b) l b1
  | Arr n a, VSeq l =>
      if mem a then put (flat v) b else ofold (fun b e => pack a e b) l b
  | _, _ => UB
  end.

(** reading n values one after the other *)
Fixpoint unpack_n (f : buffer -> outcome (val * buffer)) (n : nat) (b : buffer)
  : outcome (list val * buffer) :=
  match n with
  | 0 => Ok ([], b)
  | S n => do r <- f b; do q <- unpack_n f n (snd r); Ok (fst r :: fst q, snd q)
  end.
(** rebuilding a memcpy-ed value from its bytes *)
Fixpoint unflat (t : ty) (bs : list byte) {struct t} : val :=
  match t with
  | Arr n a => VSeq (map (fun i => unflat a (firstn (sizeof a) (skipn (i * sizeof a) bs))) (seq 0 n))
  | _ => VPod bs
  end.

(** serial_t<T>::unpack, lines 105-110, 164-169, 185-190, 208-215, 231-238, 253-257, 293-297. *)
Fixpoint unpack (t : ty) (b : buffer) {struct t} : outcome (val * buffer) :=
  match t with
  | Pod n => do r <- get n b; Ok (VPod (fst r), snd r)
  | Pair a c => do r <- unpack a b; do q <- unpack c (snd r); Ok (VPair (fst r) (fst q), snd q)
  | Vec a =>
      do r <- get 8 b;
      do q <- unpack_n (unpack a) (N.to_nat (le_value (fst r))) (snd r);
      Ok (VSeq (fst q), snd q)
  | Arr n a =>
      if mem a then do r <- get (sizeof (Arr n a)) b; Ok (unflat (Arr n a) (fst r), snd r)
      else do q <- unpack_n (unpack a) n b; Ok (VSeq (fst q), snd q)
  end.

(** vector<dataT>::resize(n) on the byte image of the vector (d = sizeof(dataT)); new elements
    are value-initialised. *)
Definition vresize (d : nat) (bytes : list byte) (n : nat) : list byte :=
  firstn (n * d) bytes ++ repeat 0%N (n * d - length bytes).

(** pack(object, vect), lines 299-309: returns the size. *)
Definition pack_vec (t : ty) (v : val) (d : nat) (vect : list byte) : outcome (list byte * nat) :=
  let sz := size t v in
  do b <- pack t v (vresize d vect (sz / d + 1), 0);
  Ok (fst b, sz).
(** pack_avoid_resize, lines 311-321 (compares bytes with the number of elements). *)
Definition pack_avoid_resize (t : ty) (v : val) (d : nat) (vect : list byte) : outcome (list byte * nat) :=
  let sz := size t v in
  let vect' := if length vect / d <? sz then vresize d vect (sz / d + 1) else vect in
  do b <- pack t v (vect', 0);
  Ok (fst b, sz).
(** unpack(object, vect), lines 323-330. *)
Definition unpack_vec (t : ty) (vect : list byte) : outcome val :=
  do r <- unpack t (vect, 0); Ok (fst r).
