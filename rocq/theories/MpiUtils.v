(** Model of further MPI helpers: PackIDSpace, GroupConsecutive, mpicontext::gather,
    arrayview_t.  Sources: src/nimble.mpi.reduction_utils.{h,cc}, src/nimble.mpi.mpicontext.h,
    src/nimble.quanta.arrayview.h. *)
From Verif Require Import Base ListLemmas.
Local Open Scope Z_scope.

(** ** PackIDSpace (nimble.mpi.reduction_utils.cc 51-94) *)

(** State on the root: std::map<int,int> lookup and sane_node_id. *)
Definition pack_state := (list (Z * Z) * Z)%type.

(** lines 61-64 and 72-76: number an id that has not been seen before. *)
Definition pack_number (s : pack_state) (node : Z) : pack_state :=
  let '(lookup, next) := s in
  match assoc Z.eqb node lookup with
  | Some _ => s
  | None => ((node, next) :: lookup, next + 1)
  end.

(** lines 71-77: the loop over a received buffer, which is overwritten in place. *)
Fixpoint pack_buffer (s : pack_state) (buffer : list Z) : pack_state * list Z :=
  match buffer with
  | [] => (s, [])
  | node :: rest =>
      let s' := pack_number s node in
      let v := match assoc Z.eqb node (fst s') with Some v => v | None => 0 end in
      let '(s'', out) := pack_buffer s' rest in
      (s'', v :: out)
  end.

(** lines 66-79: the loop over the other ranks; a message longer than the receive buffer
    (max_nodes_assigned_to_a_rank) is an MPI truncation error, line 70: NIMBLE_ABORT. *)
Fixpoint pack_ranks (maxlen : nat) (s : pack_state) (others : list (list Z))
  : outcome (pack_state * list (list Z)) :=
  match others with
  | [] => Ok (s, [])
  | l :: rest =>
      if (maxlen <? length l)%nat then Abort
      else let '(s', out) := pack_buffer s l in
           do r <- pack_ranks maxlen s' rest;
           Ok (fst r, out :: snd r)
  end.

(** PackIDSpace on all ranks together: the new ids returned on each rank. *)
Definition pack_id_space (maxlen : nat) (ids_by_rank : list (list Z)) : outcome (list (list Z)) :=
  match ids_by_rank with
  | [] => Ok []
  | root :: others =>
      let s := fold_left pack_number root ([], 0) in
      do r <- pack_ranks maxlen s others;
      (* lines 80-86: the root translates its own ids with the final table *)
      let look := fun node => match assoc Z.eqb node (fst (fst r)) with Some v => v | None => 0 end in
      Ok (map look root :: snd r)
  end.

(** ** GroupConsecutive (nimble.mpi.reduction_utils.h 78-118) *)
Section Group.
  Context {K V : Type} (keqb : K -> K -> bool).

  (** lines 86-93: consecutive key ids. *)
  Fixpoint key_ids_from (group_key : K) (max_key_id : nat) (l : list (K * V)) : list nat * nat :=
    match l with
    | [] => ([], max_key_id)
    | (k, _) :: l =>
        let m := if keqb k group_key then max_key_id else S max_key_id in
        let '(ids, top) := key_ids_from k m l in
        (m :: ids, top)
    end.

  (** lines 99-115: the loop with group_size and prev_key_id, i from 1 to lst_size. *)
  Fixpoint group_loop (lst : list (K * V)) (key_ids : list nat) (todo i : nat)
           (prev_key_id group_size : nat) (groups : list (K * list V))
    : outcome (list (K * list V)) :=
    match todo with
    | 0%nat => Ok groups
    | S todo =>
        do kid <- vget key_ids i;
        if (kid =? prev_key_id)%nat then
          group_loop lst key_ids todo (S i) prev_key_id (S group_size) groups
        else
          do e <- vget lst (i - 1);
          let vals := map snd (firstn group_size (skipn (i - group_size) lst)) in
          group_loop lst key_ids todo (S i) kid 1 (groups ++ [(fst e, vals)])
    end.

  Definition group_consecutive (lst : list (K * V)) : outcome (list (K * list V)) :=
    match lst with
    | [] => Ok []
    | (k0, _) :: _ =>
        let '(ids, top) := key_ids_from k0 0 lst in
        group_loop lst (ids ++ [S top]) (length lst) 1 0 1 []
    end.
End Group.

(** ** mpicontext::gather, step 3 (nimble.mpi.mpicontext.h 181-188) on the root:
    [destination] is the concatenation of the ranks' contributions. *)
Fixpoint gather_split {A} (destination : list A) (recv_counts : list nat) (start stop : nat)
  : list (list A) :=
  match recv_counts with
  | [] => []
  | c :: counts => firstn (stop - start) (skipn start destination)
                     :: gather_split destination counts stop (stop + c)
  end.
Definition gather {A} (contributions : list (list A)) : list (list A) :=
  let counts := map (@length A) contributions in
  gather_split (concat contributions) counts 0 (hd 0%nat counts).

(** ** arrayview_t (nimble.quanta.arrayview.h 55-70): a base address and a count; addresses are
    byte addresses, [size] is sizeof(T). *)
Record arrayview := AV { av_addr : Z; av_count : Z }.
(** line 63 *)
Definition av_start_count (size addr start count : Z) : arrayview := AV (addr + start * size) count.
(** line 65: count((size_t)end - (size_t)begin) subtracts byte addresses. *)
Definition av_begin_end (size begin_ end_ : Z) : arrayview := AV begin_ (end_ - begin_).
Definition av_end (size : Z) (v : arrayview) : Z := av_addr v + av_count v * size.
