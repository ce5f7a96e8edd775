(** Model of the contact skin: SkinBlocks and RemoveInternalSkinFaces (nimble_contact_manager.cc).
    C++ ints are Z; where a value could leave the range of int the model returns UB. *)
From Verif Require Import Base.
Set Implicit Arguments.
Local Open Scope Z_scope.

(** What SkinBlocks reads of one block: mesh.GetNumElementsInBlock, GetNumNodesPerElement,
    GetConnectivity, GetElementGlobalIdsInBlock (nimble_contact_manager.cc 800-803). *)
Record hex_block := HexBlock { hb_num_elem : nat; hb_num_node_per_elem : nat; hb_conn : list Z; hb_global_ids : list Z }.
(** The value of the face map, nimble_contact_manager.cc 809-810: count, unsorted nodes, element, ordinal *)
Record face_value := FV { fv_count : Z; fv_nodes : list Z; fv_elem : Z; fv_ordinal : Z }.

(** std::vector<int> operator<, the order of std::map<std::vector<int>, _> *)
Fixpoint lex_lt (a b : list Z) : bool :=
  match a, b with
  | _, [] => false
  | [], _ :: _ => true
  | x :: a, y :: b => (x <? y) || ((x =? y) && lex_lt a b)
  end.
Fixpoint key_eqb (a b : list Z) : bool :=
  match a, b with
  | [], [] => true
  | x :: a, y :: b => (x =? y) && key_eqb a b
  | _, _ => false
  end.
(** m[k] = v on a std::map: pairs in increasing key order *)
Fixpoint kmap_put {V} (k : list Z) (v : V) (m : list (list Z * V)) : list (list Z * V) :=
  match m with
  | [] => [(k, v)]
  | (k', v') :: m' => if lex_lt k k' then (k, v) :: m
                      else if key_eqb k k' then (k, v) :: m'
                      else (k', v') :: kmap_put k v m'
  end.

(** The six faces in the order and node order of nimble_contact_manager.cc 820-908 *)
Definition face_corners : list (Z * list nat) :=
  [(0, [0; 1; 5; 4]%nat); (1, [1; 2; 6; 5]%nat); (2, [2; 3; 7; 6]%nat);
   (3, [0; 4; 7; 3]%nat); (4, [0; 3; 2; 1]%nat); (5, [4; 5; 6; 7]%nat)].
(** One of the six identical statement groups, e.g. 820-832.  std::sort of four ints. *)
Definition add_face (conn : list Z) (conn_index : nat) (elem_global_id : Z) (faces : list (list Z * face_value)) (f : Z * list nat)
  : outcome (list (list Z * face_value)) :=
  let '(ordinal, corners) := f in
  do nodes <- omapM (fun c => vget conn (conn_index + c)) corners;
  let value := FV 1 nodes elem_global_id ordinal in
  let key := isort Z.leb nodes in
  Ok (match assoc key_eqb key faces with
      | None => kmap_put key value faces
      | Some v => kmap_put key (FV (fv_count v + 1) (fv_nodes v) (fv_elem v) (fv_ordinal v)) faces
      end).
(** The element loop of a block, 812-911; conn_index is i_elem * num_node_per_elem (805, 910) *)
Definition skin_block (faces : list (list Z * face_value)) (b : hex_block) : outcome (list (list Z * face_value)) :=
  ofold (fun faces i_elem =>
           do gid <- vget (hb_global_ids b) i_elem;
           ofold (add_face (hb_conn b) (i_elem * hb_num_node_per_elem b) (gid + 1)) face_corners faces)
        (seq 0 (hb_num_elem b)) faces.
(** int arithmetic of the entity id, 924-929; a result outside int (or a shifted negative number)
    is undefined behaviour *)
Definition INT_LIMIT : Z := 2147483648.
Definition entity_id_of (v : face_value) (entity_id_offset : Z) : outcome Z :=
  let e := fv_elem v + entity_id_offset in
  if (0 <=? e) && (e * 32 <? INT_LIMIT) then
    Ok (Z.lor (Z.lor (Z.shiftl e 5) (Z.shiftl (fv_ordinal v) 2)) 0)
  else UB.
(** SkinBlocks, nimble_contact_manager.cc 787-934: skin_faces and entity_ids *)
Definition skin_blocks (blocks : list hex_block) (entity_id_offset : Z) : outcome (list (list Z) * list Z) :=
  do faces <- ofold skin_block blocks [];
  ofold (fun acc face =>
           let v := snd face in
           if fv_count v =? 1 then
             do id <- entity_id_of v entity_id_offset;
             Ok (fst acc ++ [fv_nodes v], snd acc ++ [id])
           else if negb (fv_count v =? 2) then Abort
           else Ok acc)
        faces ([], []).

(** Entity id of triangle [t] of a face, nimble_contact_manager.cc 1108-1109, 1131, 1154, 1177 *)
Definition triangle_entity_id (face_entity_id t : Z) : Z := Z.lor face_entity_id t.

(** ** RemoveInternalSkinFaces, nimble_contact_manager.cc 936-1041, on all ranks *)

(** What a rank starts with: its faces (local node ids), their entity ids and the local to global
    node map (mesh.GetNodeGlobalIds). *)
Record rank_input := RankInput { ri_faces : list (list Z); ri_ids : list Z; ri_global : list Z }.
(** Lines 954-955: fvec; the faces have four nodes *)
Definition global_key (global : list Z) (face : list Z) : outcome (list Z) :=
  do ids <- omapM (fun n => if n <? 0 then UB else vget global (Z.to_nat n)) face;
  Ok (isort Z.leb ids).
(** faceList.emplace, 957: the first index of a key is kept *)
Fixpoint first_index (k : list Z) (keys : list (list Z)) (i : nat) : option nat :=
  match keys with [] => None | k' :: keys => if key_eqb k k' then Some i else first_index k keys (S i) end.

(** The ring exchange.  Each rank runs, for shift = 1 .. num_ranks - 1, two MPI_Sendrecv calls (968-996):
    the number of ints, then the ints.  A Sendrecv is two steps here: the message is posted (the
    send is nonblocking inside Sendrecv), then the call waits for a message from its source.
    Messages between a pair of ranks arrive in the order sent; MPI_ANY_TAG takes the next one. *)
Record exchange_state := ES {
  es_shift : nat;              (* current shift *)
  es_stage : nat;              (* 0 post size, 1 receive size, 2 post ints, 3 receive ints *)
  es_recv_size : Z;
  es_hash : list bool;         (* remove_face_hash = remove_entity_ids_hash, 960-961, written together *)
  es_removals : nat;           (* iCountRemovals *)
  es_error : bool              (* MPI truncation error or out of range *) }.
Record world := World { w_ranks : list exchange_state; w_queue : nat -> nat -> list (list Z) }.

(** Lines 999-1010: the received ints in groups of four *)
Fixpoint groups_of_4 (n : nat) (l : list Z) : list (list Z) :=
  match n with O => [] | S n => firstn 4 l :: groups_of_4 n (skipn 4 l) end.
Definition mark (keys : list (list Z)) (acc : list bool * nat) (k : list Z) : list bool * nat :=
  match first_index k keys 0 with
  | Some i => (list_set (fst acc) i true, S (snd acc))
  | None => acc
  end.
(** One step of rank r; None when the rank is waiting or finished.  [keys] are the sorted global
    faces of this rank (face_global_ids is their concatenation). *)
Definition rank_exchange_step (n : nat) (keys : list (list Z)) (r : nat) (queue : nat -> nat -> list (list Z)) (s : exchange_state)
  : option (exchange_state * (nat -> nat -> list (list Z))) :=
  let target := ((r + es_shift s) mod n)%nat in
  let source := ((r + n - es_shift s) mod n)%nat in
  let push m := fun a b => if ((a =? r) && (b =? target))%nat then queue a b ++ [m] else queue a b in
  let pop := fun a b => if ((a =? source) && (b =? r))%nat then tl (queue a b) else queue a b in
  if (es_error s || (n <=? es_shift s)%nat) then None else
  match es_stage s with
  | 0%nat => Some (ES (es_shift s) 1 (es_recv_size s) (es_hash s) (es_removals s) false, push [Z.of_nat (length (concat keys))])
  | 1%nat => match queue source r with
             | [] => None
             | [size] :: _ => Some (ES (es_shift s) 2 size (es_hash s) (es_removals s) false, pop)
             | _ :: _ => Some (ES (es_shift s) 2 0 (es_hash s) (es_removals s) true, pop)
             end
  | 2%nat => Some (ES (es_shift s) 3 (es_recv_size s) (es_hash s) (es_removals s) false, push (concat keys))
  | _ => match queue source r with
         | [] => None
         | buf :: _ =>
             if Z.of_nat (length buf) =? es_recv_size s then
               let acc := fold_left (mark keys) (groups_of_4 (Z.to_nat (es_recv_size s) / 4) buf) (es_hash s, es_removals s) in
               Some (ES (S (es_shift s)) 0 (es_recv_size s) (fst acc) (snd acc) false, pop)
             else Some (ES (es_shift s) 3 0 (es_hash s) (es_removals s) true, pop)
         end
  end.
Definition world_step (keys : list (list (list Z))) (w : world) (r : nat) : world :=
  match nth_error (w_ranks w) r with
  | Some s => match rank_exchange_step (length keys) (nth r keys []) r (w_queue w) s with
              | Some (s', q') => World (list_set (w_ranks w) r s') q'
              | None => w
              end
  | None => w
  end.
Definition start_world (keys : list (list (list Z))) : world :=
  World (map (fun k => ES 1 0 0 (repeat false (length k)) 0 false) keys) (fun _ _ => []).
(** A schedule says which rank moves next. *)
Definition run_exchange (keys : list (list (list Z))) (schedule : list nat) : world :=
  fold_left (world_step keys) schedule (start_world keys).

(** Lines 1017-1038: the rank's result from its flags *)
Fixpoint keep {A} (hash : list bool) (l : list A) : list A :=
  match hash, l with
  | h :: hash, a :: l => if h then keep hash l else a :: keep hash l
  | _, _ => []
  end.
Definition rank_result (inp : rank_input) (s : exchange_state) : list (list Z) * list Z :=
  if (es_removals s =? 0)%nat then (ri_faces inp, ri_ids inp)
  else (keep (es_hash s) (ri_faces inp), keep (es_hash s) (ri_ids inp)).
(** The whole call on all ranks for a schedule: None while some rank has not returned *)
Definition remove_internal_skin_faces (inputs : list rank_input) (schedule : list nat) : outcome (option (list (list (list Z) * list Z))) :=
  do keys <- omapM (fun inp => omapM (global_key (ri_global inp)) (ri_faces inp)) inputs;
  let w := run_exchange keys schedule in
  if existsb es_error (w_ranks w) then UB else
  if forallb (fun s => (length keys <=? es_shift s)%nat) (w_ranks w)
  then Ok (Some (map (fun p => rank_result (fst p) (snd p)) (combine inputs (w_ranks w))))
  else Ok None.
