(** What the results file of the device code holds: the columns asked for by the request string and
    their numbers, in terms of the contents of the fields. *)
From Coq Require Import Reals.
From Verif Require Import Base Strings DataModel Loops TensorModel TensorSpec ElementModel ElementSpec InputModel KokkosModel KokkosSpec3 KokkosOutModel.
Set Implicit Arguments.
Local Open Scope nat_scope.
Local Open Scope list_scope.
Local Notation length := List.length.

(** the numbers behind a view *)
Definition held (h : heap) (v : view) : list R := nth (v_id v) h [].
(** the views of a field at the nodes (on the host), on the elements (on the host), at the integration
    points (on the device, new step) *)
Definition node_field (tb : tables) (k : kind) (label : chars) : option view :=
  match get_field_id tb label with Ok f => match host_node tb k (Some f) with Ok v => Some v | _ => None end | _ => None end.
Definition element_field (tb : tables) (k : kind) (block : nat) (label : chars) : option view :=
  match get_field_id tb label with Ok f => match host_elem tb k block (Some f) with Ok v => Some v | _ => None end | _ => None end.
Definition point_field (tb : tables) (k : kind) (block : nat) (label : chars) : option view :=
  match get_field_id tb label with Ok f => match dev_ipt tb k block (Some f) STEP_NP1 with Ok v => Some v | _ => None end | _ => None end.

(** A word of the request: "ipt", a digit that is ignored, a number of at most two characters (read
    from character 4 on), and from character 6 on the field; any other word is a field. *)
Inductive request := Mean (field : chars) | AtPoint (field : chars) (number : Z).
Definition meaning (word : chars) : request :=
  if chars_eqb (firstn 3 word) (lit "ipt")
  then AtPoint (skipn 6 word) (match atoi (firstn 2 (skipn 4 word)) with Ok z => z | _ => 0%Z end)
  else Mean word.
(** the corners of element e, from the reference coordinates and displacements of its nodes *)
Definition corners_of (x u : list R) (e : nat) : nat -> nat -> R := fun n i => (nth (e * 24 + (3 * n + i)) x 0 + nth (e * 24 + (3 * n + i)) u 0)%R.
(** the mean of component c over the element, weighted by the volume at the points *)
Definition mean_of (w c : nat) (x u data : list R) (e : nat) : R :=
  (Rsum 8 (fun q => nth (e * (8 * w) + (w * q + c)) data 0 * mdet (jac (corners_of x u e) q)) / element_volume (corners_of x u e))%R.
Definition sym_names : list (chars * nat) := [(lit "_xx", 0); (lit "_yy", 1); (lit "_zz", 2); (lit "_xy", 3); (lit "_yz", 4); (lit "_zx", 5)].
Definition full_names : list (chars * nat) :=
  [(lit "_xx", 0); (lit "_yy", 1); (lit "_zz", 2); (lit "_xy", 3); (lit "_yz", 4); (lit "_zx", 5); (lit "_yx", 6); (lit "_zy", 7); (lit "_xz", 8)].

Section Columns.
  Variables (tb : tables) (h : heap).
  (** columns at the nodes *)
  Definition scalar_column (word : chars) : list (chars * list R) :=
    match node_field tb KScalarNode word with
    | Some v => [(word, map (fun i => nth i (held h v) 0%R) (seq 0 (v_extent v)))]
    | None => []
    end.
  Definition vector_columns (word : chars) : list (chars * list R) :=
    match node_field tb KVectorNode word with
    | Some v => map (fun s => (word ++ fst s, map (fun i => nth (i * 3 + snd s) (held h v) 0%R) (seq 0 (v_extent v))))
                    [(lit "_x", 0); (lit "_y", 1); (lit "_z", 2)]
    | None => []
    end.
  Definition node_columns (words : list chars) : list (chars * list R) := flat_map scalar_column words ++ flat_map vector_columns words.
  (** columns of a block of n elements *)
  Variables (block n : nat) (x u : list R).
  Definition volume_column (word : chars) : list (chars * list R) :=
    if chars_eqb word (lit "volume") then [(word, map (fun e => element_volume (corners_of x u e)) (seq 0 n))] else [].
  (** the number of a point is 1, ..., 8; with 0 nothing is computed and the element field of that
      name is shown as it is *)
  Definition tensor_columns (kp ke : kind) (w : nat) (names : list (chars * nat)) (word : chars) : list (chars * list R) :=
    match meaning word with
    | Mean f => match point_field tb kp block f with
                | Some v => map (fun s => (word ++ fst s, map (mean_of w (snd s) x u (held h v)) (seq 0 n))) names
                | None => []
                end
    | AtPoint f p => match point_field tb kp block f with
                     | Some v => map (fun s => (word ++ fst s,
                         map (fun e => if (p =? 0)%Z
                                       then match element_field tb ke block word with Some v => nth (e * w + snd s) (held h v) 0%R | None => 0%R end
                                       else nth (e * (8 * w) + (w * (Z.to_nat p - 1) + snd s)) (held h v) 0%R) (seq 0 n))) names
                     | None => []
                     end
    end.
  Definition block_columns (words : list chars) : list (chars * list R) :=
    flat_map volume_column words ++ flat_map (tensor_columns KSymIntPt KSymElem 6 sym_names) words ++
    flat_map (tensor_columns KFullIntPt KFullElem 9 full_names) words.
End Columns.

(** The elements of the block can be measured: no element is turned inside out at a point. *)
Definition all_shaped (n : nat) (x u : list R) : Prop := forall e, e < n -> well_shaped (corners_of x u e).
(** What writing needs of a block: an element field of the right type behind every column, well-shaped
    elements for volumes and means, and the number of a point (0, or 1, ..., 8) *)
Definition computable (tb : tables) (block n : nat) (x u : list R) (words : list chars) : Prop := forall w, In w words ->
  (w = lit "volume" -> element_field tb KScalarElem block w <> None /\ all_shaped n x u) /\
  forall kp ke, kp = KSymIntPt /\ ke = KSymElem \/ kp = KFullIntPt /\ ke = KFullElem ->
    match meaning w with
    | Mean f => point_field tb kp block f <> None -> element_field tb ke block f <> None /\ all_shaped n x u
    | AtPoint f p => point_field tb kp block f <> None -> element_field tb ke block w <> None /\ (n = 0 \/ (0 <= p <= 8)%Z)
    end.

(** A device object: its fields come from the allocations [l], with one entry per element for those
    of a block; each block has work arrays with the coordinates and displacements of the corners of
    its elements, in memory of their own.  The contents of all of them are arbitrary. *)
Record device_object (l : list alloc) (d : kdata) : Prop := {
  do_accept : Forall acceptable l;
  do_sizes : forall a id b, In a l -> In (id, b) (kd_blocks d) -> al_home a = OnElements id \/ al_home a = AtPoints id -> al_n a = mb_num_elem (kb_mesh b);
  do_ids : map fst (tb_iidx (kd_tables d)) = map fst (kd_blocks d);
  do_nodup : NoDup (map fst (kd_blocks d));
  do_memory : exists h0 rs, allocate_all (kd_same d) l = Ok ((kd_tables d, h0), rs) /\
    (forall g x, nth_error h0 g = Some x -> exists y, nth_error (kd_heap d) g = Some y /\ length y = length x) /\
    forall i id b, nth_error (kd_blocks d) i = Some (id, b) -> exists vr vu xr xu,
      nth_error (kd_gref d) i = Some vr /\ nth_error (kd_gdisp d) i = Some vu /\ length h0 <= v_id vr /\ length h0 <= v_id vu /\
      nth_error (kd_heap d) (v_id vr) = Some xr /\ nth_error (kd_heap d) (v_id vu) = Some xu /\
      length xr = mb_num_elem (kb_mesh b) * 24 /\ length xu = mb_num_elem (kb_mesh b) * 24
}.
(** After InitializeExodusOutput: any change of the contents of the memory, and writing results. *)
Inductive session (out : chars) (d0 : kdata) : kdata -> omgr -> Prop :=
| se_start d m : initialize_exodus_output out d0 = Ok (d, m) -> session out d0 d m
| se_change d m h : session out d0 d m -> map (@length R) h = map (@length R) (kd_heap d) -> session out d0 (with_heap d h) m
| se_write d m sched d' m' o : session out d0 d m -> valid_sched sched -> write_exodus_output sched d m = Ok (d', m', o) -> session out d0 d' m'.
