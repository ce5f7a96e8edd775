(** Model of src/nimble_tpetra_utils.{h,cc}: sums over the ranks and the tangent matrix by Tpetra.
    All ranks make the same calls; they are modelled together, rank by rank where a call is local.
    Tpetra itself is not modelled: Section Library states what its calls do, with everything the
    documentation leaves open (orders) as a parameter.  Ordinals are unbounded integers. *)
From Coq Require Import Reals.
From Verif Require Import Base Loops DataModel MpiSpec.
Set Implicit Arguments.
Local Open Scope nat_scope.
Local Open Scope list_scope.

(** * What is used of Tpetra (trusted) *)
(** [tl_directory]: the order in which the ranks having an id are told to the tie break;
    [tl_order]: the order of the ids in a map made by createOneToOne; [tl_arrivals]: the order in which
    contributions of other ranks are added; [tl_keep]: whether doExport with ADD also adds to what
    the target had for ids present locally (false: they are replaced, as copyAndPermute does) *)
Record tlib := TLib { tl_directory : Z -> list (nat * nat) -> list (nat * nat); tl_order : nat -> list Z -> list Z;
                      tl_arrivals : nat -> Z -> list nat -> list nat; tl_keep : bool }.

(** A map is the list of ids of every rank, a vector the list of entries of every rank *)
Definition tmap := list (list Z).
Definition tvec := list (list R).
(** new Vector(map): zeros *)
Definition vec_new (m : tmap) : tvec := map (fun l => repeat 0%R (length l)) m.
(** the entry of rank [r] for an id *)
Definition entry (m : tmap) (v : tvec) (r : nat) (g : Z) : option R :=
  match index_of g (nth r m []) with Some i => nth_error (nth r v []) i | None => None end.
(** the ranks that have an id, with its local index *)
Definition pid_and_lid (m : tmap) (g : Z) : list (nat * nat) :=
  flat_map (fun r => match index_of g (nth r m []) with Some i => [(r, i)] | None => [] end) (seq 0 (length m)).
(** doExport(source, exporter, ADD) *)
Definition do_export_add (lib : tlib) (from to : tmap) (source target : tvec) : tvec :=
  map (fun r => map (fun gx =>
      let own := match entry from source r (fst gx) with
                 | Some v => if tl_keep lib then (snd gx + v)%R else v
                 | None => snd gx
                 end in
      fold_left (fun s q => match entry from source q (fst gx) with Some v => (s + v)%R | None => s end)
        (tl_arrivals lib r (fst gx) (filter (fun q => negb (q =? r)) (seq 0 (length from)))) own)
    (combine (nth r to []) (nth r target []))) (seq 0 (length to)).
(** doImport(source, importer, INSERT): the entry of the rank that has the id in the source; an id no
    rank has keeps its entry *)
Definition do_import_insert (from to : tmap) (source target : tvec) : tvec :=
  map (fun r => map (fun gx =>
      match flat_map (fun q => match entry from source q (fst gx) with Some v => [v] | None => [] end) (seq 0 (length from)) with
      | v :: _ => v
      | [] => snd gx
      end) (combine (nth r to []) (nth r target []))) (seq 0 (length to)).

(** * SimpleTieBreak::selectedIndex, nimble_tpetra_utils.h 122-135 *)
Definition selected_index (l : list (nat * nat)) : outcome nat :=
  do p0 <- vget l 0;
  do s <- oloop 0 (length l) (fun i (s : nat * nat) =>
      do p <- vget l i;
      Ok (if fst p <? snd s then (i, fst p) else s)) (0, fst p0);
  Ok (fst s).
(** createOneToOne(map, tie_break): every id goes to the rank selected among those having it *)
Definition owner (lib : tlib) (m : tmap) (g : Z) : outcome nat :=
  let l := tl_directory lib g (pid_and_lid m g) in
  do i <- selected_index l; do p <- vget l i; Ok (fst p).
Definition create_one_to_one (lib : tlib) (m : tmap) : outcome tmap :=
  omapM (fun r =>
    do own <- omapM (fun g => do o <- owner lib m g; Ok (g, o)) (nth r m []);
    Ok (tl_order lib r (map fst (filter (fun p => snd p =? r) own)))) (seq 0 (length m)).

(** * TpetraContainer *)
(** dim_, global_node_ids_ of every rank; vec_1d_, vec_1d_one_to_one_, vec_3d_, vec_3d_one_to_one_ with
    their maps (the exporters and importers are determined by the maps) *)
Record tpetra := TP { tp_dim : nat; tp_ids : list (list Z);
                      tp_map1 : tmap; tp_one1 : tmap; tp_vec1 : tvec; tp_vone1 : tvec;
                      tp_map3 : tmap; tp_one3 : tmap; tp_vec3 : tvec; tp_vone3 : tvec }.
(** Lines 77-78 and 90-94 on one rank with [n] nodes *)
Definition entries1 (n : nat) (ids : list Z) : outcome (list Z) := omapM (vget ids) (seq 0 n).
Definition entries3 (dim n : nat) (ids : list Z) : outcome (list Z) :=
  do l <- omapM (fun i => do g <- vget ids i; Ok (map (fun dof => (g * Z.of_nat dim + Z.of_nat dof)%Z) (seq 0 dim))) (seq 0 n);
  Ok (concat l).
(** Initialize, nimble_tpetra_utils.cc 60-106; [nodes]: the number of nodes given on every rank *)
Definition initialize (lib : tlib) (d : nat) (nodes : list nat) (ids : list (list Z)) : outcome tpetra :=
  do m1 <- omapM (fun p => entries1 (fst p) (snd p)) (combine nodes ids);
  do o1 <- create_one_to_one lib m1;
  do m3 <- omapM (fun p => entries3 d (fst p) (snd p)) (combine nodes ids);
  do o3 <- create_one_to_one lib m3;
  Ok (TP d ids m1 o1 (vec_new m1) (vec_new o1) m3 o3 (vec_new m3) (vec_new o3)).

(** Copying [n] numbers of an array into the entries of a vector on one rank: lines 255, 269-271 *)
Definition load (n : nat) (data : nat -> R) (v : list R) : outcome (list R) :=
  oloop 0 n (fun i v => vset v i (data i)) v.
(** ... and back: lines 262, 278-280 *)
Definition store (n : nat) (v : list R) (data : nat -> R) : outcome (nat -> R) :=
  oloop 0 n (fun i data => do x <- vget v i; Ok (upd data i x)) data.
(** VectorReduction(data_dimension, data), 245-284; [data]: the array given on every rank *)
Definition vector_reduction (lib : tlib) (t : tpetra) (data_dimension : nat) (data : list (nat -> R)) : outcome (tpetra * list (nat -> R)) :=
  if negb (data_dimension =? tp_dim t) then
    do v <- omapM (fun p => load (length (fst (fst p))) (snd (fst p)) (snd p)) (combine (combine (tp_ids t) data) (tp_vec1 t));
    let one := do_export_add lib (tp_map1 t) (tp_one1 t) v (tp_vone1 t) in
    let v := do_import_insert (tp_one1 t) (tp_map1 t) one v in
    do data <- omapM (fun p => store (length (fst (fst p))) (snd p) (snd (fst p))) (combine (combine (tp_ids t) data) v);
    Ok (TP (tp_dim t) (tp_ids t) (tp_map1 t) (tp_one1 t) v one (tp_map3 t) (tp_one3 t) (tp_vec3 t) (tp_vone3 t), data)
  else
    let num_dof := tp_dim t in
    do v <- omapM (fun p => load (length (fst (fst p)) * num_dof) (snd (fst p)) (snd p)) (combine (combine (tp_ids t) data) (tp_vec3 t));
    let one := do_export_add lib (tp_map3 t) (tp_one3 t) v (tp_vone3 t) in
    let v := do_import_insert (tp_one3 t) (tp_map3 t) one v in
    do data <- omapM (fun p => store (length (fst (fst p)) * num_dof) (snd p) (snd (fst p))) (combine (combine (tp_ids t) data) v);
    Ok (TP (tp_dim t) (tp_ids t) (tp_map1 t) (tp_one1 t) (tp_vec1 t) (tp_vone1 t) (tp_map3 t) (tp_one3 t) v one, data).
(** VectorReduction(model_data, label), 228-242, from the length of the field on *)
Definition field_reduction (lib : tlib) (t : tpetra) (len : length_t) (data : list (nat -> R)) : outcome (tpetra * list (nat -> R)) :=
  do n <- length_to_int len (tp_dim t);
  vector_reduction lib t n data.

(** * The tangent matrix on one rank *)
(** std::set::insert and std::map::operator[] in key order *)
Fixpoint zset_insert (x : Z) (s : list Z) : list Z :=
  match s with
  | [] => [x]
  | y :: s' => if (x <? y)%Z then x :: s else if (x =? y)%Z then s else y :: zset_insert x s'
  end.
Fixpoint row_insert (r c : Z) (m : list (Z * list Z)) : list (Z * list Z) :=
  match m with
  | [] => [(r, [c])]
  | (r', s) :: m' => if (r <? r')%Z then (r, [c]) :: m else if (r =? r')%Z then (r', zset_insert c s) :: m' else (r', s) :: row_insert r c m'
  end.
(** a block: number of elements, nodes per element, connectivity *)
Record tblock := TBlock { tbk_elem : nat; tbk_nodes : nat; tbk_conn : list nat }.
(** Lines 124-150 for one block *)
Definition block_nonzeros (dim : nat) (ids : list Z) (b : tblock) (m : list (Z * list Z)) : outcome (list (Z * list Z)) :=
  do s <- oloop 0 (tbk_elem b) (fun _ (s : list (Z * list Z) * nat) =>
    let '(m, conn_offset) := s in
    do m <- oloop 0 (tbk_nodes b) (fun i_node m =>
      do a <- vget (tbk_conn b) (conn_offset + i_node);
      do gi <- vget ids a;
      oloop 0 (tbk_nodes b) (fun j_node m =>
        do b' <- vget (tbk_conn b) (conn_offset + j_node);
        do gj <- vget ids b';
        Ok (floop 0 dim (fun i_dof m => floop 0 dim (fun j_dof m =>
              row_insert (gi * Z.of_nat dim + Z.of_nat i_dof)%Z (gj * Z.of_nat dim + Z.of_nat j_dof)%Z m) m) m)) m) m;
    Ok (m, conn_offset + tbk_nodes b)) (m, 0);
  Ok (fst s).
(** AllocateTangentStiffnessMatrix, 108-193, on one rank: the rows of the graph with their entries.
    insertGlobalIndices throws when the row has no room for the entries. *)
Definition allocate_tangent (dim : nat) (ids : list Z) (blocks : list tblock) : outcome (list (Z * list (Z * R))) :=
  do m <- ofold (fun m b => block_nonzeros dim ids b m) blocks [];
  let my_entries := isort Z.leb (map fst m) in
  do room <- omapM (fun e => match assoc Z.eqb e m with Some s => Ok (length s) | None => Throw end) my_entries;
  omapM (fun e => match index_of (fst e) my_entries with
                  | Some i => do n <- vget room i; if length (snd e) <=? n then Ok (fst e, map (fun c => (c, 0%R)) (snd e)) else Throw
                  | None => Throw
                  end) m.
(** TangentStiffnessMatrixNumNonzeros, 195-203 *)
Definition num_nonzeros (a : list (Z * list (Z * R))) : nat := fold_right (fun e n => length (snd e) + n) 0 a.
(** TangentStiffnessMatrixSetScalar, 205-211 *)
Definition set_scalar (a : list (Z * list (Z * R))) (x : R) : list (Z * list (Z * R)) := map (fun e => (fst e, map (fun c => (fst c, x)) (snd e))) a.
(** CrsMatrix::sumIntoLocalValues: the number of columns that were found in the row, None (invalid)
    when there is no such row; local indices are positions in the row map *)
Definition sum_into_local (a : list (Z * list (Z * R))) (row : nat) (cols : list nat) (vals : list R) : option nat * list (Z * list (Z * R)) :=
  match nth_error a row with
  | None => (None, a)
  | Some e =>
    let gid := map (fun c => nth_error (map fst a) c) cols in
    let found c := existsb (fun g => match g with Some g => (g =? fst (c : Z * R))%Z | None => false end) gid in
    (Some (length (filter found (snd e))),
     list_set a row (fst e, map (fun c => (fst c, fold_left (fun s p => match fst p with Some g => if (g =? fst c)%Z then (s + snd p)%R else s | None => s end) (combine gid vals) (snd c))) (snd e)))
  end.
(** TangentStiffnessMatrixReplaceValue, 213-226, and TpetraMatrixContainer::SumIntoValue,
    nimble_tpetra_utils.h 88-107: the lists of columns and values are never filled *)
Definition replace_value (a : list (Z * list (Z * R))) (row col : nat) (value : R) : outcome (list (Z * list (Z * R))) :=
  let r := sum_into_local a row [] [] in
  match fst r with
  | None => Abort
  | Some success => if negb (success =? 1) then Abort else Ok (snd r)
  end.
