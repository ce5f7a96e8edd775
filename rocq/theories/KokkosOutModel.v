(** Model of the output manager of nimble_kokkos::ModelData: the columns a request string asks for,
    the element data computed on the device for a step, and the numbers handed to the output file.
    Source: src/nimble_kokkos_model_data.cc 59-566, 886-891, 1307-1428, with the element functions of
    src/nimble_element.h 343-392 and src/nimble_element.cc 285-330.
    The vectors node_data_labels_, node_data_field_ids_, ... are pushed to together and are modelled by
    one list of columns; likewise those of a block. *)
From Coq Require Import Reals.
From Verif Require Import Base Strings DataModel Loops TensorModel ElementModel BlockModel InputModel ElemDataModel KokkosModel.
Set Implicit Arguments.
Local Open Scope nat_scope.
Local Open Scope list_scope.
Local Notation length := List.length.

(** a column of nodal output: label, field, scalar or vector, component, last values *)
Record ncol := NCol { nc_label : chars; nc_id : nat; nc_kind : kind; nc_comp : nat; nc_data : list R }.
(** a column of element output: label, field at the points, field on the elements, type, integration
    point (-1: none), component, last values *)
Record ecol := ECol { ec_label : chars; ec_ipt_id : nat; ec_id : nat; ec_kind : kind; ec_point : Z; ec_comp : nat; ec_data : list R }.
(** ExodusOutputManager, 59-113; the lists of fields to average are per block *)
Record omgr := OM { om_volume : bool; om_volume_id : nat; om_node : list ncol; om_elem : list (nat * list ecol);
                    om_sym : list (nat * list nat); om_full : list (nat * list nat) }.
Definition no_omgr : omgr := OM false 0 [] [] [] [].
(** m[k].push_back for a map of vectors *)
Definition push_all {A} (k : nat) (xs : list A) (m : list (nat * list A)) : list (nat * list A) :=
  map_put k (match assoc Nat.eqb k m with Some l => l ++ xs | None => xs end) m.

(** * Which fields there are *)
(** GetScalarNodeDataLabels, GetVectorNodeDataLabels, 1361-1394 (the inner loop finds the one entry of
    the map with the id) *)
Definition node_labels (tb : tables) (k : kind) : outcome (list chars) :=
  ofold (fun acc e =>
    match assoc Nat.eqb (snd e) (t_hidx (tb_node tb)) with
    | None => Ok acc
    | Some i => do f <- vat (t_host (tb_node tb)) i; Ok (if kind_eq_dec (kf_kind f) k then acc ++ [fst e] else acc)
    end) (tb_labels tb) [].
(** GetSymmetricTensorIntegrationPointDataLabels, GetFullTensorIntegrationPointDataLabels, 1396-1445 *)
Definition ipt_labels (tb : tables) (k : kind) (block_id : nat) : outcome (list chars) :=
  do b <- mat (tb_iidx tb) block_id;
  do t <- vat (tb_ipt tb) b;
  ofold (fun acc e =>
    match assoc Nat.eqb (snd e) (i_didx t) with
    | None => Ok acc
    | Some i => do f <- vat (i_dnp1 t) i;
                Ok (if kind_eq_dec (kf_kind f) k then if mem (fst e) acc then acc else acc ++ [fst e] else acc)
    end) (tb_labels tb) [].
(** GetBlockIds, 886-891 *)
Definition block_ids (tb : tables) : list nat := map fst (tb_iidx tb).

(** * SpecifyOutputFields, 116-380 *)
(** s.substr(pos): a position behind the end throws *)
Definition substr_from (s : chars) (pos : nat) : outcome chars := if pos <=? length s then Ok (skipn pos s) else Throw.
(** Lines 205-214, 290-299: field label, integration point index when a single one is meant *)
Definition parse_request (w : chars) : outcome (chars * option Z) :=
  if chars_eqb (firstn 3 w) (lit "ipt") then
    do f <- substr_from w 6;
    do p <- substr_from w 4;
    do i <- atoi (firstn 2 p);
    Ok (f, Some (i - 1)%Z)
  else Ok (w, None).
Definition sym_suffixes : list (chars * nat) :=
  [(lit "_xx", K_S_XX); (lit "_yy", K_S_YY); (lit "_zz", K_S_ZZ); (lit "_xy", K_S_XY); (lit "_yz", K_S_YZ); (lit "_zx", K_S_ZX)].
Definition full_suffixes : list (chars * nat) :=
  [(lit "_xx", K_F_XX); (lit "_yy", K_F_YY); (lit "_zz", K_F_ZZ); (lit "_xy", K_F_XY); (lit "_yz", K_F_YZ); (lit "_zx", K_F_ZX);
   (lit "_yx", K_F_YX); (lit "_zy", K_F_ZY); (lit "_xz", K_F_XZ)].
(** Lines 124-138 *)
Definition specify_scalar (tb : tables) (w : chars) (cols : list ncol) (label : chars) : outcome (list ncol) :=
  if chars_eqb w label then
    do id <- get_field_id tb label;
    do v <- host_node tb KScalarNode (Some id);
    Ok (cols ++ [NCol label id KScalarNode 0 (repeat 0%R (v_extent v))])
  else Ok cols.
(** Lines 140-168 *)
Definition specify_vector (tb : tables) (w : chars) (cols : list ncol) (label : chars) : outcome (list ncol) :=
  if chars_eqb w label then
    do id <- get_field_id tb label;
    do v <- host_node tb KVectorNode (Some id);
    Ok (cols ++ map (fun s => NCol (label ++ fst s) id KVectorNode (snd s) (repeat 0%R (v_extent v)))
                    [(lit "_x", K_X); (lit "_y", K_Y); (lit "_z", K_Z)])
  else Ok cols.
(** Lines 187-200: "volume" *)
Definition specify_volume (block_id : nat) (s : (tables * heap) * omgr) (w : chars) : outcome ((tables * heap) * omgr) :=
  let '(tb, h, m) := s in
  if chars_eqb w (lit "volume") then
    do id <- get_field_id tb w;
    do v <- dev_elem tb KScalarElem block_id (Some id);
    Ok (tb, h, OM true id (om_node m) (push_all block_id [ECol w id id KScalarElem (-1) 0 (repeat 0%R (v_extent v))] (om_elem m)) (om_sym m) (om_full m))
  else Ok s.
(** Lines 215-281, 301-377: a request that names the field [label]; [kp], [ke]: the types at the points
    and on the elements *)
Definition specify_field (same : bool) (kp ke : kind) (len : length_t) (suffixes : list (chars * nat)) (block_id : nat) (w label : chars) (point : option Z)
    (s : (tables * heap) * omgr) : outcome ((tables * heap) * omgr) :=
  let '(tb, h, m) := s in
  do ipt_id <- get_field_id tb label;
  do v <- dev_ipt tb kp block_id (Some ipt_id) STEP_NP1;
  let n := v_extent v in
  let m := match point with
           | Some _ => m
           | None => match ke with
                     | KSymElem => OM (om_volume m) (om_volume_id m) (om_node m) (om_elem m) (push_all block_id [ipt_id] (om_sym m)) (om_full m)
                     | _ => OM (om_volume m) (om_volume_id m) (om_node m) (om_elem m) (om_sym m) (push_all block_id [ipt_id] (om_full m))
                     end
           end in
  do a <- (match point with
           | Some _ => allocate_element_data same (tb, h) block_id len w n
           | None => Ok (tb, h, ipt_id)
           end);
  let cols := map (fun x => ECol (w ++ fst x) ipt_id (snd a) ke (match point with Some p => p | None => (-1)%Z end) (snd x) (repeat 0%R n)) suffixes in
  Ok (fst a, OM (om_volume m) (om_volume_id m) (om_node m) (push_all block_id cols (om_elem m)) (om_sym m) (om_full m)).
(** Lines 202-283: the request is taken apart for every label of a field *)
Definition specify_sym (same : bool) (block_id : nat) (labels : list chars) (s : (tables * heap) * omgr) (w : chars) : outcome ((tables * heap) * omgr) :=
  ofold (fun s label =>
    do r <- parse_request w;
    if chars_eqb (fst r) label then specify_field same KSymIntPt KSymElem SYMMETRIC_TENSOR sym_suffixes block_id w label (snd r) s else Ok s) labels s.
(** Lines 286-379: the request is taken apart once *)
Definition specify_full (same : bool) (block_id : nat) (labels : list chars) (s : (tables * heap) * omgr) (w : chars) : outcome ((tables * heap) * omgr) :=
  do r <- parse_request w;
  ofold (fun s label =>
    if chars_eqb (fst r) label then specify_field same KFullIntPt KFullElem FULL_TENSOR full_suffixes block_id w label (snd r) s else Ok s) labels s.
Definition specify_block (same : bool) (words : list chars) (s : (tables * heap) * omgr) (block_id : nat) : outcome ((tables * heap) * omgr) :=
  do s <- ofold (specify_volume block_id) words s;
  do sym <- ipt_labels (fst (fst s)) KSymIntPt block_id;
  do s <- ofold (specify_sym same block_id sym) words s;
  do full <- ipt_labels (fst (fst s)) KFullIntPt block_id;
  ofold (specify_full same block_id full) words s.
Definition specify_output_fields (same : bool) (s : tables * heap) (out : chars) : outcome ((tables * heap) * omgr) :=
  let words := split_blank out [] in
  let tb := fst s in
  do ls <- node_labels tb KScalarNode;
  do cols <- ofold (fun cols w => ofold (specify_scalar tb w) ls cols) words [];
  do lv <- node_labels tb KVectorNode;
  do cols <- ofold (fun cols w => ofold (specify_vector tb w) lv cols) words cols;
  let empty {A} : list (nat * list A) := fold_left (fun m b => map_put b [] m) (block_ids tb) [] in
  ofold (specify_block same words) (block_ids tb) (s, OM false 0 cols empty empty empty).
(** ModelData::InitializeExodusOutput, 1307-1331; the labels of derived data are empty lists *)
Definition initialize_exodus_output (out : chars) (d : kdata) : outcome (kdata * omgr) :=
  do r <- specify_output_fields (kd_same d) (state_of d) out;
  do d <- keep_views (with_tables d (fst r) (kd_ids d));
  Ok (d, snd r).

(** * ComputeElementData, 382-538 *)
(** ComputeVolumeAverageQuantities_impl, nimble_element.h 343-392, with reference coordinates and
    displacements *)
Definition volume_average_impl (node_reference_coords node_displacements : arr) (num_quantities : nat) (int_pt_quantities vol_ave_quantity : arr) : outcome (R * arr) :=
  do s <- oloop 0 8 (fun int_pt (s : (nat -> nat -> R) * R * arr) =>
      let '(a_inv, volume, vol_ave) := s in
      let a := jacobian_loop (fun n i => node_reference_coords (3 * n + i)%nat + node_displacements (3 * n + i)%nat)%R int_pt in
      do i <- invert3x3 a a_inv;
      let jac_det := snd i in
      let volume := (volume + jac_det)%R in
      let vol_ave := floop 0 num_quantities (fun i v =>
        upd v i (v i + int_pt_quantities (num_quantities * int_pt + i)%nat * int_wts int_pt * jac_det)%R) vol_ave in
      Ok (fst i, volume, vol_ave)) (zero3, 0%R, fun _ => 0%R);
  let '(a_inv, volume, vol_ave) := s in
  Ok (volume, snd (floop 0 num_quantities (fun i (s : arr * arr) =>
    let vol_ave := upd (fst s) i (fst s i / volume)%R in
    (vol_ave, upd (snd s) i (vol_ave i))) (vol_ave, vol_ave_quantity))).
(** Lines 406-416 with HexElement::ComputeVolume *)
Definition volume_loop (gref gdisp vol : view) (num_elements : nat) : list (list act) :=
  map (fun e => [Act (v_id vol, e) false (range gref (e * 24) 24 ++ range gdisp (e * 24) 24)
    (fun vs => do r <- volume_average_impl (arr_of (firstn 24 vs)) (arr_of (skipn 24 vs)) 0 zeros zeros; Ok (fst r))]) (seq 0 num_elements).
(** Lines 489-507, 515-533 with ComputeVolumeAverageSymTensor, ComputeVolumeAverageFullTensor; [w]
    numbers per point *)
Definition average_loop (w : nat) (gref gdisp points average : view) (num_elements : nat) : list (list act) :=
  map (fun e => map (fun c => Act (v_id average, e * w + c) false
      (range gref (e * 24) 24 ++ range gdisp (e * 24) 24 ++ range points (e * (8 * w)) (8 * w))
      (fun vs => do r <- volume_average_impl (arr_of (firstn 24 vs)) (arr_of (firstn 24 (skipn 24 vs))) w (arr_of (skipn 48 vs)) zeros; Ok (snd r c))) (seq 0 w)) (seq 0 num_elements).
(** Lines 436-446, 457-467 *)
Definition extract_loop (w point : nat) (points single : view) (num_elements : nat) : list (list act) :=
  map (fun e => map (fun c => Act (v_id single, e * w + c) false [(v_id points, e * (8 * w) + point * w + c)] one) (seq 0 w)) (seq 0 num_elements).
(** an index that is no integration point is outside of the view *)
Definition extract (sched : scheduler) (k : list nat) (w : nat) (point : Z) (points single : view) (num_elements : nat) (h : heap) : outcome heap :=
  if ((0 <=? point) && (point <? 8))%Z then parallel_for sched k (extract_loop w (Z.to_nat point) points single num_elements) h
  else if num_elements =? 0 then Ok h else UB.

(** Lines 393-419 *)
Definition volume_block (sched : scheduler) (m : omgr) (d : kdata) (h : heap) (e : nat * (nat * kblock)) : outcome heap :=
  let '(block_index, (id, b)) := e in
  do gref <- vat (kd_gref d) block_index;
  do gdisp <- vat (kd_gdisp d) block_index;
  do vd <- dev_elem (kd_tables d) KScalarElem id (Some (om_volume_id m));
  do h <- parallel_for sched [9; block_index] (volume_loop gref gdisp vd (mb_num_elem (kb_mesh b))) h;
  do vh <- host_elem (kd_tables d) KScalarElem id (Some (om_volume_id m));
  deep_copy h vh vd.
(** One column of the loop of lines 422-473 *)
Definition extract_column (sched : scheduler) (d : kdata) (id n : nat) (h : heap) (c : ecol) : outcome heap :=
  if (ec_point c =? -1)%Z then Ok h else
  let go (kp ke : kind) (w : nat) :=
    do pv <- dev_ipt (kd_tables d) kp id (Some (ec_ipt_id c)) STEP_NP1;
    do ed <- dev_elem (kd_tables d) ke id (Some (ec_id c));
    do h <- extract sched [10; id] w (ec_point c) pv ed n h;
    do eh <- host_elem (kd_tables d) ke id (Some (ec_id c));
    deep_copy h eh ed in
  match ec_kind c with
  | KSymElem => go KSymIntPt KSymElem 6
  | KFullElem => go KFullIntPt KFullElem 9
  | _ => Ok h
  end.
Definition extract_block (sched : scheduler) (m : omgr) (d : kdata) (h : heap) (e : nat * kblock) : outcome heap :=
  do cols <- mat (om_elem m) (fst e);
  ofold (extract_column sched d (fst e) (mb_num_elem (kb_mesh (snd e)))) cols h.
(** One field of the loops of lines 486-511, 512-537 *)
Definition average_field (sched : scheduler) (kp ke : kind) (w : nat) (gref gdisp : view) (d : kdata) (id n : nat) (h : heap) (field : nat) : outcome heap :=
  do pv <- dev_ipt (kd_tables d) kp id (Some field) STEP_NP1;
  do ed <- dev_elem (kd_tables d) ke id (Some field);
  do h <- parallel_for sched [11; id] (average_loop w gref gdisp pv ed n) h;
  do eh <- host_elem (kd_tables d) ke id (Some field);
  deep_copy h eh ed.
(** Lines 476-538 *)
Definition average_block (sched : scheduler) (m : omgr) (d : kdata) (h : heap) (e : nat * (nat * kblock)) : outcome heap :=
  let '(block_index, (id, b)) := e in
  let n := mb_num_elem (kb_mesh b) in
  do gref <- vat (kd_gref d) block_index;
  do gdisp <- vat (kd_gdisp d) block_index;
  do sym <- mat (om_sym m) id;
  do h <- ofold (average_field sched KSymIntPt KSymElem 6 gref gdisp d id n) sym h;
  do full <- mat (om_full m) id;
  ofold (average_field sched KFullIntPt KFullElem 9 gref gdisp d id n) full h.
Definition compute_element_data (sched : scheduler) (m : omgr) (d : kdata) : outcome kdata :=
  do h <- (if om_volume m then ofold (volume_block sched m d) (numbered (kd_blocks d)) (kd_heap d) else Ok (kd_heap d));
  do h <- ofold (extract_block sched m d) (kd_blocks d) h;
  do h <- ofold (average_block sched m d) (numbered (kd_blocks d)) h;
  Ok (with_heap d h).

(** * What is handed to the file *)
(** GetNodeDataForOutput, 540-557 *)
Definition read_node_column (d : kdata) (c : ncol) : outcome ncol :=
  do v <- host_node (kd_tables d) (nc_kind c) (Some (nc_id c));
  do x <- omapM (fun i => rd (kd_heap d) (v_id v, match nc_kind c with KVectorNode => i * 3 + nc_comp c | _ => i end)) (seq 0 (length (nc_data c)));
  Ok (NCol (nc_label c) (nc_id c) (nc_kind c) (nc_comp c) x).
(** GetElementDataForOutput, 559-600, one column of block [id] *)
Definition read_elem_column (d : kdata) (id : nat) (c : ecol) : outcome ecol :=
  do v <- host_elem (kd_tables d) (ec_kind c) id (Some (ec_id c));
  do x <- omapM (fun i => rd (kd_heap d) (v_id v, i * width (ec_kind c) + ec_comp c)) (seq 0 (length (ec_data c)));
  Ok (ECol (ec_label c) (ec_ipt_id c) (ec_id c) (ec_kind c) (ec_point c) (ec_comp c) x).
Definition read_elem_block (d : kdata) (el : list (nat * list ecol)) (id : nat) : outcome (list (nat * list ecol)) :=
  do cols <- mat el id;
  do cols <- omapM (read_elem_column d id) cols;
  Ok (map_put id cols el).
(** ModelData::WriteExodusOutput, 1331-1358: the labels and numbers given to the file (there are no
    global and no derived data) *)
Definition write_exodus_output (sched : scheduler) (d : kdata) (m : omgr)
  : outcome (kdata * omgr * (list (chars * list R) * list (nat * list (chars * list R)))) :=
  do d <- update_with_new_displacement d;
  do d <- update_with_new_velocity d;
  do d <- compute_element_data sched m d;
  do nodes <- omapM (read_node_column d) (om_node m);
  do elems <- ofold (read_elem_block d) (block_ids (kd_tables d)) (om_elem m);
  Ok (d, OM (om_volume m) (om_volume_id m) nodes elems (om_sym m) (om_full m),
      (map (fun c => (nc_label c, nc_data c)) nodes, map (fun b => (fst b, map (fun c => (ec_label c, ec_data c)) (snd b))) elems)).
