(** Model of nimble_kokkos::ModelData: the tables of fields, the parallel loops on the device, the
    lumped mass, the internal force and the update of the states.
    Sources: src/nimble_kokkos_model_data.{h,cc}, src/nimble_kokkos_block_material_interface.cc,
    src/nimble_kokkos_defs.h, src/nimble_data_manager.cc, src/nimble_model_data_base.cc.
    double is modelled by R.  Block ids and connectivity entries are natural numbers; a field id is
    None for -1.  A Kokkos view is the identity of an allocation together with its extent(0); its
    entries are numbered row by row (view(e, p, c) of shape [n][P][C] is entry (e P + p) C + c): the
    memory layout is not observable through the accesses. *)
From Coq Require Import Reals.
From Verif Require Import Base Strings DataModel Loops TensorModel ElementModel BlockModel.
Set Implicit Arguments.
Local Open Scope nat_scope.
Local Open Scope list_scope.
Local Notation length := List.length.

(** * Memory and parallel loops (Kokkos, not NimbleSM code) *)
(** The allocations made so far, in order. *)
Definition heap := list (list R).
(** A view handle: copying it copies the handle only. *)
Record view := View { v_id : nat; v_extent : nat }.
Definition loc := (nat * nat)%type.
(** view(i): outside of the allocation is undefined behaviour *)
Definition rd (h : heap) (l : loc) : outcome R := do d <- vget h (fst l); vget d (snd l).
Definition wr (h : heap) (l : loc) (x : R) : heap :=
  match nth_error h (fst l) with Some d => list_set h (fst l) (list_set d (snd l) x) | None => h end.
(** An access of a loop body: it reads some entries and sets one entry, or adds to it atomically
    (Kokkos::MemoryTraits<Kokkos::Atomic>). *)
Record act := Act { a_loc : loc; a_add : bool; a_reads : list loc; a_val : list R -> outcome R }.
Definition step (h : heap) (a : act) : outcome heap :=
  do vs <- omapM (rd h) (a_reads a);
  do v <- a_val a vs;
  do old <- rd h (a_loc a);
  Ok (wr h (a_loc a) (if a_add a then old + v else v)%R).
(** Kokkos::parallel_for: the iterations' accesses are carried out in some interleaving, chosen by
    [sched] for the launch numbered k.  A loop in which two iterations race for an entry has no
    meaning: see [valid_sched]. *)
Inductive Interleave {A : Type} : list (list A) -> list A -> Prop :=
| il_done ls : Forall (fun l => l = []) ls -> Interleave ls []
| il_step ls1 a l ls2 s : Interleave (ls1 ++ l :: ls2) s -> Interleave (ls1 ++ (a :: l) :: ls2) (a :: s).
Definition scheduler := list nat -> list (list act) -> list act.
(** no iteration touches an entry that another one writes, except by atomic additions *)
Definition race_free (its : list (list act)) : Prop :=
  forall i j a b, i <> j -> In a (nth i its []) -> In b (nth j its []) ->
    ~ In (a_loc a) (a_reads b) /\ (a_loc a = a_loc b -> a_add a = true /\ a_add b = true).
(** what can be expected of the machine: an interleaving of the accesses when there is no race, and
    anything at all otherwise *)
Definition valid_sched (sched : scheduler) : Prop := forall k its, race_free its -> Interleave its (sched k its).
Definition parallel_for (sched : scheduler) (k : list nat) (its : list (list act)) (h : heap) : outcome heap :=
  ofold step (sched k its) h.
(** View("label", n): allocated and set to zero; [w] entries per index *)
Definition new_view (h : heap) (n w : nat) : heap * view := (h ++ [repeat 0%R (n * w)], View (length h) n).
(** Kokkos::create_mirror_view: the same allocation when host and device share the memory space *)
Definition mirror (same_space : bool) (h : heap) (v : view) (w : nat) : heap * view :=
  if same_space then (h, v) else new_view h (v_extent v) w.
(** Kokkos::deep_copy(dst, src); different extents throw *)
Definition deep_copy (h : heap) (dst src : view) : outcome heap :=
  if v_extent dst =? v_extent src then do d <- vget h (v_id src); Ok (list_set h (v_id dst) d) else Throw.
(** Kokkos::deep_copy(dst, 0.0) *)
Definition fill (h : heap) (dst : view) (x : R) : outcome heap :=
  do d <- vget h (v_id dst); Ok (list_set h (v_id dst) (repeat x (length d))).
(** Kokkos::resize(v, n): a new allocation; with [keep] (recent versions of Kokkos) nothing happens
    when the extent is already n *)
Definition resize (keep : bool) (h : heap) (v : view) (n w : nat) : heap * view :=
  if keep && (v_extent v =? n) then (h, v) else new_view h n w.

(** * Tables of fields *)
(** FieldType without the Host/Device part: each list holds one side only; nimble_kokkos_defs.h 88-106 *)
Inductive kind := KScalarNode | KVectorNode | KSymIntPt | KFullIntPt | KScalarIntPt | KVectorIntPt | KScalarElem | KSymElem | KFullElem.
Definition kind_eq_dec (a b : kind) : {a = b} + {a <> b}.
Proof. decide equality. Defined.
(** Entries per index of the view types, nimble_kokkos_defs.h 170-520 *)
Definition width (k : kind) : nat :=
  match k with
  | KScalarNode => 1 | KVectorNode => 3 | KSymIntPt => 8 * 6 | KFullIntPt => 8 * 9 | KScalarIntPt => 8 * 1 | KVectorIntPt => 8 * 3
  | KScalarElem => 1 | KSymElem => 6 | KFullElem => 9
  end.
Record kfield := KF { kf_kind : kind; kf_view : view }.
(** dynamic_cast<Field<k>*>(p)->data(): a null pointer is dereferenced when the types differ *)
Definition cast (k : kind) (f : kfield) : outcome view := if kind_eq_dec (kf_kind f) k then Ok (kf_view f) else UB.

(** host_*_data_, device_*_data_, field_id_to_host_*_index_, field_id_to_device_*_index_ for the
    nodes and, per block, for the elements *)
Record table := Tab { t_host : list kfield; t_dev : list kfield; t_hidx : list (nat * nat); t_didx : list (nat * nat) }.
(** the same for integration points, for the two steps *)
Record itable := ITab { i_hn : list kfield; i_hnp1 : list kfield; i_dn : list kfield; i_dnp1 : list kfield;
                        i_hidx : list (nat * nat); i_didx : list (nat * nat) }.
(** nimble_kokkos_model_data.h 322-344; the order of iteration of the label map is immaterial here *)
Record tables := Tabs { tb_labels : list (chars * nat); tb_node : table;
                        tb_eidx : list (nat * nat); tb_elem : list table;
                        tb_iidx : list (nat * nat); tb_ipt : list itable }.
Definition no_table : table := Tab [] [] [] [].
Definition no_itable : itable := ITab [] [] [] [] [] [].
Definition no_tables : tables := Tabs [] no_table [] [] [] [].

(** map::at *)
Definition mat {V} (m : list (nat * V)) (k : nat) : outcome V := match assoc Nat.eqb k m with Some v => Ok v | None => Throw end.
(** map::at with a field id that may be -1 *)
Definition mat_id {V} (m : list (nat * V)) (k : option nat) : outcome V := match k with Some k => mat m k | None => Throw end.

(** Lines 576-584, 629-637, 718-726: the id of a label *)
Definition label_id (labels : list (chars * nat)) (label : chars) : list (chars * nat) * nat :=
  match assoc chars_eqb label labels with
  | Some id => (labels, id)
  | None => (assoc_set chars_eqb label (length labels) labels, length labels)
  end.

(** Device view and host mirror appended to a table *)
Definition table_add (same_space : bool) (h : heap) (t : table) (id : nat) (k : kind) (n : nat) : heap * table :=
  let '(h, d) := new_view h n (width k) in
  let '(h, m) := mirror same_space h d (width k) in
  (h, Tab (t_host t ++ [KF k m]) (t_dev t ++ [KF k d])
          (map_put id (length (t_host t)) (t_hidx t)) (map_put id (length (t_dev t)) (t_didx t))).

(** ModelData::AllocateNodeData, nimble_kokkos_model_data.cc 572-621 (the tables as they are after an
    exception are not modelled) *)
Definition allocate_node_data (same_space : bool) (s : tables * heap) (len : length_t) (label : chars) (n : nat)
  : outcome ((tables * heap) * nat) :=
  let '(tb, h) := s in
  let '(labels, id) := label_id (tb_labels tb) label in
  do k <- (match len with SCALAR => Ok KScalarNode | VECTOR => Ok KVectorNode | _ => Throw end);
  let '(h, t) := table_add same_space h (tb_node tb) id k n in
  Ok (Tabs labels t (tb_eidx tb) (tb_elem tb) (tb_iidx tb) (tb_ipt tb), h, id).

(** ModelData::AllocateElementData, 623-689 *)
Definition allocate_element_data (same_space : bool) (s : tables * heap) (block_id : nat) (len : length_t) (label : chars) (n : nat)
  : outcome ((tables * heap) * nat) :=
  let '(tb, h) := s in
  let '(labels, id) := label_id (tb_labels tb) label in
  let '(eidx, elem) := match assoc Nat.eqb block_id (tb_eidx tb) with
                       | Some _ => (tb_eidx tb, tb_elem tb)
                       | None => (map_put block_id (length (tb_elem tb)) (tb_eidx tb), tb_elem tb ++ [no_table])
                       end in
  do block_index <- mat eidx block_id;
  do k <- (match len with SCALAR => Ok KScalarElem | SYMMETRIC_TENSOR => Ok KSymElem | FULL_TENSOR => Ok KFullElem | _ => Throw end);
  do t <- vat elem block_index;
  let '(h, t) := table_add same_space h t id k n in
  Ok (Tabs labels (tb_node tb) eidx (list_set elem block_index t) (tb_iidx tb) (tb_ipt tb), h, id).

(** Lines 791-799, 815-826, 842-856, 872-886: initial_value written to every index (and point) *)
Definition initial_entries (entries_per_point points : nat) (initial_value : list R) (n : nat) : outcome (list R) :=
  do per <- omapM (fun i => vat initial_value i) (if n =? 0 then [] else seq 0 entries_per_point);
  Ok (List.concat (repeat (List.concat (repeat per points)) n)).
(** entries per point and number of points of the kinds used for integration points *)
Definition ipt_shape (k : kind) : nat * nat :=
  match k with KScalarNode => (1, 1) | KVectorNode => (3, 1) | KSymIntPt => (6, 8) | _ => (9, 8) end.

(** ModelData::AllocateIntegrationPointData, 709-890; scalars and vectors get the node types *)
Definition allocate_ipt_data (same_space : bool) (s : tables * heap) (block_id : nat) (len : length_t) (label : chars) (n : nat)
    (initial_value : list R) : outcome ((tables * heap) * nat) :=
  let '(tb, h) := s in
  let '(labels, id) := label_id (tb_labels tb) label in
  let '(iidx, ipt) := match assoc Nat.eqb block_id (tb_iidx tb) with
                      | Some _ => (tb_iidx tb, tb_ipt tb)
                      | None => (map_put block_id (length (tb_ipt tb)) (tb_iidx tb), tb_ipt tb ++ [no_itable])
                      end in
  do block_index <- mat iidx block_id;
  do k <- (match len with SCALAR => Ok KScalarNode | VECTOR => Ok KVectorNode | SYMMETRIC_TENSOR => Ok KSymIntPt | FULL_TENSOR => Ok KFullIntPt | _ => Throw end);
  do t <- vat ipt block_index;
  let '(h, dn) := new_view h n (width k) in
  let '(h, dnp1) := new_view h n (width k) in
  let '(h, hn) := mirror same_space h dn (width k) in
  let '(h, hnp1) := mirror same_space h dnp1 (width k) in
  do h <- (match initial_value with
           | [] => Ok h
           | _ => do v <- initial_entries (fst (ipt_shape k)) (snd (ipt_shape k)) initial_value n;
                  let h := list_set h (v_id hn) v in
                  let h := list_set h (v_id hnp1) v in
                  do h <- deep_copy h dn hn;
                  deep_copy h dnp1 hnp1
           end);
  let t := ITab (i_hn t ++ [KF k hn]) (i_hnp1 t ++ [KF k hnp1]) (i_dn t ++ [KF k dn]) (i_dnp1 t ++ [KF k dnp1])
                (map_put id (length (i_hn t)) (i_hidx t)) (map_put id (length (i_dn t)) (i_didx t)) in
  Ok (Tabs labels (tb_node tb) (tb_eidx tb) (tb_elem tb) iidx (list_set ipt block_index t), h, id).

(** GetFieldId, nimble_kokkos_model_data.h 92-96 *)
Definition get_field_id (tb : tables) (label : chars) : outcome nat :=
  match assoc chars_eqb label (tb_labels tb) with Some id => Ok id | None => Throw end.
(** GetHostScalarNodeData, GetHostVectorNodeData, 1430-1446; GetDeviceScalarNodeData,
    GetDeviceVectorNodeData, 1538-1554 *)
Definition host_node (tb : tables) (k : kind) (id : option nat) : outcome view :=
  do i <- mat_id (t_hidx (tb_node tb)) id; do f <- vat (t_host (tb_node tb)) i; cast k f.
Definition dev_node (tb : tables) (k : kind) (id : option nat) : outcome view :=
  do i <- mat_id (t_didx (tb_node tb)) id; do f <- vat (t_dev (tb_node tb)) i; cast k f.
(** GetHostScalarElementData, GetHostSymTensorElementData, GetHostFullTensorElementData, 1448-1457,
    1487-1507; GetDeviceElementData, 1509-1518 *)
Definition host_elem (tb : tables) (k : kind) (block_id : nat) (id : option nat) : outcome view :=
  do b <- mat (tb_eidx tb) block_id; do t <- vat (tb_elem tb) b;
  do i <- mat_id (t_hidx t) id; do f <- vat (t_host t) i; cast k f.
Definition dev_elem (tb : tables) (k : kind) (block_id : nat) (id : option nat) : outcome view :=
  do b <- mat (tb_eidx tb) block_id; do t <- vat (tb_elem tb) b;
  do i <- mat_id (t_didx t) id; do f <- vat (t_dev t) i; cast k f.
(** nimble::Step *)
Inductive step_t := STEP_N | STEP_NP1.
(** GetHostSymTensorIntegrationPointData, GetHostFullTensorIntegrationPointData, 1459-1485;
    GetDeviceIntPointData, 1520-1536 *)
Definition host_ipt (tb : tables) (k : kind) (block_id : nat) (id : option nat) (st : step_t) : outcome view :=
  do b <- mat (tb_iidx tb) block_id; do t <- vat (tb_ipt tb) b;
  do i <- mat_id (i_hidx t) id; do f <- vat (match st with STEP_N => i_hn t | STEP_NP1 => i_hnp1 t end) i; cast k f.
Definition dev_ipt (tb : tables) (k : kind) (block_id : nat) (id : option nat) (st : step_t) : outcome view :=
  do b <- mat (tb_iidx tb) block_id; do t <- vat (tb_ipt tb) b;
  do i <- mat_id (i_didx t) id; do f <- vat (match st with STEP_N => i_dn t | STEP_NP1 => i_dnp1 t end) i; cast k f.

(** * The object *)
(** A material on the device: density, bulk modulus, number of state variables, and GetStress at a
    point: times n and n+1, deformation gradients n and n+1 (9 values each), stress n (6 values);
    materials with state variables never reach GetStress. *)
Record kmat := KMat { km_density : R; km_bulk : R; km_states : nat; km_stress : R -> R -> list R -> list R -> list R -> outcome arr }.
(** A block of the mesh: number of elements, nodes per element, connectivity, material *)
Record mblock := MBlock { mb_id : nat; mb_num_elem : nat; mb_npe : nat; mb_conn : list nat; mb_mat : kmat }.
(** nimble_kokkos::Block together with what the mesh knows about the block; [kb_conn] is the device
    connectivity, empty until ComputeLumpedMass *)
Record kblock := KBlock { kb_mesh : mblock; kb_conn : list nat }.

(** FieldIds, nimble_model_data_base.h 65-86 *)
Record field_ids := FIds { f_def_grad : option nat; f_stress : option nat; f_unrotated : option nat;
  f_ref : option nat; f_disp : option nat; f_vel : option nat; f_mass : option nat; f_force : option nat;
  f_scalar : option nat; f_vec3D : option nat; f_sym : option nat; f_full : option nat }.

(** nimble_kokkos::ModelData and the DataManager's field ids; [kd_dt] is critical_time_step_;
    displacement_d_, displacement_h_, velocity_d_, velocity_h_ are None until InitializeExodusOutput *)
Record kdata := KD { kd_same : bool; kd_tables : tables; kd_heap : heap; kd_ids : field_ids; kd_blocks : list (nat * kblock);
  kd_gref : list view; kd_gdisp : list view; kd_gforce : list view; kd_dt : R;
  kd_disp : option (view * view); kd_vel : option (view * view) }.
Definition with_heap (d : kdata) (h : heap) : kdata :=
  KD (kd_same d) (kd_tables d) h (kd_ids d) (kd_blocks d) (kd_gref d) (kd_gdisp d) (kd_gforce d) (kd_dt d) (kd_disp d) (kd_vel d).
Definition with_tables (d : kdata) (s : tables * heap) (ids : field_ids) : kdata :=
  KD (kd_same d) (fst s) (snd s) ids (kd_blocks d) (kd_gref d) (kd_gdisp d) (kd_gforce d) (kd_dt d) (kd_disp d) (kd_vel d).
Definition with_blocks (d : kdata) (bs : list (nat * kblock)) : kdata :=
  KD (kd_same d) (kd_tables d) (kd_heap d) (kd_ids d) bs (kd_gref d) (kd_gdisp d) (kd_gforce d) (kd_dt d) (kd_disp d) (kd_vel d).
Definition state_of (d : kdata) : tables * heap := (kd_tables d, kd_heap d).

(** * Initialisation *)
Definition no_ids : field_ids := FIds None None None None None None None None None None None None.
(** The contents set through a Viewify of the host view of a vector node field: entries (i, c), c < dim *)
Definition write_rows (dim : nat) (coords : nat -> nat -> R) (num_nodes : nat) (h : heap) (v : view) : outcome heap :=
  oloop 0 num_nodes (fun i h => oloop 0 dim (fun c h =>
    do _ <- rd h (v_id v, i * 3 + c); Ok (wr h (v_id v, i * 3 + c) (coords i c))) h) h.
(** DataManager::Initialize, nimble_data_manager.cc 88-155, the part on the model data, with
    ModelDataBase::SetDimension and SetReferenceCoordinates, nimble_model_data_base.cc 51-82.
    [coords i c] is coordinate c of node i. *)
Definition initialize (same_space : bool) (scheme : chars) (dim num_nodes : nat) (coords : nat -> nat -> R) : outcome kdata :=
  if negb ((dim =? 2) || (dim =? 3)) then Throw else
  let s := (no_tables, [] : heap) in
  let vec s label := allocate_node_data same_space s VECTOR (lit label) num_nodes in
  do m <- (if chars_eqb scheme (lit "explicit")
           then do r <- allocate_node_data same_space s SCALAR (lit "lumped_mass") num_nodes; Ok (fst r, Some (snd r))
           else Ok (s, None));
  do ref <- vec (fst m) "reference_coordinate"%string;
  do disp <- vec (fst ref) "displacement"%string;
  do vel <- vec (fst disp) "velocity"%string;
  do acc <- vec (fst vel) "acceleration"%string;
  do force <- vec (fst acc) "internal_force"%string;
  do ext <- vec (fst force) "external_force"%string;
  do con <- vec (fst ext) "contact_force"%string;
  do s <- (if chars_eqb scheme (lit "quasistatic")
           then do a <- vec (fst con) "trial_displacement"%string;
                do b <- vec (fst a) "displacement_fluctuation"%string;
                do c <- vec (fst b) "trial_internal_force"%string;
                do e <- allocate_node_data same_space (fst c) SCALAR (lit "skin_node") num_nodes;
                Ok (fst e)
           else Ok (fst con));
  let ids := FIds None None None (Some (snd ref)) (Some (snd disp)) (Some (snd vel)) (snd m) (Some (snd force)) None None None None in
  do id <- get_field_id (fst s) (lit "reference_coordinate");
  do v <- host_node (fst s) KVectorNode (Some id);
  do h <- write_rows dim coords num_nodes (snd s) v;
  Ok (KD same_space (fst s) h ids [] [] [] [] 0 None None).

(** std::string::find != npos *)
Fixpoint contains (sub s : chars) : bool :=
  starts_with sub s || match s with [] => false | _ :: s => contains sub s end.

(** One block of ModelData::InitializeBlocks, 914-965 (Block::Initialize and the material factory
    give the block its material) *)
Definition initialize_block (output_fields : chars) (d : kdata) (b : mblock) : outcome kdata :=
  let id := mb_id b in let n := mb_num_elem b in let same := kd_same d in
  let blocks := map_put id (KBlock b []) (kd_blocks d) in
  do f <- allocate_ipt_data same (state_of d) id FULL_TENSOR (lit "deformation_gradient") n [1; 1; 1; 0; 0; 0; 0; 0; 0]%R;
  do fe <- allocate_element_data same (fst f) id FULL_TENSOR (lit "deformation_gradient") n;
  do s1 <- allocate_ipt_data same (fst fe) id SYMMETRIC_TENSOR (lit "stress") n [];
  do s2 <- allocate_ipt_data same (fst s1) id SYMMETRIC_TENSOR (lit "stress") n [];
  do se <- allocate_element_data same (fst s2) id SYMMETRIC_TENSOR (lit "stress") n;
  do vol <- (if contains (lit "volume") output_fields
             then do r <- allocate_element_data same (fst se) id SCALAR (lit "volume") n; Ok (fst r) else Ok (fst se));
  let i := kd_ids d in
  if 0 <? km_states (mb_mat b) then
    do a <- allocate_ipt_data same vol id SYMMETRIC_TENSOR (lit "state_sym_tensor") n [];
    do b <- allocate_ipt_data same (fst a) id FULL_TENSOR (lit "state_full_tensor") n [];
    do c <- allocate_ipt_data same (fst b) id SCALAR (lit "state_scalar") n [];
    do e <- allocate_ipt_data same (fst c) id VECTOR (lit "state_vec3D") n [];
    Ok (with_blocks (with_tables d (fst e)
      (FIds (Some (snd f)) (Some (snd s1)) (Some (snd s2)) (f_ref i) (f_disp i) (f_vel i) (f_mass i) (f_force i)
            (Some (snd c)) (Some (snd e)) (Some (snd a)) (Some (snd b)))) blocks)
  else
    Ok (with_blocks (with_tables d vol
      (FIds (Some (snd f)) (Some (snd s1)) (Some (snd s2)) (f_ref i) (f_disp i) (f_vel i) (f_mass i) (f_force i)
            (f_scalar i) (f_vec3D i) (f_sym i) (f_full i))) blocks).

(** ModelData::InitializeGatheredVectors, 1052-1076, for one of the vectors of work arrays: the
    vector is filled with copies of one handle, which are then resized *)
Definition gathered_vector (keep : bool) (h : heap) (num_blocks : nat) (sizes : list nat) (w : nat) : outcome (heap * list view) :=
  let '(h, v) := new_view h 1 w in
  ofold (fun (s : heap * list view) e =>
    do v <- vat (snd s) (fst e);
    let '(h, v) := resize keep (fst s) v (snd e) w in
    Ok (h, list_set (snd s) (fst e) v)) (combine (seq 0 (length sizes)) sizes) (h, repeat v num_blocks).
(** ModelData::InitializeBlocks, 900-972; the fourth work array (contact) is left out.
    InitializeBlockData (1290-1305) only records what kd_blocks already holds. *)
Definition initialize_blocks (keep : bool) (scheme output_fields : chars) (mesh : list mblock) (d : kdata) : outcome kdata :=
  do d <- ofold (initialize_block output_fields) mesh d;
  if chars_eqb scheme (lit "explicit") then
    let sizes := map (fun e => mb_num_elem (kb_mesh (snd e))) (kd_blocks d) in
    do r <- gathered_vector keep (kd_heap d) (length mesh) sizes (8 * 3);
    do u <- gathered_vector keep (fst r) (length mesh) sizes (8 * 3);
    do f <- gathered_vector keep (fst u) (length mesh) sizes (8 * 3);
    Ok (KD (kd_same d) (kd_tables d) (fst f) (kd_ids d) (kd_blocks d) (snd r) (snd u) (snd f) (kd_dt d) (kd_disp d) (kd_vel d))
  else Ok d.

(** * Loops over elements *)
(** the locations of [n] entries from [off] on *)
Definition range (v : view) (off n : nat) : list loc := map (fun k => (v_id v, off + k)) (seq 0 n).
Definition arr_of (l : list R) : arr := fun k => nth k l 0%R.
(** a body that copies what it reads *)
Definition one (vs : list R) : outcome R := match vs with [x] => Ok x | _ => UB end.

(** GatherVectorNodeData, 1617-1642 *)
Definition gather_vector (data gathered : view) (num_elements npe : nat) (conn : list nat) : outcome (list (list act)) :=
  omapM (fun e => do l <- omapM (fun n => do node <- vget conn (npe * e + n);
    Ok (map (fun i => Act (v_id gathered, e * 24 + n * 3 + i) false [(v_id data, node * 3 + i)] one) (seq 0 3))) (seq 0 npe);
    Ok (List.concat l)) (seq 0 num_elements).
(** ScatterVectorNodeData, 1665-1689 *)
Definition scatter_vector (data gathered : view) (num_elements npe : nat) (conn : list nat) : outcome (list (list act)) :=
  omapM (fun e => do l <- omapM (fun n => do node <- vget conn (npe * e + n);
    Ok (map (fun i => Act (v_id data, node * 3 + i) true [(v_id gathered, e * 24 + n * 3 + i)] one) (seq 0 3))) (seq 0 npe);
    Ok (List.concat l)) (seq 0 num_elements).
(** ScatterScalarNodeData, 1644-1663 *)
Definition scatter_scalar (data gathered : view) (num_elements npe : nat) (conn : list nat) : outcome (list (list act)) :=
  omapM (fun e => omapM (fun n => do node <- vget conn (npe * e + n);
    Ok (Act (v_id data, node) true [(v_id gathered, e * 8 + n)] one)) (seq 0 npe)) (seq 0 num_elements).

(** ComputeDeformationGradients_impl, nimble_element.h 430-508, with reference coordinates and displacements *)
Definition deformation_gradients_impl (node_reference_coords node_displacements deformation_gradients : arr) : outcome arr :=
  do s <- oloop 0 8 (fun int_pt (s : (nat -> nat -> R) * (nat -> nat -> R) * arr) =>
      let '(b_inv, def_grad, out) := s in
      let a := jacobian_loop (fun j i => node_reference_coords (3 * j + i)%nat + node_displacements (3 * j + i)%nat)%R int_pt in
      let b := jacobian_loop (fun j i => node_reference_coords (3 * j + i)) int_pt in
      do i <- invert3x3 b b_inv;
      let b_inv := fst i in
      let def_grad := floop 0 3 (fun j d => floop 0 3 (fun k d =>
        upd2 d j k (at2 a j 0 * at2 b_inv 0 k + at2 a j 1 * at2 b_inv 1 k + at2 a j 2 * at2 b_inv 2 k)%R) d) def_grad in
      let out := upd out (9 * int_pt + K_F_XX) (def_grad 0 0) in
      let out := upd out (9 * int_pt + K_F_XY) (def_grad 0 1) in
      let out := upd out (9 * int_pt + K_F_XZ) (def_grad 0 2) in
      let out := upd out (9 * int_pt + K_F_YX) (def_grad 1 0) in
      let out := upd out (9 * int_pt + K_F_YY) (def_grad 1 1) in
      let out := upd out (9 * int_pt + K_F_YZ) (def_grad 1 2) in
      let out := upd out (9 * int_pt + K_F_ZX) (def_grad 2 0) in
      let out := upd out (9 * int_pt + K_F_ZY) (def_grad 2 1) in
      let out := upd out (9 * int_pt + K_F_ZZ) (def_grad 2 2) in
      Ok (b_inv, def_grad, out)) (zero3, zero3, deformation_gradients);
  Ok (snd s).
(** ComputeNodalForces_impl, nimble_element.h 540-628, with reference coordinates and displacements *)
Definition nodal_forces_impl (node_reference_coords node_displacements int_pt_stresses node_forces : arr) : outcome arr :=
  do s <- oloop 0 8 (fun int_pt (s : (nat -> nat -> R) * (nat -> nat -> R)) =>
      let '(a_inv, force) := s in
      let a := jacobian_loop (fun n i => node_reference_coords (3 * n + i)%nat + node_displacements (3 * n + i)%nat)%R int_pt in
      do i <- invert3x3 a a_inv;
      let a_inv := fst i in
      let jac_det := snd i in
      let stress := fun k => int_pt_stresses (6 * int_pt + k) in
      let force := floop 0 8 (fun node force =>
        let s1 := shape_fcn_deriv (int_pt * 24 + 3 * node) in
        let s2 := shape_fcn_deriv (int_pt * 24 + 3 * node + 1) in
        let s3 := shape_fcn_deriv (int_pt * 24 + 3 * node + 2) in
        let dN_dx1 := (s1 * at2 a_inv 0 0 + s2 * at2 a_inv 1 0 + s3 * at2 a_inv 2 0)%R in
        let dN_dx2 := (s1 * at2 a_inv 0 1 + s2 * at2 a_inv 1 1 + s3 * at2 a_inv 2 1)%R in
        let dN_dx3 := (s1 * at2 a_inv 0 2 + s2 * at2 a_inv 1 2 + s3 * at2 a_inv 2 2)%R in
        let f1 := (dN_dx1 * stress K_S_XX + dN_dx2 * stress K_S_YX + dN_dx3 * stress K_S_ZX)%R in
        let f2 := (dN_dx1 * stress K_S_XY + dN_dx2 * stress K_S_YY + dN_dx3 * stress K_S_ZY)%R in
        let f3 := (dN_dx1 * stress K_S_XZ + dN_dx2 * stress K_S_YZ + dN_dx3 * stress K_S_ZZ)%R in
        let f1 := (f1 * (jac_det * int_wts int_pt))%R in
        let f2 := (f2 * (jac_det * int_wts int_pt))%R in
        let f3 := (f3 * (jac_det * int_wts int_pt))%R in
        let force := upd2 force node 0 (at2 force node 0 - f1)%R in
        let force := upd2 force node 1 (at2 force node 1 - f2)%R in
        let force := upd2 force node 2 (at2 force node 2 - f3)%R in
        force) force in
      Ok (a_inv, force)) (zero3, zero3);
  let force := snd s in
  Ok (floop 0 8 (fun node f =>
    let f := upd f (3 * node) (force node 0) in
    let f := upd f (3 * node + 1) (force node 1) in
    let f := upd f (3 * node + 2) (force node 2) in
    f) node_forces).

Definition zeros : arr := fun _ => 0%R.
(** Lines 1211-1221: the entries of one element, each written once (the element's own temporaries and
    the order in which it writes its entries are left out) *)
Definition def_grad_loop (gref gdisp F : view) (num_elements : nat) : list (list act) :=
  map (fun e => map (fun k => Act (v_id F, e * 72 + k) false (range gref (e * 24) 24 ++ range gdisp (e * 24) 24)
    (fun vs => do out <- deformation_gradients_impl (arr_of (firstn 24 vs)) (arr_of (skipn 24 vs)) zeros; Ok (out k))) (seq 0 72)) (seq 0 num_elements).
(** compute_block_stress, nimble_kokkos_block_material_interface.cc 66-119: one iteration per element
    and integration point *)
Definition stress_loop (m : kmat) (time_n time_np1 : R) (F_n F_np1 S_n S_np1 : view) (num_elements points : nat) : list (list act) :=
  flat_map (fun e => map (fun p => map (fun c => Act (v_id S_np1, e * 48 + p * 6 + c) false
      (range F_n (e * 72 + p * 9) 9 ++ range F_np1 (e * 72 + p * 9) 9 ++ range S_n (e * 48 + p * 6) 6)
      (fun vs => do s <- km_stress m time_n time_np1 (firstn 9 vs) (firstn 9 (skipn 9 vs)) (skipn 18 vs); Ok (s c))) (seq 0 6)) (seq 0 points)) (seq 0 num_elements).
(** Lines 1259-1274 *)
Definition force_loop (gref gdisp S gforce : view) (num_elements : nat) : list (list act) :=
  map (fun e => map (fun k => Act (v_id gforce, e * 24 + k) false
      (range gref (e * 24) 24 ++ range gdisp (e * 24) 24 ++ range S (e * 48) 48)
      (fun vs => do out <- nodal_forces_impl (arr_of (firstn 24 vs)) (arr_of (firstn 24 (skipn 24 vs))) (arr_of (skipn 48 vs)) zeros; Ok (out k))) (seq 0 24)) (seq 0 num_elements).
(** Lines 1126-1133 *)
Definition mass_loop (density : R) (gref gmass : view) (num_elements : nat) : list (list act) :=
  map (fun e => map (fun k => Act (v_id gmass, e * 8 + k) false (range gref (e * 24) 24)
      (fun vs => do out <- compute_lumped_mass density (arr_of vs) zeros; Ok (out k))) (seq 0 8)) (seq 0 num_elements).

(** for (auto& block_it : blocks_) with block_index counting *)
Definition numbered {A} (l : list A) : list (nat * A) := combine (seq 0 (length l)) l.

(** The first loop over the blocks of ComputeInternalForce, 1180-1229 *)
Definition kinematics_block (sched : scheduler) (d : kdata) (h : heap) (e : nat * (nat * kblock)) : outcome heap :=
  let '(block_index, (id, b)) := e in
  let n := mb_num_elem (kb_mesh b) in let npe := mb_npe (kb_mesh b) in
  do gref <- vat (kd_gref d) block_index;
  do gdisp <- vat (kd_gdisp d) block_index;
  do gforce <- vat (kd_gforce d) block_index;
  do ref <- dev_node (kd_tables d) KVectorNode (f_ref (kd_ids d));
  do l <- gather_vector ref gref n npe (kb_conn b);
  do h <- parallel_for sched [1; block_index] l h;
  do disp <- dev_node (kd_tables d) KVectorNode (f_disp (kd_ids d));
  do l <- gather_vector disp gdisp n npe (kb_conn b);
  do h <- parallel_for sched [2; block_index] l h;
  do F <- dev_ipt (kd_tables d) KFullIntPt id (f_def_grad (kd_ids d)) STEP_NP1;
  parallel_for sched [3; block_index] (def_grad_loop gref gdisp F n) h.
(** The state variables' views of BlockMaterialInterface::ComputeStress, 149-177: every one that has
    an id is looked up with the type the material expects *)
Definition state_views (tb : tables) (ids : field_ids) (block_id : nat) : outcome unit :=
  let look k id := match id with
                   | None => Ok tt
                   | Some _ => do _ <- dev_ipt tb k block_id id STEP_N; do _ <- dev_ipt tb k block_id id STEP_NP1; Ok tt
                   end in
  do _ <- look KScalarIntPt (f_scalar ids);
  do _ <- look KVectorIntPt (f_vec3D ids);
  do _ <- look KSymIntPt (f_sym ids);
  look KFullIntPt (f_full ids).
(** One block of BlockMaterialInterface::ComputeStress, 135-190 (eight integration points) *)
Definition stress_block (sched : scheduler) (time_n time_np1 : R) (d : kdata) (h : heap) (e : nat * (nat * kblock)) : outcome heap :=
  let '(block_index, (id, b)) := e in
  let ids := kd_ids d in let tb := kd_tables d in let m := mb_mat (kb_mesh b) in
  do F_n <- dev_ipt tb KFullIntPt id (f_def_grad ids) STEP_N;
  do F_np1 <- dev_ipt tb KFullIntPt id (f_def_grad ids) STEP_NP1;
  do S_n <- dev_ipt tb KSymIntPt id (f_stress ids) STEP_N;
  do S_np1 <- dev_ipt tb KSymIntPt id (f_stress ids) STEP_NP1;
  do _ <- (if 0 <? km_states m then state_views tb ids id else Ok tt);
  parallel_for sched [4; block_index] (stress_loop m time_n time_np1 F_n F_np1 S_n S_np1 (mb_num_elem (kb_mesh b)) 8) h.
(** The second loop over the blocks, 1240-1282 *)
Definition divergence_block (sched : scheduler) (d : kdata) (h : heap) (e : nat * (nat * kblock)) : outcome heap :=
  let '(block_index, (id, b)) := e in
  let n := mb_num_elem (kb_mesh b) in let npe := mb_npe (kb_mesh b) in
  do gref <- vat (kd_gref d) block_index;
  do gdisp <- vat (kd_gdisp d) block_index;
  do gforce <- vat (kd_gforce d) block_index;
  do S <- dev_ipt (kd_tables d) KSymIntPt id (f_stress (kd_ids d)) STEP_NP1;
  do h <- parallel_for sched [5; block_index] (force_loop gref gdisp S gforce n) h;
  do force <- dev_node (kd_tables d) KVectorNode (f_force (kd_ids d));
  do l <- scatter_vector force gforce n npe (kb_conn b);
  parallel_for sched [6; block_index] l h.
(** ModelData::ComputeInternalForce, 1155-1288.  The arguments displacement and force are not used by
    the code; [factory] tells whether there is a block material interface factory; [reduce] is
    VectorReduction on the host array. *)
Definition compute_internal_force (sched : scheduler) (factory : bool) (reduce : list R -> list R) (time_n time_np1 : R) (d : kdata) : outcome kdata :=
  do fh <- host_node (kd_tables d) KVectorNode (f_force (kd_ids d));
  do fd <- dev_node (kd_tables d) KVectorNode (f_force (kd_ids d));
  do h <- fill (kd_heap d) fd 0;
  do h <- ofold (kinematics_block sched d) (numbered (kd_blocks d)) h;
  do h <- (if factory then ofold (stress_block sched time_n time_np1 d) (numbered (kd_blocks d)) h else Ok h);
  do h <- ofold (divergence_block sched d) (numbered (kd_blocks d)) h;
  do h <- deep_copy h fh fd;
  do f <- vget h (v_id fh);
  Ok (with_heap d (list_set h (v_id fh) (reduce f))).

(** One block of ModelData::ComputeLumpedMass, 1099-1144; the connectivity goes to the device here.
    ComputeCriticalTimeStep reads the host views. *)
Definition mass_block (sched : scheduler) (dbl_max : R) (gmasses : list view) (d : kdata) (e : nat * (nat * kblock)) : outcome kdata :=
  let '(block_index, (id, b)) := e in
  let mb := kb_mesh b in let n := mb_num_elem mb in let npe := mb_npe mb in
  do conn <- omapM (vget (mb_conn mb)) (seq 0 (n * npe));
  do gref <- vat (kd_gref d) block_index;
  do gmass <- vat gmasses block_index;
  do ref <- dev_node (kd_tables d) KVectorNode (f_ref (kd_ids d));
  do l <- gather_vector ref gref n npe conn;
  do h <- parallel_for sched [1; block_index] l (kd_heap d);
  do h <- parallel_for sched [7; block_index] (mass_loop (km_density (mb_mat mb)) gref gmass n) h;
  do mass <- dev_node (kd_tables d) KScalarNode (f_mass (kd_ids d));
  do l <- scatter_scalar mass gmass n npe conn;
  do h <- parallel_for sched [8; block_index] l h;
  do rid <- get_field_id (kd_tables d) (lit "reference_coordinate");
  do rh <- host_node (kd_tables d) KVectorNode (Some rid);
  do did <- get_field_id (kd_tables d) (lit "displacement");
  do dh <- host_node (kd_tables d) KVectorNode (Some did);
  do rv <- vget h (v_id rh);
  do dv <- vget h (v_id dh);
  let dt := block_critical_time_step dbl_max (km_bulk (mb_mat mb)) (km_density (mb_mat mb)) (arr_of rv) (arr_of dv) n (fun k => nth k conn 0) zeros in
  Ok (KD (kd_same d) (kd_tables d) h (kd_ids d) (map_put id (KBlock mb conn) (kd_blocks d)) (kd_gref d) (kd_gdisp d) (kd_gforce d)
         (lower dt (kd_dt d)) (kd_disp d) (kd_vel d)).
(** ModelData::ComputeLumpedMass, 1078-1153; [keep] as in [resize] *)
Definition compute_lumped_mass_data (sched : scheduler) (keep : bool) (dbl_max : R) (reduce : list R -> list R) (d : kdata) : outcome kdata :=
  let sizes := map (fun e => mb_num_elem (kb_mesh (snd e))) (kd_blocks d) in
  do g <- gathered_vector keep (kd_heap d) (length (kd_blocks d)) sizes 8;
  do mh <- host_node (kd_tables d) KScalarNode (f_mass (kd_ids d));
  do h <- fill (fst g) mh 0;
  do md <- dev_node (kd_tables d) KScalarNode (f_mass (kd_ids d));
  do h <- fill h md 0;
  let d := KD (kd_same d) (kd_tables d) h (kd_ids d) (kd_blocks d) (kd_gref d) (kd_gdisp d) (kd_gforce d) dbl_max (kd_disp d) (kd_vel d) in
  do d <- ofold (mass_block sched dbl_max (snd g)) (numbered (kd_blocks d)) d;
  do h <- deep_copy (kd_heap d) mh md;
  do m <- vget h (v_id mh);
  Ok (with_heap d (list_set h (v_id mh) (reduce m))).

(** One block of ModelData::UpdateStates, 981-1030: every lookup for the state variables uses the
    full-tensor type *)
Definition update_block (d : kdata) (h : heap) (e : nat * kblock) : outcome heap :=
  let '(id, b) := e in
  let ids := kd_ids d in let tb := kd_tables d in
  let look k f st := dev_ipt tb k id f st in
  do F_n <- look KFullIntPt (f_def_grad ids) STEP_N;
  do U_n <- look KSymIntPt (f_unrotated ids) STEP_N;
  do S_n <- look KSymIntPt (f_stress ids) STEP_N;
  do F_np1 <- look KFullIntPt (f_def_grad ids) STEP_NP1;
  do U_np1 <- look KSymIntPt (f_unrotated ids) STEP_NP1;
  do S_np1 <- look KSymIntPt (f_stress ids) STEP_NP1;
  do h <- deep_copy h F_n F_np1;
  do h <- deep_copy h U_n U_np1;
  do h <- deep_copy h S_n S_np1;
  let copy f h := match f with
                  | None => Ok h
                  | Some _ => do a <- look KFullIntPt f STEP_N; do b <- look KFullIntPt f STEP_NP1; deep_copy h a b
                  end in
  if 0 <? km_states (mb_mat (kb_mesh b)) then
    do h <- copy (f_sym ids) h; do h <- copy (f_full ids) h; do h <- copy (f_scalar ids) h; copy (f_vec3D ids) h
  else Ok h.
(** ModelData::UpdateStates, 974-1032 *)
Definition update_states (d : kdata) : outcome kdata :=
  do h <- ofold (update_block d) (kd_blocks d) (kd_heap d); Ok (with_heap d h).

(** The views kept by InitializeExodusOutput, 1325-1331 *)
Definition keep_views (d : kdata) : outcome kdata :=
  do uh <- host_node (kd_tables d) KVectorNode (f_disp (kd_ids d));
  do ud <- dev_node (kd_tables d) KVectorNode (f_disp (kd_ids d));
  do vh <- host_node (kd_tables d) KVectorNode (f_vel (kd_ids d));
  do vd <- dev_node (kd_tables d) KVectorNode (f_vel (kd_ids d));
  Ok (KD (kd_same d) (kd_tables d) (kd_heap d) (kd_ids d) (kd_blocks d) (kd_gref d) (kd_gdisp d) (kd_gforce d) (kd_dt d) (Some (uh, ud)) (Some (vh, vd))).
(** UpdateWithNewDisplacement, UpdateWithNewVelocity, 1729-1740; before InitializeExodusOutput the
    members are default-constructed views and the copy of two empty views does nothing *)
Definition copy_views (p : option (view * view)) (d : kdata) : outcome kdata :=
  match p with None => Ok d | Some (vh, vd) => do h <- deep_copy (kd_heap d) vd vh; Ok (with_heap d h) end.
Definition update_with_new_displacement (d : kdata) : outcome kdata := copy_views (kd_disp d) d.
Definition update_with_new_velocity (d : kdata) : outcome kdata := copy_views (kd_vel d) d.

(** GetVectorNodeData, 1042-1050, followed by an assignment view(i, c) = x: what the integrators and
    the boundary conditions do with a node field on the host *)
Definition host_write (d : kdata) (id : option nat) (i c : nat) (x : R) : outcome kdata :=
  do v <- host_node (kd_tables d) KVectorNode id;
  do _ <- rd (kd_heap d) (v_id v, i * 3 + c);
  Ok (with_heap d (wr (kd_heap d) (v_id v, i * 3 + c) x)).
Definition host_read (d : kdata) (id : option nat) : outcome (list R) :=
  do v <- host_node (kd_tables d) KVectorNode id; vget (kd_heap d) (v_id v).
