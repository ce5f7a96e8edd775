(** Model of contact entities, projection and penalty enforcement (nimble_contact_entity.h/.cc,
    nimble_contact_manager.h/.cc, contact/serial, contact/parallel).  double is modelled by R; the
    three members c_x_, c_y_, c_z_ of a C++ object are one V3.  Node indices are nat. *)
From Verif Require Import Base Loops.
From Coq Require Import Reals.
Set Implicit Arguments.
Local Open Scope R_scope.

(** an array of double *)
Notation arr := (nat -> R).
Record V3 := mkV3 { vx : R; vy : R; vz : R }.
Definition vzero : V3 := mkV3 0 0 0.
(** CrossProduct, nimble_utils.h 393-400 *)
Definition cross_product (u v : V3) : V3 :=
  mkV3 (vy u * vz v - vz u * vy v) (vz u * vx v - vx u * vz v) (vx u * vy v - vy u * vx v).

(** ContactEntityType, nimble_contact_entity.h 119-124 *)
Inductive entity_type := NONE | NODE | TRIANGLE.
(** The data members, nimble_contact_entity.h 534-600; the four ids for the fictitious node are a list *)
Record entity := Entity {
  entity_type_ : entity_type; num_nodes_ : nat;
  coord_1 : V3; coord_2 : V3; coord_3 : V3;
  force_1 : V3; force_2 : V3; force_3 : V3;
  inflation_factor : R; char_len_ : R;
  bounding_box_min : V3; bounding_box_max : V3; centroid_ : V3;
  node_id_for_node_1_ : nat; node_id_for_node_2_ : nat; node_ids_for_fictitious_node_ : list nat;
  contact_entity_global_id_ : Z; local_id_ : Z; contact_status_ : bool }.
Definition dbl_max : R := (2 - / 2 ^ 52) * 2 ^ 1023.
(** Member initialisers, 534-600 (the node ids are -1 there: reading the vectors with them would be
    out of range; here 0, and no theorem is about an entity whose ids were not set) *)
Definition default_entity : entity :=
  Entity NONE 0 vzero vzero vzero vzero vzero vzero (15 / 100) 0
    (mkV3 (- dbl_max) (- dbl_max) (- dbl_max)) (mkV3 dbl_max dbl_max dbl_max) vzero 0 0 [0; 0; 0; 0]%nat (-1) (-1) false.

Definition with_coords (e : entity) (c1 c2 c3 : V3) : entity :=
  Entity (entity_type_ e) (num_nodes_ e) c1 c2 c3 (force_1 e) (force_2 e) (force_3 e) (inflation_factor e) (char_len_ e)
    (bounding_box_min e) (bounding_box_max e) (centroid_ e) (node_id_for_node_1_ e) (node_id_for_node_2_ e)
    (node_ids_for_fictitious_node_ e) (contact_entity_global_id_ e) (local_id_ e) (contact_status_ e).
Definition with_forces (e : entity) (f1 f2 f3 : V3) : entity :=
  Entity (entity_type_ e) (num_nodes_ e) (coord_1 e) (coord_2 e) (coord_3 e) f1 f2 f3 (inflation_factor e) (char_len_ e)
    (bounding_box_min e) (bounding_box_max e) (centroid_ e) (node_id_for_node_1_ e) (node_id_for_node_2_ e)
    (node_ids_for_fictitious_node_ e) (contact_entity_global_id_ e) (local_id_ e) (contact_status_ e).
Definition with_box (e : entity) (bmin bmax c : V3) : entity :=
  Entity (entity_type_ e) (num_nodes_ e) (coord_1 e) (coord_2 e) (coord_3 e) (force_1 e) (force_2 e) (force_3 e) (inflation_factor e) (char_len_ e)
    bmin bmax c (node_id_for_node_1_ e) (node_id_for_node_2_ e)
    (node_ids_for_fictitious_node_ e) (contact_entity_global_id_ e) (local_id_ e) (contact_status_ e).
Definition with_status (e : entity) (s : bool) : entity :=
  Entity (entity_type_ e) (num_nodes_ e) (coord_1 e) (coord_2 e) (coord_3 e) (force_1 e) (force_2 e) (force_3 e) (inflation_factor e) (char_len_ e)
    (bounding_box_min e) (bounding_box_max e) (centroid_ e) (node_id_for_node_1_ e) (node_id_for_node_2_ e)
    (node_ids_for_fictitious_node_ e) (contact_entity_global_id_ e) (local_id_ e) s.

(** if (x < y) y = x;   if (x > y) y = x; *)
Definition lower_to (x y : R) : R := if Rlt_dec x y then x else y.
Definition raise_to (x y : R) : R := if Rlt_dec y x then x else y.
(** SetBoundingBox, nimble_contact_entity.cc 75-122 *)
Definition set_bounding_box (e : entity) : entity :=
  let c := coord_1 e in let bmin := coord_1 e in let bmax := coord_1 e in
  let '(c, bmin, bmax) :=
    match entity_type_ e with
    | TRIANGLE =>
        let p := coord_2 e in
        let c := mkV3 (vx c + vx p) (vy c + vy p) (vz c + vz p) in
        let bmin := mkV3 (lower_to (vx p) (vx bmin)) (lower_to (vy p) (vy bmin)) (lower_to (vz p) (vz bmin)) in
        let bmax := mkV3 (raise_to (vx p) (vx bmax)) (raise_to (vy p) (vy bmax)) (raise_to (vz p) (vz bmax)) in
        let p := coord_3 e in
        let c := mkV3 (vx c + vx p) (vy c + vy p) (vz c + vz p) in
        let bmin := mkV3 (lower_to (vx p) (vx bmin)) (lower_to (vy p) (vy bmin)) (lower_to (vz p) (vz bmin)) in
        let bmax := mkV3 (raise_to (vx p) (vx bmax)) (raise_to (vy p) (vy bmax)) (raise_to (vz p) (vz bmax)) in
        (c, bmin, bmax)
    | _ => (c, bmin, bmax)
    end in
  let n := INR (num_nodes_ e) in
  let c := mkV3 (vx c / n) (vy c / n) (vz c / n) in
  let inflation_length := inflation_factor e * char_len_ e in
  with_box e (mkV3 (vx bmin - inflation_length) (vy bmin - inflation_length) (vz bmin - inflation_length))
             (mkV3 (vx bmax + inflation_length) (vy bmax + inflation_length) (vz bmax + inflation_length)) c.

(** Three consecutive entries of an array of coordinates or forces *)
Definition at3 (a : arr) (n : nat) : V3 := mkV3 (a n) (a (n + 1)%nat) (a (n + 2)%nat).
(** Constructor, nimble_contact_entity.h 186-230.  For an entity type other than NODE and TRIANGLE
    the C++ only prints; no caller does that. *)
Definition make_node (gid lid : Z) (coord : V3) (char_len : R) (node_id : nat) : entity :=
  let d := default_entity in
  set_bounding_box (Entity NODE 1 coord (coord_2 d) (coord_3 d) (force_1 d) (force_2 d) (force_3 d) (inflation_factor d) char_len
    (bounding_box_min d) (bounding_box_max d) (centroid_ d) node_id (node_id_for_node_2_ d) (node_ids_for_fictitious_node_ d) gid lid false).
Definition make_triangle (gid lid : Z) (c1 c2 c3 : V3) (char_len : R) (n1 n2 : nat) (fictitious : list nat) : entity :=
  let d := default_entity in
  set_bounding_box (Entity TRIANGLE 3 c1 c2 c3 (force_1 d) (force_2 d) (force_3 d) (inflation_factor d) char_len
    (bounding_box_min d) (bounding_box_max d) (centroid_ d) n1 n2 fictitious gid lid false).

(** SetCoordinates, nimble_contact_entity.h 235-257 *)
Definition set_coordinates (coord : arr) (e : entity) : entity :=
  let e := with_coords e (at3 coord (3 * node_id_for_node_1_ e)) (coord_2 e) (coord_3 e) in
  let e := match entity_type_ e with
    | TRIANGLE =>
        let n k := (3 * nth k (node_ids_for_fictitious_node_ e) 0)%nat in
        with_coords e (coord_1 e) (at3 coord (3 * node_id_for_node_2_ e))
          (mkV3 ((coord (n 0) + coord (n 1) + coord (n 2) + coord (n 3)) / 4)
                ((coord (n 0 + 1) + coord (n 1 + 1) + coord (n 2 + 1) + coord (n 3 + 1)) / 4)
                ((coord (n 0 + 2) + coord (n 1 + 2) + coord (n 2 + 2) + coord (n 3 + 2)) / 4))%nat
    | _ => e
    end in
  set_bounding_box e.

(** force[n] += .., force[n + 1] += .., force[n + 2] += .. *)
Definition add3 (force : arr) (n : nat) (v : V3) : arr :=
  let force := upd force n (force n + vx v) in
  let force := upd force (n + 1) (force (n + 1)%nat + vy v) in
  upd force (n + 2) (force (n + 2)%nat + vz v).
(** ScatterForceToContactManagerForceVector, nimble_contact_entity.h 259-301 *)
Definition scatter (e : entity) (force : arr) : arr :=
  let force := add3 force (3 * node_id_for_node_1_ e) (force_1 e) in
  match entity_type_ e with
  | TRIANGLE =>
      let force := add3 force (3 * node_id_for_node_2_ e) (force_2 e) in
      fold_left (fun force n => add3 force (3 * n) (mkV3 (vx (force_3 e) / 4) (vy (force_3 e) / 4) (vz (force_3 e) / 4)))
                (node_ids_for_fictitious_node_ e) force
  | _ => force
  end.
Definition scale (s : R) (v : V3) : V3 := mkV3 (s * vx v) (s * vy v) (s * vz v).
(** SetNodalContactForces, nimble_contact_entity.h 427-453; [N] is None for a null pointer *)
Definition set_nodal_contact_forces (e : entity) (contact_force : V3) (N : option V3) : outcome entity :=
  match entity_type_ e with
  | NONE => Ok e
  | NODE => Ok (with_forces e (mkV3 (- vx contact_force) (- vy contact_force) (- vz contact_force)) (force_2 e) (force_3 e))
  | TRIANGLE =>
      match N with
      | None => Throw
      | Some N => Ok (with_forces e (scale (vx N) contact_force) (scale (vy N) contact_force) (scale (vz N) contact_force))
      end
  end.
(** details::getContactForce, nimble_contact_manager.h 82-87 *)
Definition get_contact_force (penalty gap : R) (normal : V3) : V3 :=
  let s := penalty * gap in mkV3 (s * vx normal) (s * vy normal) (s * vz normal).
(** PenaltyContactEnforcement::EnforceContact, nimble_contact_manager.h 95-131; the copies start as
    default-constructed entities *)
Definition copy_ids (face : entity) : entity :=
  let d := default_entity in
  Entity (entity_type_ face) (num_nodes_ d) (coord_1 d) (coord_2 d) (coord_3 d) (force_1 d) (force_2 d) (force_3 d) (inflation_factor d) (char_len_ d)
    (bounding_box_min d) (bounding_box_max d) (centroid_ d) (node_id_for_node_1_ face) (node_id_for_node_2_ face)
    (node_ids_for_fictitious_node_ face) (contact_entity_global_id_ d) (local_id_ d) (contact_status_ d).
Definition copy_node (node : entity) : entity :=
  let d := default_entity in
  Entity NODE (num_nodes_ d) (coord_1 d) (coord_2 d) (coord_3 d) (force_1 d) (force_2 d) (force_3 d) (inflation_factor d) (char_len_ d)
    (bounding_box_min d) (bounding_box_max d) (centroid_ d) (node_id_for_node_1_ node) (node_id_for_node_2_ d)
    (node_ids_for_fictitious_node_ d) (contact_entity_global_id_ d) (local_id_ d) (contact_status_ d).
Definition enforce_contact (penalty : R) (node face : entity) (gap : R) (normal barycentric : V3) (force : arr) : outcome arr :=
  let contact_force := get_contact_force penalty gap normal in
  do tmp_face <- set_nodal_contact_forces (copy_ids face) contact_force (Some barycentric);
  let force := scatter tmp_face force in
  do tmp_node <- set_nodal_contact_forces (copy_node node) contact_force None;
  Ok (scatter tmp_node force).

(** ContactManager::Projection, nimble_contact_manager.cc 1549-1620: in, gap, normal, barycentric
    coordinates; the last three keep their old value unless the projection is inside.
    A degenerate triangle (n = 0): all three numerators are 0, in C++ 0/0 is NaN and every
    comparison with it is false, so the outputs stay and in = false. *)
Definition vsub (a b : V3) : V3 := mkV3 (vx a - vx b) (vy a - vy b) (vz a - vz b).
Definition within (a x b : R) : bool := (if Rlt_dec a x then true else false) && (if Rlt_dec x b then true else false).
Record projection_result := Proj { pr_in : bool; pr_gap : R; pr_normal : V3; pr_bary : V3 }.
Definition projection (node tri : entity) (gap0 : R) (normal0 bary0 : V3) (tol : R) : projection_result :=
  let p := coord_1 node in
  let p1 := coord_1 tri in let p2 := coord_2 tri in let p3 := coord_3 tri in
  let u := vsub p2 p1 in let v := vsub p3 p1 in let w := vsub p p1 in
  let n := cross_product u v in
  let n_squared := vx n * vx n + vy n * vy n + vz n * vz n in
  if Req_EM_T n_squared 0 then Proj false gap0 normal0 bary0 else
  let cross := cross_product u w in
  let alpha3 := (vx cross * vx n + vy cross * vy n + vz cross * vz n) / n_squared in
  let cross := cross_product w v in
  let alpha2 := (vx cross * vx n + vy cross * vy n + vz cross * vz n) / n_squared in
  let alpha1 := 1 - alpha2 - alpha3 in
  let tol2 := 1 + tol in
  let a1 := within (- tol) alpha1 tol2 in
  let a2 := within (- tol) alpha2 tol2 in
  let a3 := within (- tol) alpha3 tol2 in
  if a1 && a2 && a3 then
    let xp := alpha1 * vx p1 + alpha2 * vx p2 + alpha3 * vx p3 in
    let yp := alpha1 * vy p1 + alpha2 * vy p2 + alpha3 * vy p3 in
    let zp := alpha1 * vz p1 + alpha2 * vz p2 + alpha3 * vz p3 in
    let dx := vx p - xp in let dy := vy p - yp in let dz := vz p - zp in
    let s := 1 / sqrt n_squared in
    let normal := mkV3 (vx n * s) (vy n * s) (vz n * s) in
    let gap := dx * vx normal + dy * vy normal + dz * vz normal in
    Proj (within (- char_len_ tri) gap 0) gap normal (mkV3 alpha1 alpha2 alpha3)
  else Proj false gap0 normal0 bary0.

(** ** Closest point *)
(** PointEdgeClosestPointFindT and PointEdgeClosestPointFindDistanceSquared, nimble_contact_entity.h 90-108 *)
Definition find_t (p1 p2 p : V3) : R :=
  ((vx p - vx p1) * (vx p2 - vx p1) + (vy p - vy p1) * (vy p2 - vy p1) + (vz p - vz p1) * (vz p2 - vz p1)) /
  ((vx p2 - vx p1) * (vx p2 - vx p1) + (vy p2 - vy p1) * (vy p2 - vy p1) + (vz p2 - vz p1) * (vz p2 - vz p1)).
Definition find_distance_squared (p1 p2 p : V3) (t : R) : R :=
  let temp1 := vx p1 + (vx p2 - vx p1) * t - vx p in
  let temp2 := vy p1 + (vy p2 - vy p1) * t - vy p in
  let temp3 := vz p1 + (vz p2 - vz p1) * t - vz p in
  temp1 * temp1 + temp2 * temp2 + temp3 * temp3.
Inductive projection_type := UNKNOWN | NODE_OR_EDGE | FACE.
(** The candidate edge a-b, e.g. nimble_contact_manager.cc 1401-1409; the state is the smallest
    squared distance so far, its t and its case *)
Definition try_edge (a b p : V3) (c : nat) (st : R * R * nat) : R * R * nat :=
  let '(min_distance_squared, min_t, min_case) := st in
  let t := find_t a b p in
  if within 0 t 1 then
    let d := find_distance_squared a b p t in
    if Rlt_dec d min_distance_squared then (d, t, c) else st
  else st.
Definition try_vertex (a p : V3) (c : nat) (st : R * R * nat) : R * R * nat :=
  let '(min_distance_squared, min_t, min_case) := st in
  let x := vx a - vx p in let y := vy a - vy p in let z := vz a - vz p in
  let d := x * x + y * y + z * z in
  if Rlt_dec d min_distance_squared then (d, min_t, c) else st.
Definition on_edge (a b : V3) (t : R) : V3 :=
  mkV3 (vx a + (vx b - vx a) * t) (vy a + (vy b - vy a) * t) (vz a + (vz b - vz a) * t).
(** ContactManager::ClosestPointProjectionSingle, nimble_contact_manager.cc 1299-1463.
    [junk] is the uninitialised min_distance_squared_t.  For a degenerate triangle the comparisons
    with NaN fail and the else branch is taken, as here. *)
Definition closest_point_projection_single (node tri : entity) (tol junk : R) : V3 * projection_type :=
  let p := coord_1 node in
  let p1 := coord_1 tri in let p2 := coord_2 tri in let p3 := coord_3 tri in
  let u := vsub p2 p1 in let v := vsub p3 p1 in let w := vsub p p1 in
  let n := cross_product u v in
  let n_squared := vx n * vx n + vy n * vy n + vz n * vz n in
  let cross := cross_product u w in
  let gamma := (vx cross * vx n + vy cross * vy n + vz cross * vz n) / n_squared in
  let cross := cross_product w v in
  let beta := (vx cross * vx n + vy cross * vy n + vz cross * vz n) / n_squared in
  let alpha := 1 - gamma - beta in
  let nonzero := if Req_EM_T n_squared 0 then false else true in
  let alpha_is_zero := within (- tol) alpha tol in
  let alpha_in_range := within (- tol) alpha (1 + tol) in
  let beta_is_zero := within (- tol) beta tol in
  let beta_in_range := within (- tol) beta (1 + tol) in
  let gamma_is_zero := within (- tol) gamma tol in
  let gamma_in_range := within (- tol) gamma (1 + tol) in
  if nonzero && (alpha_in_range && beta_in_range && gamma_in_range) then
    (mkV3 (alpha * vx p1 + beta * vx p2 + gamma * vx p3)
          (alpha * vy p1 + beta * vy p2 + gamma * vy p3)
          (alpha * vz p1 + beta * vz p2 + gamma * vz p3),
     if alpha_is_zero || beta_is_zero || gamma_is_zero then NODE_OR_EDGE else FACE)
  else
    let x := vx p1 - vx p in let y := vy p1 - vy p in let z := vz p1 - vz p in
    let st := (x * x + y * y + z * z, junk, 1%nat) in
    let st := try_vertex p2 p 2 st in
    let st := try_vertex p3 p 3 st in
    let st := try_edge p1 p2 p 4 st in
    let st := try_edge p2 p3 p 5 st in
    let st := try_edge p3 p1 p 6 st in
    let '(_, t, min_case) := st in
    (match min_case with
     | 2%nat => p2
     | 3%nat => p3
     | 4%nat => on_edge p1 p2 t
     | 5%nat => on_edge p2 p3 t
     | 6%nat => on_edge p3 p1 t
     | _ => p1
     end, NODE_OR_EDGE).

(** ** Enforcement over all pairs *)
(** ContactManager::ApplyDisplacements, nimble_contact_manager.cc 750-785: the new coordinates (over the
    old contents of coord) and entities.  Each iteration of a parallel_for writes its own entries. *)
Definition apply_coord (node_ids : list nat) (model_coord displacement coord : arr) : arr :=
  floop 0 (length node_ids) (fun i coord =>
    let node_id := nth i node_ids 0%nat in
    let coord := upd coord (3 * i) (model_coord (3 * i)%nat + displacement (3 * node_id)%nat) in
    let coord := upd coord (3 * i + 1) (model_coord (3 * i + 1)%nat + displacement (3 * node_id + 1)%nat) in
    upd coord (3 * i + 2) (model_coord (3 * i + 2)%nat + displacement (3 * node_id + 2)%nat)) coord.
(** ContactManager::GetForces, nimble_contact_manager.cc 732-748 *)
Definition get_forces (node_ids : list nat) (force contact_force : arr) : arr :=
  floop 0 (length node_ids) (fun i cf =>
    let node_id := nth i node_ids 0%nat in
    let cf := upd cf (3 * node_id) (force (3 * i)%nat) in
    let cf := upd cf (3 * node_id + 1) (force (3 * i + 1)%nat) in
    upd cf (3 * node_id + 2) (force (3 * i + 2)%nat)) contact_force.
(** ContactManager::ZeroContactForce, nimble_contact_manager.cc 1628-1660, for the force vector *)
Definition zero_force : arr := fun _ => 0.

(** The manager's state seen by an enforcement: faces, nodes and force vector *)
Record contact_state := CS { cs_nodes : list entity; cs_faces : list entity; cs_force : arr }.
(** ArborXCallback::operator(), contact/serial/arborx_serial_contact_manager.cc 118-145: one pair
    (node i, face j) that the search reports.  The default tolerance of Projection is 1.0e-8. *)
Definition default_tol : R := / 10 ^ 8.
Definition serial_callback (penalty : R) (pair : nat * nat) (s : contact_state) : outcome contact_state :=
  do node <- vget (cs_nodes s) (fst pair);
  do face <- vget (cs_faces s) (snd pair);
  let r := projection node face 0 vzero vzero default_tol in
  if pr_in r then
    let faces := list_set (cs_faces s) (snd pair) (with_status face true) in
    let nodes := list_set (cs_nodes s) (fst pair) (with_status node true) in
    do force <- enforce_contact penalty node face (pr_gap r) (pr_normal r) (pr_bary r) (cs_force s);
    Ok (CS nodes faces force)
  else Ok s.
(** ComputeSerialContactForce, arborx_serial_contact_manager.cc 147-193, within ApplyDisplacements
    and GetForces.  [pairs] is what the bounding volume search reports, in the order (schedule) in
    which the callbacks run. *)
Definition reset_status (e : entity) : entity := with_status e false.
Definition serial_contact (penalty : R) (nodes faces : list entity) (pairs : list (nat * nat)) : outcome contact_state :=
  if Rlt_dec 0 penalty then
    ofold (fun s pair => serial_callback penalty pair s) pairs (CS (map reset_status nodes) (map reset_status faces) zero_force)
  else Abort.
(** A whole contact evaluation: ComputeSerialContactForce, arborx_serial_contact_manager.cc 147-193:
    contact_force zeroed, ApplyDisplacements, enforcement, GetForces. *)
Definition compute_serial_contact_force (penalty : R) (node_ids : list nat) (model_coord displacement coord : arr)
    (nodes faces : list entity) (pairs : list (nat * nat)) : outcome (contact_state * arr * arr) :=
  let coord := apply_coord node_ids model_coord displacement coord in
  let nodes := map (set_coordinates coord) nodes in
  let faces := map (set_coordinates coord) faces in
  do s <- serial_contact penalty nodes faces pairs;
  Ok (s, coord, get_forces node_ids (cs_force s) (fun _ => 0)).
