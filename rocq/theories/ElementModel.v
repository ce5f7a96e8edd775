(** Model of the eight-node hexahedron (nimble_element.h, nimble_element.cc, CPU overloads).
    double is modelled by R (exact arithmetic); arrays by functions from the flat index.  The
    views (Viewify<2>(data, {n, d}, {d, 1})) read data[d * n + i]. *)
From Verif Require Import Base Loops TensorModel.
From Coq Require Import Reals.
Set Implicit Arguments.
Local Open Scope nat_scope.

(** nimble_element.cc 56-59: the decimal written in the source, not 1/sqrt(3) *)
Definition val : R := (577350269189626 / 10 ^ 15)%R.
(** HexElement::HexElement, nimble_element.cc 55-92 *)
Definition int_pts : arr := fun k => nth k
  [- val; - val; - val; val; - val; - val; val; val; - val; - val; val; - val; - val; - val; val; val; - val; val; val; val; val; - val; val; val]%R 0%R.
(** nimble_element.cc 94 *)
Definition int_wts : arr := fun _ => 1%R.

(** ShapeFunctionValues, nimble_element.cc 99-122; [v] is the output array *)
Definition shape_function_values (natural_coords v : arr) : arr :=
  let c := (1 / 8)%R in
  floop 0 8 (fun i v =>
    let r := natural_coords (3 * i) in
    let s := natural_coords (3 * i + 1) in
    let t := natural_coords (3 * i + 2) in
    let v := upd v (8 * i + 0) (c * (1 - r) * (1 - s) * (1 - t))%R in
    let v := upd v (8 * i + 1) (c * (1 + r) * (1 - s) * (1 - t))%R in
    let v := upd v (8 * i + 2) (c * (1 + r) * (1 + s) * (1 - t))%R in
    let v := upd v (8 * i + 3) (c * (1 - r) * (1 + s) * (1 - t))%R in
    let v := upd v (8 * i + 4) (c * (1 - r) * (1 - s) * (1 + t))%R in
    let v := upd v (8 * i + 5) (c * (1 + r) * (1 - s) * (1 + t))%R in
    let v := upd v (8 * i + 6) (c * (1 + r) * (1 + s) * (1 + t))%R in
    let v := upd v (8 * i + 7) (c * (1 - r) * (1 + s) * (1 + t))%R in
    v) v.
(** ShapeFunctionDerivatives, nimble_element.cc 124-171 *)
Definition shape_function_derivatives (natural_coords v : arr) : arr :=
  let c := (1 / 8)%R in
  floop 0 8 (fun i v =>
    let r := natural_coords (3 * i) in
    let s := natural_coords (3 * i + 1) in
    let t := natural_coords (3 * i + 2) in
    let v := upd v (24 * i + 0) (-c * (1 - s) * (1 - t))%R in
    let v := upd v (24 * i + 1) (-c * (1 - r) * (1 - t))%R in
    let v := upd v (24 * i + 2) (-c * (1 - r) * (1 - s))%R in
    let v := upd v (24 * i + 3) (c * (1 - s) * (1 - t))%R in
    let v := upd v (24 * i + 4) (-c * (1 + r) * (1 - t))%R in
    let v := upd v (24 * i + 5) (-c * (1 + r) * (1 - s))%R in
    let v := upd v (24 * i + 6) (c * (1 + s) * (1 - t))%R in
    let v := upd v (24 * i + 7) (c * (1 + r) * (1 - t))%R in
    let v := upd v (24 * i + 8) (-c * (1 + r) * (1 + s))%R in
    let v := upd v (24 * i + 9) (-c * (1 + s) * (1 - t))%R in
    let v := upd v (24 * i + 10) (c * (1 - r) * (1 - t))%R in
    let v := upd v (24 * i + 11) (-c * (1 - r) * (1 + s))%R in
    let v := upd v (24 * i + 12) (-c * (1 - s) * (1 + t))%R in
    let v := upd v (24 * i + 13) (-c * (1 - r) * (1 + t))%R in
    let v := upd v (24 * i + 14) (c * (1 - r) * (1 - s))%R in
    let v := upd v (24 * i + 15) (c * (1 - s) * (1 + t))%R in
    let v := upd v (24 * i + 16) (-c * (1 + r) * (1 + t))%R in
    let v := upd v (24 * i + 17) (c * (1 + r) * (1 - s))%R in
    let v := upd v (24 * i + 18) (c * (1 + s) * (1 + t))%R in
    let v := upd v (24 * i + 19) (c * (1 + r) * (1 + t))%R in
    let v := upd v (24 * i + 20) (c * (1 + r) * (1 + s))%R in
    let v := upd v (24 * i + 21) (-c * (1 + s) * (1 + t))%R in
    let v := upd v (24 * i + 22) (c * (1 - r) * (1 + t))%R in
    let v := upd v (24 * i + 23) (c * (1 - r) * (1 + s))%R in
    v) v.
(** nimble_element.cc 96-98; the members are uninitialised before (here: zero) *)
Definition shape_fcn_vals : arr := shape_function_values int_pts (fun _ => 0%R).
Definition shape_fcn_deriv : arr := shape_function_derivatives int_pts (fun _ => 0%R).

(** m[i][j] *)
Definition at2 (m : nat -> nat -> R) (i j : nat) : R := m i j.
Definition zero3 : nat -> nat -> R := fun _ _ => 0%R.
(** The accumulation of a = sum_n x_n (x) dN_n at an integration point, written out in
    nimble_element.h 281-299, 365-385, 445-482, 567-586 and nimble_element.cc 401-420; [x n i] is
    the view or expression giving coordinate i of node n *)
Definition jacobian_loop (x : nat -> nat -> R) (int_pt : nat) : nat -> nat -> R :=
  floop 0 8 (fun n a =>
    let c1 := x n 0 in
    let c2 := x n 1 in
    let c3 := x n 2 in
    let sfd1 := shape_fcn_deriv (24 * int_pt + 3 * n) in
    let sfd2 := shape_fcn_deriv (24 * int_pt + 3 * n + 1) in
    let sfd3 := shape_fcn_deriv (24 * int_pt + 3 * n + 2) in
    let a := upd2 a 0 0 (at2 a 0 0 + c1 * sfd1)%R in
    let a := upd2 a 0 1 (at2 a 0 1 + c1 * sfd2)%R in
    let a := upd2 a 0 2 (at2 a 0 2 + c1 * sfd3)%R in
    let a := upd2 a 1 0 (at2 a 1 0 + c2 * sfd1)%R in
    let a := upd2 a 1 1 (at2 a 1 1 + c2 * sfd2)%R in
    let a := upd2 a 1 2 (at2 a 1 2 + c2 * sfd3)%R in
    let a := upd2 a 2 0 (at2 a 2 0 + c3 * sfd1)%R in
    let a := upd2 a 2 1 (at2 a 2 1 + c3 * sfd2)%R in
    let a := upd2 a 2 2 (at2 a 2 2 + c3 * sfd3)%R in
    a) zero3.

(** ComputeConsistentMass_impl, nimble_element.h 266-314; m0 is the matrix passed in *)
Definition compute_consistent_mass (density : R) (coords : nat -> nat -> R) (m0 : nat -> nat -> R) : outcome (nat -> nat -> R) :=
  do jac_det <- oloop 0 8 (fun int_pt jac_det =>
      let a := jacobian_loop coords int_pt in
      do i <- invert3x3 a zero3;
      Ok (upd jac_det int_pt (snd i))) (fun _ => 0%R);
  Ok (floop 0 8 (fun i m => floop 0 8 (fun j m =>
        let m := upd2 m i j 0%R in
        floop 0 8 (fun int_pt m =>
          upd2 m i j (m i j + int_wts int_pt * density * shape_fcn_vals (int_pt * 8 + i)%nat
                              * shape_fcn_vals (int_pt * 8 + j)%nat * jac_det int_pt)%R) m) m) m0).
(** ComputeLumpedMass, nimble_element.cc 173-194 *)
Definition compute_lumped_mass (density : R) (node_reference_coords lumped_mass : arr) : outcome arr :=
  do m <- compute_consistent_mass density (fun n i => node_reference_coords (3 * n + i)) zero3;
  Ok (floop 0 8 (fun i l =>
        let l := upd l i 0%R in
        floop 0 8 (fun j l => upd l i (l i + m i j)%R) l) lumped_mass).

(** ComputeCharacteristicLength, nimble_element.cc 221-260; [dbl_max] stands for
    std::numeric_limits<double>::max().  State: x_min, x_max, y_min, y_max, z_min, z_max and the
    least squared distance *)
Record extents : Type := Extents { x_min : R; x_max : R; y_min : R; y_max : R; z_min : R; z_max : R; min_dsq : R }.
Definition lower (x m : R) : R := if Rlt_dec x m then x else m.
Definition higher (x m : R) : R := if Rlt_dec m x then x else m.
Definition compute_characteristic_length (dbl_max : R) (node_coords : arr) : R :=
  let e := floop 0 8 (fun n e =>
    let nx := node_coords (3 * n) in
    let ny := node_coords (3 * n + 1) in
    let nz := node_coords (3 * n + 2) in
    let d := floop (n + 1) 8 (fun m d =>
      let mx := node_coords (3 * m) in
      let my := node_coords (3 * m + 1) in
      let mz := node_coords (3 * m + 2) in
      let distance_squared := ((nx - mx) * (nx - mx) + (ny - my) * (ny - my) + (nz - mz) * (nz - mz))%R in
      lower distance_squared d) (min_dsq e) in
    Extents (lower nx (x_min e)) (higher nx (x_max e)) (lower ny (y_min e)) (higher ny (y_max e))
            (lower nz (z_min e)) (higher nz (z_max e)) d)
    (Extents dbl_max 0 dbl_max 0 dbl_max 0 dbl_max) in
  let characteristic_length := sqrt (min_dsq e) in
  let min_box_length := (x_max e - x_min e)%R in
  let min_box_length := lower (y_max e - y_min e)%R min_box_length in
  let min_box_length := lower (z_max e - z_min e)%R min_box_length in
  lower min_box_length characteristic_length.

(** ComputeVolumeAverageQuantities_impl, nimble_element.h 343-396, called by ComputeVolumeAverage
    (nimble_element.cc 262-282) with zero displacements; result (volume, averages) *)
Definition compute_volume_average (node_current_coords : arr) (num_quantities : nat) (int_pt_quantities : arr)
    (volume_averaged_quantities : arr) : outcome (R * arr) :=
  do s <- oloop 0 8 (fun int_pt (s : (nat -> nat -> R) * R * arr) =>
      let '(a_inv, volume, vol_ave) := s in
      let a := jacobian_loop (fun n i => node_current_coords (3 * n + i)%nat + 0)%R int_pt in
      do i <- invert3x3 a a_inv;
      let jac_det := snd i in
      let volume := (volume + jac_det)%R in
      let vol_ave := floop 0 num_quantities (fun i v =>
        upd v i (v i + int_pt_quantities (num_quantities * int_pt + i)%nat * int_wts int_pt * jac_det)%R) vol_ave in
      Ok (fst i, volume, vol_ave)) (zero3, 0%R, fun _ => 0%R);
  let '(a_inv, volume, vol_ave) := s in
  Ok (volume, snd (floop 0 num_quantities (fun i (s : arr * arr) =>
    let vol_ave := upd (fst s) i (fst s i / volume)%R in
    (vol_ave, upd (snd s) i (vol_ave i))) (vol_ave, volume_averaged_quantities))).

(** ComputeDeformationGradients_impl, nimble_element.h 430-508, called by
    ComputeDeformationGradients (nimble_element.cc 333-351) with displacements cur - ref *)
Definition compute_deformation_gradients (node_reference_coords node_current_coords deformation_gradients : arr) : outcome arr :=
  let disp := fun k => (node_current_coords k - node_reference_coords k)%R in
  do s <- oloop 0 8 (fun int_pt (s : (nat -> nat -> R) * (nat -> nat -> R) * arr) =>
      let '(b_inv, def_grad, out) := s in
      let a := jacobian_loop (fun j i => node_reference_coords (3 * j + i)%nat + disp (3 * j + i)%nat)%R int_pt in
      let b := jacobian_loop (fun j i => node_reference_coords (3 * j + i)) int_pt in
      do i <- invert3x3 b b_inv;
      let b_inv := fst i in
      let def_grad := floop 0 3 (fun j d => floop 0 3 (fun k d =>
        upd2 d j k (at2 a j 0 * at2 b_inv 0 k + at2 a j 1 * at2 b_inv 1 k + at2 a j 2 * at2 b_inv 2 k)%R) d) def_grad in
      let out := upd out (9 * int_pt + K_F_XX) (def_grad 0 0) in
      let out := upd out (9 * int_pt + K_F_XY) (def_grad 0 1) in
      let out := upd out (9 * int_pt + K_F_XZ) (def_grad 0 2) in
      let out := upd out (9 * int_pt + K_F_YX) (def_grad 1 0) in
      let out := upd out (9 * int_pt + K_F_YY) (def_grad 1 1) in
      let out := upd out (9 * int_pt + K_F_YZ) (def_grad 1 2) in
      let out := upd out (9 * int_pt + K_F_ZX) (def_grad 2 0) in
      let out := upd out (9 * int_pt + K_F_ZY) (def_grad 2 1) in
      let out := upd out (9 * int_pt + K_F_ZZ) (def_grad 2 2) in
      Ok (b_inv, def_grad, out)) (zero3, zero3, deformation_gradients);
  Ok (snd s).

(** ComputeTangent, nimble_element.cc 364-455; B keeps its entries between integration points *)
Definition tangent_B (int_pt : nat) (a_inv B : nat -> nat -> R) : nat -> nat -> R :=
  floop 0 8 (fun n B =>
    let sfd1 := shape_fcn_deriv (24 * int_pt + 3 * n) in
    let sfd2 := shape_fcn_deriv (24 * int_pt + 3 * n + 1) in
    let sfd3 := shape_fcn_deriv (24 * int_pt + 3 * n + 2) in
    let dN_dcc1 := (sfd1 * at2 a_inv 0 0 + sfd2 * at2 a_inv 1 0 + sfd3 * at2 a_inv 2 0)%R in
    let dN_dcc2 := (sfd1 * at2 a_inv 0 1 + sfd2 * at2 a_inv 1 1 + sfd3 * at2 a_inv 2 1)%R in
    let dN_dcc3 := (sfd1 * at2 a_inv 0 2 + sfd2 * at2 a_inv 1 2 + sfd3 * at2 a_inv 2 2)%R in
    let B := upd2 B 0 (3 * n) dN_dcc1 in
    let B := upd2 B 1 (3 * n + 1) dN_dcc2 in
    let B := upd2 B 2 (3 * n + 2) dN_dcc3 in
    let B := upd2 B 3 (3 * n) dN_dcc2 in
    let B := upd2 B 3 (3 * n + 1) dN_dcc1 in
    let B := upd2 B 4 (3 * n + 1) dN_dcc3 in
    let B := upd2 B 4 (3 * n + 2) dN_dcc2 in
    let B := upd2 B 5 (3 * n) dN_dcc3 in
    let B := upd2 B 5 (3 * n + 2) dN_dcc1 in
    B) B.
(** nimble_element.cc 441-445 *)
Definition tangent_temp (int_pt : nat) (material_tangent : arr) (B : nat -> nat -> R) : nat -> nat -> R :=
  floop 0 6 (fun i t => floop 0 24 (fun j t => floop 0 6 (fun k t =>
    upd2 t i j (t i j + material_tangent (36 * int_pt + 6 * i + k)%nat * B k j)%R) t) t) zero3.
(** nimble_element.cc 447-453 *)
Definition tangent_add (int_pt : nat) (jac_det : R) (B temp : nat -> nat -> R) (element_tangent : arr) : arr :=
  floop 0 24 (fun i t => floop 0 24 (fun j t => floop 0 6 (fun k t =>
    upd t (i * 24 + j) (t (i * 24 + j)%nat + B k i * temp k j * int_wts int_pt * jac_det)%R) t) t) element_tangent.
Definition compute_tangent (node_current_coords material_tangent element_tangent : arr) : outcome arr :=
  let element_tangent := floop 0 24 (fun i t => floop 0 24 (fun j t => upd t (i * 24 + j) 0%R) t) element_tangent in
  do s <- oloop 0 8 (fun int_pt (s : (nat -> nat -> R) * arr) =>
      let '(B, element_tangent) := s in
      let a := jacobian_loop (fun n i => node_current_coords (3 * n + i)) int_pt in
      do i <- invert3x3 a zero3;
      let a_inv := fst i in
      let jac_det := snd i in
      let B := tangent_B int_pt a_inv B in
      let temp := tangent_temp int_pt material_tangent B in
      Ok (B, tangent_add int_pt jac_det B temp element_tangent)) (zero3, element_tangent);
  Ok (snd s).

(** ComputeNodalForces_impl, nimble_element.h 540-628, called by ComputeNodalForces
    (nimble_element.cc 457-472) with zero displacements *)
Definition compute_nodal_forces (node_current_coords int_pt_stresses node_forces : arr) : outcome arr :=
  do s <- oloop 0 8 (fun int_pt (s : (nat -> nat -> R) * (nat -> nat -> R)) =>
      let '(a_inv, force) := s in
      let a := jacobian_loop (fun n i => node_current_coords (3 * n + i)%nat + 0)%R int_pt in
      do i <- invert3x3 a a_inv;
      let a_inv := fst i in
      let jac_det := snd i in
      let stress := fun k => int_pt_stresses (6 * int_pt + k) in
      let force := floop 0 8 (fun node force =>
        let s1 := shape_fcn_deriv (int_pt * 24 + 3 * node) in
        let s2 := shape_fcn_deriv (int_pt * 24 + 3 * node + 1) in
        let s3 := shape_fcn_deriv (int_pt * 24 + 3 * node + 2) in
        let dN_dx1 := (s1 * at2 a_inv 0 0 + s2 * at2 a_inv 1 0 + s3 * at2 a_inv 2 0)%R in
        let dN_dx2 := (s1 * at2 a_inv 0 1 + s2 * at2 a_inv 1 1 + s3 * at2 a_inv 2 1)%R in
        let dN_dx3 := (s1 * at2 a_inv 0 2 + s2 * at2 a_inv 1 2 + s3 * at2 a_inv 2 2)%R in
        let f1 := (dN_dx1 * stress K_S_XX + dN_dx2 * stress K_S_YX + dN_dx3 * stress K_S_ZX)%R in
        let f2 := (dN_dx1 * stress K_S_XY + dN_dx2 * stress K_S_YY + dN_dx3 * stress K_S_ZY)%R in
        let f3 := (dN_dx1 * stress K_S_XZ + dN_dx2 * stress K_S_YZ + dN_dx3 * stress K_S_ZZ)%R in
        let f1 := (f1 * (jac_det * int_wts int_pt))%R in
        let f2 := (f2 * (jac_det * int_wts int_pt))%R in
        let f3 := (f3 * (jac_det * int_wts int_pt))%R in
        let force := upd2 force node 0 (at2 force node 0 - f1)%R in
        let force := upd2 force node 1 (at2 force node 1 - f2)%R in
        let force := upd2 force node 2 (at2 force node 2 - f3)%R in
        force) force in
      Ok (a_inv, force)) (zero3, zero3);
  let force := snd s in
  Ok (floop 0 8 (fun node f =>
    let f := upd f (3 * node) (force node 0) in
    let f := upd f (3 * node + 1) (force node 1) in
    let f := upd f (3 * node + 2) (force node 2) in
    f) node_forces).
