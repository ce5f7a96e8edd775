(** Model of the materials (nimble_material.h, nimble_material.cc).  double is modelled by R. *)
From Verif Require Import Base Loops TensorModel.
From Coq Require Import Reals.
Set Implicit Arguments.
Local Open Scope nat_scope.

(** The members of a material that its routines read: nimble_material.h 417-422 *)
Record material : Type := Mat { density_ : R; bulk_modulus_ : R; shear_modulus_ : R }.

(** ElasticMaterial::GetStress at a point, nimble_material.cc 95-126; [s] is the stress array *)
Definition elastic_stress (m : material) (junk def_grad s : arr) : arr :=
  let two_mu := (2 * shear_modulus_ m)%R in
  let lambda := (bulk_modulus_ m - 2 * shear_modulus_ m / 3)%R in
  let strain := upd junk K_S_XX (def_grad K_F_XX - 1)%R in
  let strain := upd strain K_S_YY (def_grad K_F_YY - 1)%R in
  let strain := upd strain K_S_ZZ (def_grad K_F_ZZ - 1)%R in
  let strain := upd strain K_S_XY (1 / 2 * (def_grad K_F_XY + def_grad K_F_YX))%R in
  let strain := upd strain K_S_YZ (1 / 2 * (def_grad K_F_YZ + def_grad K_F_ZY))%R in
  let strain := upd strain K_S_ZX (1 / 2 * (def_grad K_F_ZX + def_grad K_F_XZ))%R in
  let trace_strain := (strain K_S_XX + strain K_S_YY + strain K_S_ZZ)%R in
  let s := upd s K_S_XX (two_mu * strain K_S_XX + lambda * trace_strain)%R in
  let s := upd s K_S_YY (two_mu * strain K_S_YY + lambda * trace_strain)%R in
  let s := upd s K_S_ZZ (two_mu * strain K_S_ZZ + lambda * trace_strain)%R in
  let s := upd s K_S_XY (two_mu * strain K_S_XY)%R in
  let s := upd s K_S_YZ (two_mu * strain K_S_YZ)%R in
  let s := upd s K_S_ZX (two_mu * strain K_S_ZX)%R in
  s.

(** std::cbrt *)
Definition cbrt (x : R) : R :=
  if Rlt_dec 0 x then Rpower x (/ 3) else if Rlt_dec x 0 then (- Rpower (- x) (/ 3))%R else 0%R.
(** NeohookeanMaterial::GetStress at a point, nimble_material.cc 252-310.  CheckVectorSanity
    (267-269) stops the program if an entry is not finite and is not modelled: real numbers are
    finite.  [cos3] is the helper of the eigenvalue routine (see TensorModel.v). *)
Definition neohookean_stress_with (cos3 : R -> R) (m : material) (junk def_grad s : arr) : outcome arr :=
  do vr <- polar_decomp_with cos3 junk def_grad junk junk;
  let v := fst vr in
  let xj := (v K_S_XX * v K_S_YY * v K_S_ZZ + 2 * v K_S_XY * v K_S_YZ * v K_S_ZX - v K_S_XX * v K_S_YZ * v K_S_YZ
             - v K_S_YY * v K_S_ZX * v K_S_ZX - v K_S_ZZ * v K_S_XY * v K_S_XY)%R in
  let cbrt_xj := cbrt xj in
  let fac := (1 / (cbrt_xj * cbrt_xj))%R in
  let pressure := (1 / 2 * bulk_modulus_ m * (xj - 1 / xj))%R in
  let bxx := (v K_S_XX * v K_S_XX + v K_S_XY * v K_S_YX + v K_S_XZ * v K_S_ZX)%R in
  let byy := (v K_S_YX * v K_S_XY + v K_S_YY * v K_S_YY + v K_S_YZ * v K_S_ZY)%R in
  let bzz := (v K_S_ZX * v K_S_XZ + v K_S_ZY * v K_S_YZ + v K_S_ZZ * v K_S_ZZ)%R in
  let bxy := (v K_S_XX * v K_S_XY + v K_S_XY * v K_S_YY + v K_S_XZ * v K_S_ZY)%R in
  let byz := (v K_S_YX * v K_S_XZ + v K_S_YY * v K_S_YZ + v K_S_YZ * v K_S_ZZ)%R in
  let bzx := (v K_S_ZX * v K_S_XX + v K_S_ZY * v K_S_YX + v K_S_ZZ * v K_S_ZX)%R in
  let bxx := (fac * bxx)%R in
  let byy := (fac * byy)%R in
  let bzz := (fac * bzz)%R in
  let bxy := (fac * bxy)%R in
  let byz := (fac * byz)%R in
  let bzx := (fac * bzx)%R in
  let trace := (bxx + byy + bzz)%R in
  let bxx := (bxx - trace / 3)%R in
  let byy := (byy - trace / 3)%R in
  let bzz := (bzz - trace / 3)%R in
  let s := upd s K_S_XX (pressure + shear_modulus_ m * bxx / xj)%R in
  let s := upd s K_S_YY (pressure + shear_modulus_ m * byy / xj)%R in
  let s := upd s K_S_ZZ (pressure + shear_modulus_ m * bzz / xj)%R in
  let s := upd s K_S_XY (shear_modulus_ m * bxy / xj)%R in
  let s := upd s K_S_YZ (shear_modulus_ m * byz / xj)%R in
  let s := upd s K_S_ZX (shear_modulus_ m * bzx / xj)%R in
  Ok s.
Definition neohookean_stress := neohookean_stress_with cos_of_acos_divided_by_3.

(** Writing through a pointer [offset] entries into an array *)
Definition window (a : arr) (offset : nat) : arr := fun k => a (offset + k).
Definition write_window (a : arr) (offset : nat) (w : arr) : arr := fun k => if k <? offset then a k else w (k - offset).

(** The loop over material points of GetStress, nimble_material.cc 83-91 and 241-249;
    [point F s] is the single-point routine *)
Definition points_stress (point : arr -> arr -> outcome arr) (num_pts : nat) (def_grad stress : arr) : outcome arr :=
  oloop 0 num_pts (fun pt stress =>
    do w <- point (window def_grad (9 * pt)) (window stress (6 * pt));
    Ok (write_window stress (6 * pt) w)) stress.
Definition elastic_get_stress (m : material) (junk : arr) := points_stress (fun F s => Ok (elastic_stress m junk F s)).
Definition neohookean_get_stress_with cos3 (m : material) (junk : arr) := points_stress (neohookean_stress_with cos3 m junk).

(** GetOffNominalStress of both materials, nimble_material.cc 128-158 and 312-342: the object is
    modified and restored around the calls.  The result is the object afterwards and the stress.
    (If a point throws or aborts, the object keeps the off-nominal moduli; nothing is returned.) *)
Definition off_nominal_stress (point : material -> arr -> arr -> outcome arr) (m : material) (bulk_mod shear_mod : R) (num_pts : nat)
    (def_grad stress : arr) : outcome (material * arr) :=
  let old_bulk := bulk_modulus_ m in
  let old_shear := shear_modulus_ m in
  let m := Mat (density_ m) bulk_mod (shear_modulus_ m) in
  let m := Mat (density_ m) (bulk_modulus_ m) shear_mod in
  do stress <- points_stress (point m) num_pts def_grad stress;
  let m := Mat (density_ m) old_bulk (shear_modulus_ m) in
  let m := Mat (density_ m) (bulk_modulus_ m) old_shear in
  Ok (m, stress).

(** ElasticMaterial::GetTangent, nimble_material.cc 160-206, and NeohookeanMaterial::GetTangent,
    344-390 (the same statements) *)
Definition get_tangent (m : material) (num_pts : nat) (material_tangent : arr) : arr :=
  let lambda := (bulk_modulus_ m - 2 * shear_modulus_ m / 3)%R in
  let mu := shear_modulus_ m in
  let two_mu := (2 * shear_modulus_ m)%R in
  floop 0 num_pts (fun int_pt t =>
    let offset := int_pt * 36 in
    let t := upd t (offset + 0) (lambda + two_mu)%R in
    let t := upd t (offset + 1) (lambda)%R in
    let t := upd t (offset + 2) (lambda)%R in
    let t := upd t (offset + 3) (0)%R in
    let t := upd t (offset + 4) (0)%R in
    let t := upd t (offset + 5) (0)%R in
    let t := upd t (offset + 6) (lambda)%R in
    let t := upd t (offset + 7) (lambda + two_mu)%R in
    let t := upd t (offset + 8) (lambda)%R in
    let t := upd t (offset + 9) (0)%R in
    let t := upd t (offset + 10) (0)%R in
    let t := upd t (offset + 11) (0)%R in
    let t := upd t (offset + 12) (lambda)%R in
    let t := upd t (offset + 13) (lambda)%R in
    let t := upd t (offset + 14) (lambda + two_mu)%R in
    let t := upd t (offset + 15) (0)%R in
    let t := upd t (offset + 16) (0)%R in
    let t := upd t (offset + 17) (0)%R in
    let t := upd t (offset + 18) (0)%R in
    let t := upd t (offset + 19) (0)%R in
    let t := upd t (offset + 20) (0)%R in
    let t := upd t (offset + 21) (mu)%R in
    let t := upd t (offset + 22) (0)%R in
    let t := upd t (offset + 23) (0)%R in
    let t := upd t (offset + 24) (0)%R in
    let t := upd t (offset + 25) (0)%R in
    let t := upd t (offset + 26) (0)%R in
    let t := upd t (offset + 27) (0)%R in
    let t := upd t (offset + 28) (mu)%R in
    let t := upd t (offset + 29) (0)%R in
    let t := upd t (offset + 30) (0)%R in
    let t := upd t (offset + 31) (0)%R in
    let t := upd t (offset + 32) (0)%R in
    let t := upd t (offset + 33) (0)%R in
    let t := upd t (offset + 34) (0)%R in
    let t := upd t (offset + 35) (mu)%R in
    t) material_tangent.
