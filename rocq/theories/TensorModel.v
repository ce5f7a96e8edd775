(** Model of the tensor routines of src/nimble_utils.h.  Doubles as reals.  A tensor is an
    array seen as a function of the storage index; every assignment of the C++ text is one
    [upd], in the same order.  [junk] stands for the contents of uninitialised local arrays.
    Division is the total division of the reals: where the C++ divides by zero the model
    value is unspecified (see DESIGN.md). *)
From Verif Require Import Base Loops.
From Coq Require Import Reals Ratan.
Set Implicit Arguments.
Local Open Scope R_scope.

Definition arr := nat -> R.

(** nimble_utils.h 86-110 *)
Definition K_X := 0%nat.   Definition K_Y := 1%nat.   Definition K_Z := 2%nat.
Definition K_S_XX := 0%nat.  Definition K_S_YY := 1%nat.  Definition K_S_ZZ := 2%nat.
Definition K_S_XY := 3%nat.  Definition K_S_YZ := 4%nat.  Definition K_S_ZX := 5%nat.
Definition K_S_YX := 3%nat.  Definition K_S_ZY := 4%nat.  Definition K_S_XZ := 5%nat.
Definition K_F_XX := 0%nat.  Definition K_F_YY := 1%nat.  Definition K_F_ZZ := 2%nat.
Definition K_F_XY := 3%nat.  Definition K_F_YZ := 4%nat.  Definition K_F_ZX := 5%nat.
Definition K_F_YX := 6%nat.  Definition K_F_ZY := 7%nat.  Definition K_F_XZ := 8%nat.

(** MultiplySign, nimble_utils.h 131-137: x * (1 - 2 * (y < 0)) *)
Definition multiply_sign (x y : R) : R := x * (1 - 2 * (if Rlt_dec y 0 then 1 else 0)).
(** Minimum, nimble_utils.h 139-144 *)
Definition minimum (x y : R) : R := if Rlt_dec x y then x else y.

(** Square_Full33T_Full33, nimble_utils.h 193-205 *)
Definition square_full33T_full33 (mat result : arr) : arr :=
  let result := upd result K_S_XX ((mat K_F_XX) * (mat K_F_XX) + (mat K_F_YX) * (mat K_F_YX) + (mat K_F_ZX) * (mat K_F_ZX)) in
  let result := upd result K_S_YY ((mat K_F_XY) * (mat K_F_XY) + (mat K_F_YY) * (mat K_F_YY) + (mat K_F_ZY) * (mat K_F_ZY)) in
  let result := upd result K_S_ZZ ((mat K_F_XZ) * (mat K_F_XZ) + (mat K_F_YZ) * (mat K_F_YZ) + (mat K_F_ZZ) * (mat K_F_ZZ)) in
  let result := upd result K_S_XY ((mat K_F_XX) * (mat K_F_XY) + (mat K_F_YX) * (mat K_F_YY) + (mat K_F_ZX) * (mat K_F_ZY)) in
  let result := upd result K_S_YZ ((mat K_F_XY) * (mat K_F_XZ) + (mat K_F_YY) * (mat K_F_YZ) + (mat K_F_ZY) * (mat K_F_ZZ)) in
  let result := upd result K_S_ZX ((mat K_F_XX) * (mat K_F_XZ) + (mat K_F_YX) * (mat K_F_YZ) + (mat K_F_ZX) * (mat K_F_ZZ)) in
  result.

(** Mult_Scalar_Full33, nimble_utils.h 207-221 *)
Definition mult_scalar_full33 (a : R) (mat result : arr) : arr :=
  let result := upd result K_F_XX (a * (mat K_F_XX)) in
  let result := upd result K_F_XY (a * (mat K_F_XY)) in
  let result := upd result K_F_XZ (a * (mat K_F_XZ)) in
  let result := upd result K_F_YX (a * (mat K_F_YX)) in
  let result := upd result K_F_YY (a * (mat K_F_YY)) in
  let result := upd result K_F_YZ (a * (mat K_F_YZ)) in
  let result := upd result K_F_ZX (a * (mat K_F_ZX)) in
  let result := upd result K_F_ZY (a * (mat K_F_ZY)) in
  let result := upd result K_F_ZZ (a * (mat K_F_ZZ)) in
  result.

(** Sum_Full33_Full33, nimble_utils.h 223-237 *)
Definition sum_full33_full33 (A B result : arr) : arr :=
  let result := upd result K_F_XX ((A K_F_XX) + (B K_F_XX)) in
  let result := upd result K_F_XY ((A K_F_XY) + (B K_F_XY)) in
  let result := upd result K_F_XZ ((A K_F_XZ) + (B K_F_XZ)) in
  let result := upd result K_F_YX ((A K_F_YX) + (B K_F_YX)) in
  let result := upd result K_F_YY ((A K_F_YY) + (B K_F_YY)) in
  let result := upd result K_F_YZ ((A K_F_YZ) + (B K_F_YZ)) in
  let result := upd result K_F_ZX ((A K_F_ZX) + (B K_F_ZX)) in
  let result := upd result K_F_ZY ((A K_F_ZY) + (B K_F_ZY)) in
  let result := upd result K_F_ZZ ((A K_F_ZZ) + (B K_F_ZZ)) in
  result.

(** Sum_Sym33_Full33, nimble_utils.h 239-253 *)
Definition sum_sym33_full33 (A B result : arr) : arr :=
  let result := upd result K_F_XX ((A K_S_XX) + (B K_F_XX)) in
  let result := upd result K_F_XY ((A K_S_XY) + (B K_F_XY)) in
  let result := upd result K_F_XZ ((A K_S_XZ) + (B K_F_XZ)) in
  let result := upd result K_F_YX ((A K_S_YX) + (B K_F_YX)) in
  let result := upd result K_F_YY ((A K_S_YY) + (B K_F_YY)) in
  let result := upd result K_F_YZ ((A K_S_YZ) + (B K_F_YZ)) in
  let result := upd result K_F_ZX ((A K_S_ZX) + (B K_F_ZX)) in
  let result := upd result K_F_ZY ((A K_S_ZY) + (B K_F_ZY)) in
  let result := upd result K_F_ZZ ((A K_S_ZZ) + (B K_F_ZZ)) in
  result.

(** Mult_Full33_Full33, nimble_utils.h 255-271 *)
Definition mult_full33_full33 (A B result : arr) : arr :=
  let result := upd result K_F_XX ((A K_F_XX) * (B K_F_XX) + (A K_F_XY) * (B K_F_YX) + (A K_F_XZ) * (B K_F_ZX)) in
  let result := upd result K_F_XY ((A K_F_XX) * (B K_F_XY) + (A K_F_XY) * (B K_F_YY) + (A K_F_XZ) * (B K_F_ZY)) in
  let result := upd result K_F_XZ ((A K_F_XX) * (B K_F_XZ) + (A K_F_XY) * (B K_F_YZ) + (A K_F_XZ) * (B K_F_ZZ)) in
  let result := upd result K_F_YX ((A K_F_YX) * (B K_F_XX) + (A K_F_YY) * (B K_F_YX) + (A K_F_YZ) * (B K_F_ZX)) in
  let result := upd result K_F_YY ((A K_F_YX) * (B K_F_XY) + (A K_F_YY) * (B K_F_YY) + (A K_F_YZ) * (B K_F_ZY)) in
  let result := upd result K_F_YZ ((A K_F_YX) * (B K_F_XZ) + (A K_F_YY) * (B K_F_YZ) + (A K_F_YZ) * (B K_F_ZZ)) in
  let result := upd result K_F_ZX ((A K_F_ZX) * (B K_F_XX) + (A K_F_ZY) * (B K_F_YX) + (A K_F_ZZ) * (B K_F_ZX)) in
  let result := upd result K_F_ZY ((A K_F_ZX) * (B K_F_XY) + (A K_F_ZY) * (B K_F_YY) + (A K_F_ZZ) * (B K_F_ZY)) in
  let result := upd result K_F_ZZ ((A K_F_ZX) * (B K_F_XZ) + (A K_F_ZY) * (B K_F_YZ) + (A K_F_ZZ) * (B K_F_ZZ)) in
  result.

(** Mult_Sym33_Full33, nimble_utils.h 273-289 *)
Definition mult_sym33_full33 (sym full result : arr) : arr :=
  let result := upd result K_F_XX ((sym K_S_XX) * (full K_F_XX) + (sym K_S_XY) * (full K_F_YX) + (sym K_S_XZ) * (full K_F_ZX)) in
  let result := upd result K_F_XY ((sym K_S_XX) * (full K_F_XY) + (sym K_S_XY) * (full K_F_YY) + (sym K_S_XZ) * (full K_F_ZY)) in
  let result := upd result K_F_XZ ((sym K_S_XX) * (full K_F_XZ) + (sym K_S_XY) * (full K_F_YZ) + (sym K_S_XZ) * (full K_F_ZZ)) in
  let result := upd result K_F_YX ((sym K_S_YX) * (full K_F_XX) + (sym K_S_YY) * (full K_F_YX) + (sym K_S_YZ) * (full K_F_ZX)) in
  let result := upd result K_F_YY ((sym K_S_YX) * (full K_F_XY) + (sym K_S_YY) * (full K_F_YY) + (sym K_S_YZ) * (full K_F_ZY)) in
  let result := upd result K_F_YZ ((sym K_S_YX) * (full K_F_XZ) + (sym K_S_YY) * (full K_F_YZ) + (sym K_S_YZ) * (full K_F_ZZ)) in
  let result := upd result K_F_ZX ((sym K_S_ZX) * (full K_F_XX) + (sym K_S_ZY) * (full K_F_YX) + (sym K_S_ZZ) * (full K_F_ZX)) in
  let result := upd result K_F_ZY ((sym K_S_ZX) * (full K_F_XY) + (sym K_S_ZY) * (full K_F_YY) + (sym K_S_ZZ) * (full K_F_ZY)) in
  let result := upd result K_F_ZZ ((sym K_S_ZX) * (full K_F_XZ) + (sym K_S_ZY) * (full K_F_YZ) + (sym K_S_ZZ) * (full K_F_ZZ)) in
  result.

(** Mult_Scalar_Full33_Full33, nimble_utils.h 291-307 *)
Definition mult_scalar_full33_full33 (alpha : R) (A B result : arr) : arr :=
  let result := upd result K_F_XX (alpha * ((A K_F_XX) * (B K_F_XX) + (A K_F_XY) * (B K_F_YX) + (A K_F_XZ) * (B K_F_ZX))) in
  let result := upd result K_F_XY (alpha * ((A K_F_XX) * (B K_F_XY) + (A K_F_XY) * (B K_F_YY) + (A K_F_XZ) * (B K_F_ZY))) in
  let result := upd result K_F_XZ (alpha * ((A K_F_XX) * (B K_F_XZ) + (A K_F_XY) * (B K_F_YZ) + (A K_F_XZ) * (B K_F_ZZ))) in
  let result := upd result K_F_YX (alpha * ((A K_F_YX) * (B K_F_XX) + (A K_F_YY) * (B K_F_YX) + (A K_F_YZ) * (B K_F_ZX))) in
  let result := upd result K_F_YY (alpha * ((A K_F_YX) * (B K_F_XY) + (A K_F_YY) * (B K_F_YY) + (A K_F_YZ) * (B K_F_ZY))) in
  let result := upd result K_F_YZ (alpha * ((A K_F_YX) * (B K_F_XZ) + (A K_F_YY) * (B K_F_YZ) + (A K_F_YZ) * (B K_F_ZZ))) in
  let result := upd result K_F_ZX (alpha * ((A K_F_ZX) * (B K_F_XX) + (A K_F_ZY) * (B K_F_YX) + (A K_F_ZZ) * (B K_F_ZX))) in
  let result := upd result K_F_ZY (alpha * ((A K_F_ZX) * (B K_F_XY) + (A K_F_ZY) * (B K_F_YY) + (A K_F_ZZ) * (B K_F_ZY))) in
  let result := upd result K_F_ZZ (alpha * ((A K_F_ZX) * (B K_F_XZ) + (A K_F_ZY) * (B K_F_YZ) + (A K_F_ZZ) * (B K_F_ZZ))) in
  result.

(** Square_Full33_Full33T, nimble_utils.h 309-321 *)
Definition square_full33_full33T (mat result : arr) : arr :=
  let result := upd result K_S_XX ((mat K_F_XX) * (mat K_F_XX) + (mat K_F_XY) * (mat K_F_XY) + (mat K_F_XZ) * (mat K_F_XZ)) in
  let result := upd result K_S_YY ((mat K_F_YX) * (mat K_F_YX) + (mat K_F_YY) * (mat K_F_YY) + (mat K_F_YZ) * (mat K_F_YZ)) in
  let result := upd result K_S_ZZ ((mat K_F_ZX) * (mat K_F_ZX) + (mat K_F_ZY) * (mat K_F_ZY) + (mat K_F_ZZ) * (mat K_F_ZZ)) in
  let result := upd result K_S_XY ((mat K_F_XX) * (mat K_F_YX) + (mat K_F_XY) * (mat K_F_YY) + (mat K_F_XZ) * (mat K_F_YZ)) in
  let result := upd result K_S_YZ ((mat K_F_YX) * (mat K_F_ZX) + (mat K_F_YY) * (mat K_F_ZY) + (mat K_F_YZ) * (mat K_F_ZZ)) in
  let result := upd result K_S_ZX ((mat K_F_ZX) * (mat K_F_XX) + (mat K_F_ZY) * (mat K_F_XY) + (mat K_F_ZZ) * (mat K_F_XZ)) in
  result.

(** Mult_Full33_Sym33_ReturnT, nimble_utils.h 323-339 *)
Definition mult_full33_sym33_returnT (full sym result : arr) : arr :=
  let result := upd result K_F_XX ((full K_F_XX) * (sym K_S_XX) + (full K_F_XY) * (sym K_S_YX) + (full K_F_XZ) * (sym K_S_ZX)) in
  let result := upd result K_F_YX ((full K_F_XX) * (sym K_S_XY) + (full K_F_XY) * (sym K_S_YY) + (full K_F_XZ) * (sym K_S_ZY)) in
  let result := upd result K_F_ZX ((full K_F_XX) * (sym K_S_XZ) + (full K_F_XY) * (sym K_S_YZ) + (full K_F_XZ) * (sym K_S_ZZ)) in
  let result := upd result K_F_XY ((full K_F_YX) * (sym K_S_XX) + (full K_F_YY) * (sym K_S_YX) + (full K_F_YZ) * (sym K_S_ZX)) in
  let result := upd result K_F_YY ((full K_F_YX) * (sym K_S_XY) + (full K_F_YY) * (sym K_S_YY) + (full K_F_YZ) * (sym K_S_ZY)) in
  let result := upd result K_F_ZY ((full K_F_YX) * (sym K_S_XZ) + (full K_F_YY) * (sym K_S_YZ) + (full K_F_YZ) * (sym K_S_ZZ)) in
  let result := upd result K_F_XZ ((full K_F_ZX) * (sym K_S_XX) + (full K_F_ZY) * (sym K_S_YX) + (full K_F_ZZ) * (sym K_S_ZX)) in
  let result := upd result K_F_YZ ((full K_F_ZX) * (sym K_S_XY) + (full K_F_ZY) * (sym K_S_YY) + (full K_F_ZZ) * (sym K_S_ZY)) in
  let result := upd result K_F_ZZ ((full K_F_ZX) * (sym K_S_XZ) + (full K_F_ZY) * (sym K_S_YZ) + (full K_F_ZZ) * (sym K_S_ZZ)) in
  result.

(** Rotate_Sym33_Using_Rtranspose_S_R, nimble_utils.h 341-365 *)
Definition rotate_sym33 (s r result : arr) : arr :=
  let temp_xx := (s K_S_XX) * (r K_F_XX) + (s K_S_XY) * (r K_F_YX) + (s K_S_XZ) * (r K_F_ZX) in
  let temp_yx := (s K_S_YX) * (r K_F_XX) + (s K_S_YY) * (r K_F_YX) + (s K_S_YZ) * (r K_F_ZX) in
  let temp_zx := (s K_S_ZX) * (r K_F_XX) + (s K_S_ZY) * (r K_F_YX) + (s K_S_ZZ) * (r K_F_ZX) in
  let temp_xy := (s K_S_XX) * (r K_F_XY) + (s K_S_XY) * (r K_F_YY) + (s K_S_XZ) * (r K_F_ZY) in
  let temp_yy := (s K_S_YX) * (r K_F_XY) + (s K_S_YY) * (r K_F_YY) + (s K_S_YZ) * (r K_F_ZY) in
  let temp_zy := (s K_S_ZX) * (r K_F_XY) + (s K_S_ZY) * (r K_F_YY) + (s K_S_ZZ) * (r K_F_ZY) in
  let temp_xz := (s K_S_XX) * (r K_F_XZ) + (s K_S_XY) * (r K_F_YZ) + (s K_S_XZ) * (r K_F_ZZ) in
  let temp_yz := (s K_S_YX) * (r K_F_XZ) + (s K_S_YY) * (r K_F_YZ) + (s K_S_YZ) * (r K_F_ZZ) in
  let temp_zz := (s K_S_ZX) * (r K_F_XZ) + (s K_S_ZY) * (r K_F_YZ) + (s K_S_ZZ) * (r K_F_ZZ) in
  let result := upd result K_S_XX ((r K_F_XX) * temp_xx + (r K_F_YX) * temp_yx + (r K_F_ZX) * temp_zx) in
  let result := upd result K_S_YY ((r K_F_XY) * temp_xy + (r K_F_YY) * temp_yy + (r K_F_ZY) * temp_zy) in
  let result := upd result K_S_ZZ ((r K_F_XZ) * temp_xz + (r K_F_YZ) * temp_yz + (r K_F_ZZ) * temp_zz) in
  let result := upd result K_S_XY ((r K_F_XX) * temp_xy + (r K_F_YX) * temp_yy + (r K_F_ZX) * temp_zy) in
  let result := upd result K_S_YZ ((r K_F_XY) * temp_xz + (r K_F_YY) * temp_yz + (r K_F_ZY) * temp_zz) in
  let result := upd result K_S_ZX ((r K_F_XZ) * temp_xx + (r K_F_YZ) * temp_yx + (r K_F_ZZ) * temp_zx) in
  result.

(** Unrotate_Sym33_Using_R_S_Rtranspose, nimble_utils.h 367-391 *)
Definition unrotate_sym33 (s r result : arr) : arr :=
  let temp_xx := (s K_S_XX) * (r K_F_XX) + (s K_S_XY) * (r K_F_XY) + (s K_S_XZ) * (r K_F_XZ) in
  let temp_yx := (s K_S_YX) * (r K_F_XX) + (s K_S_YY) * (r K_F_XY) + (s K_S_YZ) * (r K_F_XZ) in
  let temp_zx := (s K_S_ZX) * (r K_F_XX) + (s K_S_ZY) * (r K_F_XY) + (s K_S_ZZ) * (r K_F_XZ) in
  let temp_xy := (s K_S_XX) * (r K_F_YX) + (s K_S_XY) * (r K_F_YY) + (s K_S_XZ) * (r K_F_YZ) in
  let temp_yy := (s K_S_YX) * (r K_F_YX) + (s K_S_YY) * (r K_F_YY) + (s K_S_YZ) * (r K_F_YZ) in
  let temp_zy := (s K_S_ZX) * (r K_F_YX) + (s K_S_ZY) * (r K_F_YY) + (s K_S_ZZ) * (r K_F_YZ) in
  let temp_xz := (s K_S_XX) * (r K_F_ZX) + (s K_S_XY) * (r K_F_ZY) + (s K_S_XZ) * (r K_F_ZZ) in
  let temp_yz := (s K_S_YX) * (r K_F_ZX) + (s K_S_YY) * (r K_F_ZY) + (s K_S_YZ) * (r K_F_ZZ) in
  let temp_zz := (s K_S_ZX) * (r K_F_ZX) + (s K_S_ZY) * (r K_F_ZY) + (s K_S_ZZ) * (r K_F_ZZ) in
  let result := upd result K_S_XX ((r K_F_XX) * temp_xx + (r K_F_XY) * temp_yx + (r K_F_XZ) * temp_zx) in
  let result := upd result K_S_YY ((r K_F_YX) * temp_xy + (r K_F_YY) * temp_yy + (r K_F_YZ) * temp_zy) in
  let result := upd result K_S_ZZ ((r K_F_ZX) * temp_xz + (r K_F_ZY) * temp_yz + (r K_F_ZZ) * temp_zz) in
  let result := upd result K_S_XY ((r K_F_XX) * temp_xy + (r K_F_XY) * temp_yy + (r K_F_XZ) * temp_zy) in
  let result := upd result K_S_YZ ((r K_F_YX) * temp_xz + (r K_F_YY) * temp_yz + (r K_F_YZ) * temp_zz) in
  let result := upd result K_S_ZX ((r K_F_ZX) * temp_xx + (r K_F_ZY) * temp_yx + (r K_F_ZZ) * temp_zx) in
  result.

(** CrossProduct, nimble_utils.h 393-400 *)
Definition cross_product (u v result : arr) : arr :=
  let result := upd result 0%nat ((u 1%nat) * (v 2%nat) - (u 2%nat) * (v 1%nat)) in
  let result := upd result 1%nat ((u 2%nat) * (v 0%nat) - (u 0%nat) * (v 2%nat)) in
  let result := upd result 2%nat ((u 0%nat) * (v 1%nat) - (u 1%nat) * (v 0%nat)) in
  result.

(** Determinant_Full33, nimble_utils.h 402-412 *)
Definition determinant_full33 (mat : arr) : R :=
  let minor0 := (mat K_F_YY) * (mat K_F_ZZ) - (mat K_F_YZ) * (mat K_F_ZY) in
  let minor1 := (mat K_F_YX) * (mat K_F_ZZ) - (mat K_F_YZ) * (mat K_F_ZX) in
  let minor2 := (mat K_F_YX) * (mat K_F_ZY) - (mat K_F_YY) * (mat K_F_ZX) in
  let det := (mat K_F_XX) * minor0 - (mat K_F_XY) * minor1 + (mat K_F_XZ) * minor2 in
  det.

(** Norm_Sym33, nimble_utils.h 414-426 *)
Definition norm_sym33 (mat : arr) : R :=
  let norm := 0 in
  let norm := norm + ((mat K_S_XX) * (mat K_S_XX) + (mat K_S_XY) * (mat K_S_XY) + (mat K_S_XZ) * (mat K_S_XZ)) in
  let norm := norm + ((mat K_S_YX) * (mat K_S_YX) + (mat K_S_YY) * (mat K_S_YY) + (mat K_S_YZ) * (mat K_S_YZ)) in
  let norm := norm + ((mat K_S_ZX) * (mat K_S_ZX) + (mat K_S_ZY) * (mat K_S_ZY) + (mat K_S_ZZ) * (mat K_S_ZZ)) in
  if Rlt_dec 0 norm then sqrt norm else norm.

(** Norm_Full33, nimble_utils.h 428-440 *)
Definition norm_full33 (mat : arr) : R :=
  let norm := 0 in
  let norm := norm + ((mat K_F_XX) * (mat K_F_XX) + (mat K_F_XY) * (mat K_F_XY) + (mat K_F_XZ) * (mat K_F_XZ)) in
  let norm := norm + ((mat K_F_YX) * (mat K_F_YX) + (mat K_F_YY) * (mat K_F_YY) + (mat K_F_YZ) * (mat K_F_YZ)) in
  let norm := norm + ((mat K_F_ZX) * (mat K_F_ZX) + (mat K_F_ZY) * (mat K_F_ZY) + (mat K_F_ZZ) * (mat K_F_ZZ)) in
  if Rlt_dec 0 norm then sqrt norm else norm.

(** Zero_Full33, nimble_utils.h 442-455 *)
Definition zero_full33 (mat : arr) : arr :=
  let mat := upd mat K_F_XX (0) in
  let mat := upd mat K_F_XY (0) in
  let mat := upd mat K_F_XZ (0) in
  let mat := upd mat K_F_YX (0) in
  let mat := upd mat K_F_YY (0) in
  let mat := upd mat K_F_YZ (0) in
  let mat := upd mat K_F_ZX (0) in
  let mat := upd mat K_F_ZY (0) in
  let mat := upd mat K_F_ZZ (0) in
  mat.

(** SetEqual_Full33, nimble_utils.h 457-470 *)
Definition set_equal_full33 (B A : arr) : arr :=
  let A := upd A K_F_XX ((B K_F_XX)) in
  let A := upd A K_F_XY ((B K_F_XY)) in
  let A := upd A K_F_XZ ((B K_F_XZ)) in
  let A := upd A K_F_YX ((B K_F_YX)) in
  let A := upd A K_F_YY ((B K_F_YY)) in
  let A := upd A K_F_YZ ((B K_F_YZ)) in
  let A := upd A K_F_ZX ((B K_F_ZX)) in
  let A := upd A K_F_ZY ((B K_F_ZY)) in
  let A := upd A K_F_ZZ ((B K_F_ZZ)) in
  A.

(** SetEqual_Sym33, nimble_utils.h 472-482 *)
Definition set_equal_sym33 (B A : arr) : arr :=
  let A := upd A K_S_XX ((B K_S_XX)) in
  let A := upd A K_S_YY ((B K_S_YY)) in
  let A := upd A K_S_ZZ ((B K_S_ZZ)) in
  let A := upd A K_S_XY ((B K_S_XY)) in
  let A := upd A K_S_YZ ((B K_S_YZ)) in
  let A := upd A K_S_ZX ((B K_S_ZX)) in
  A.

(** SymPart_Full33, nimble_utils.h 484-494 *)
Definition sym_part_full33 (mat result : arr) : arr :=
  let result := upd result K_S_XX ((mat K_F_XX)) in
  let result := upd result K_S_YY ((mat K_F_YY)) in
  let result := upd result K_S_ZZ ((mat K_F_ZZ)) in
  let result := upd result K_S_XY ((1 / 2) * ((mat K_F_XY) + (mat K_F_YX))) in
  let result := upd result K_S_YZ ((1 / 2) * ((mat K_F_YZ) + (mat K_F_ZY))) in
  let result := upd result K_S_ZX ((1 / 2) * ((mat K_F_ZX) + (mat K_F_XZ))) in
  result.

(** SkewPart_Full33, nimble_utils.h 496-509 *)
Definition skew_part_full33 (mat result : arr) : arr :=
  let result := upd result K_F_XX (0) in
  let result := upd result K_F_XY ((1 / 2) * ((mat K_F_XY) - (mat K_F_YX))) in
  let result := upd result K_F_XZ ((1 / 2) * ((mat K_F_XZ) - (mat K_F_ZX))) in
  let result := upd result K_F_YX ((1 / 2) * ((mat K_F_YX) - (mat K_F_XY))) in
  let result := upd result K_F_YY (0) in
  let result := upd result K_F_YZ ((1 / 2) * ((mat K_F_YZ) - (mat K_F_ZY))) in
  let result := upd result K_F_ZX ((1 / 2) * ((mat K_F_ZX) - (mat K_F_XZ))) in
  let result := upd result K_F_ZY ((1 / 2) * ((mat K_F_ZY) - (mat K_F_YZ))) in
  let result := upd result K_F_ZZ (0) in
  result.

(** Invert_Full33, nimble_utils.h 511-551: (inverse, returned determinant).  The assertion
    is det >= 0, so a singular matrix passes it. *)
Definition invert_full33 (mat inv : arr) : outcome (arr * R) :=
  let minor0 := (mat K_F_YY) * (mat K_F_ZZ) - (mat K_F_YZ) * (mat K_F_ZY) in
  let minor1 := (mat K_F_YX) * (mat K_F_ZZ) - (mat K_F_YZ) * (mat K_F_ZX) in
  let minor2 := (mat K_F_YX) * (mat K_F_ZY) - (mat K_F_YY) * (mat K_F_ZX) in
  let minor3 := (mat K_F_XY) * (mat K_F_ZZ) - (mat K_F_XZ) * (mat K_F_ZY) in
  let minor4 := (mat K_F_XX) * (mat K_F_ZZ) - (mat K_F_ZX) * (mat K_F_XZ) in
  let minor5 := (mat K_F_XX) * (mat K_F_ZY) - (mat K_F_XY) * (mat K_F_ZX) in
  let minor6 := (mat K_F_XY) * (mat K_F_YZ) - (mat K_F_XZ) * (mat K_F_YY) in
  let minor7 := (mat K_F_XX) * (mat K_F_YZ) - (mat K_F_XZ) * (mat K_F_YX) in
  let minor8 := (mat K_F_XX) * (mat K_F_YY) - (mat K_F_XY) * (mat K_F_YX) in
  let det := (mat K_F_XX) * minor0 - (mat K_F_XY) * minor1 + (mat K_F_XZ) * minor2 in
  if Rlt_dec det 0 then Abort else
  let inv := upd inv K_F_XX (minor0 / det) in
  let inv := upd inv K_F_XY (-1 * minor3 / det) in
  let inv := upd inv K_F_XZ (minor6 / det) in
  let inv := upd inv K_F_YX (-1 * minor1 / det) in
  let inv := upd inv K_F_YY (minor4 / det) in
  let inv := upd inv K_F_YZ (-1 * minor7 / det) in
  let inv := upd inv K_F_ZX (minor2 / det) in
  let inv := upd inv K_F_ZY (-1 * minor5 / det) in
  let inv := upd inv K_F_ZZ (minor8 / det) in
  Ok (inv, det).

(** BCH, nimble_utils.h 553-623 *)
Definition bch (junk x y result : arr) : arr :=
  let temp1 := junk in
  let temp2 := junk in
  let temp3 := junk in
  let result := sum_full33_full33 x y result in
  let temp1 := mult_scalar_full33_full33 ((1 / 2)) x y temp1 in
  let temp2 := mult_scalar_full33_full33 (-(1 / 2)) y x temp2 in
  let result := sum_full33_full33 result temp1 result in
  let result := sum_full33_full33 result temp2 result in
  let temp1 := mult_full33_full33 x y temp1 in
  let temp2 := mult_scalar_full33_full33 (1 / 12) x temp1 temp2 in
  let result := sum_full33_full33 result temp2 result in
  let temp1 := mult_full33_full33 y x temp1 in
  let temp2 := mult_scalar_full33_full33 (-1 / 6) x temp1 temp2 in
  let result := sum_full33_full33 result temp2 result in
  let temp1 := mult_full33_full33 y y temp1 in
  let temp2 := mult_scalar_full33_full33 (1 / 12) x temp1 temp2 in
  let result := sum_full33_full33 result temp2 result in
  let temp1 := mult_full33_full33 x x temp1 in
  let temp2 := mult_scalar_full33_full33 (1 / 12) y temp1 temp2 in
  let result := sum_full33_full33 result temp2 result in
  let temp1 := mult_full33_full33 x y temp1 in
  let temp2 := mult_scalar_full33_full33 (-1 / 6) y temp1 temp2 in
  let result := sum_full33_full33 result temp2 result in
  let temp1 := mult_full33_full33 y x temp1 in
  let temp2 := mult_scalar_full33_full33 (1 / 12) y temp1 temp2 in
  let result := sum_full33_full33 result temp2 result in
  let temp1 := mult_full33_full33 y y temp1 in
  let temp2 := mult_full33_full33 x temp1 temp2 in
  let temp3 := mult_scalar_full33_full33 (1 / 24) x temp2 temp3 in
  let result := sum_full33_full33 result temp3 result in
  let temp1 := mult_full33_full33 x y temp1 in
  let temp2 := mult_full33_full33 y temp1 temp2 in
  let temp3 := mult_scalar_full33_full33 (-2 / 24) x temp2 temp3 in
  let result := sum_full33_full33 result temp3 result in
  let temp1 := mult_full33_full33 y x temp1 in
  let temp2 := mult_full33_full33 x temp1 temp2 in
  let temp3 := mult_scalar_full33_full33 (2 / 24) y temp2 temp3 in
  let result := sum_full33_full33 result temp3 result in
  let temp1 := mult_full33_full33 x x temp1 in
  let temp2 := mult_full33_full33 y temp1 temp2 in
  let temp3 := mult_scalar_full33_full33 (-1 / 24) y temp2 temp3 in
  let result := sum_full33_full33 result temp3 result in
  result.

(** BCH_Sym33_Full33, nimble_utils.h 625-642 *)
Definition bch_sym33_full33 (junk sym full result : arr) : arr :=
  let temp := junk in
  let temp := upd temp K_F_XX ((sym K_S_XX)) in
  let temp := upd temp K_F_XY ((sym K_S_XY)) in
  let temp := upd temp K_F_XZ ((sym K_S_XZ)) in
  let temp := upd temp K_F_YX ((sym K_S_YX)) in
  let temp := upd temp K_F_YY ((sym K_S_YY)) in
  let temp := upd temp K_F_YZ ((sym K_S_YZ)) in
  let temp := upd temp K_F_ZX ((sym K_S_ZX)) in
  let temp := upd temp K_F_ZY ((sym K_S_ZY)) in
  let temp := upd temp K_F_ZZ ((sym K_S_ZZ)) in
  bch junk temp full result.

(** Cos_Of_Acos_Divided_By_3, nimble_utils.h 644-665 *)
Definition cos_of_acos_divided_by_3 (x : R) : R :=
  let x2 := x * x in
  let x4 := x2 * x2 in
  ((866025403784438713 / 1000000000000000000) + (21271489025949306 / 10000000000000000) * x + (((189202064815951569 / 100000000000000000) + (739603278343401613 / 1000000000000000000) * x) * x2 + ((121973926953064794 / 1000000000000000000) + x * ((65563762626392936 / 10000000000000000000) + (390884982780803443 / 10000000000000000000000) * x)) * x4)) / (1 + (226376989330935617 / 100000000000000000) * x + (((180461009751278976 / 100000000000000000) + (603976798217196003 / 1000000000000000000) * x) * x2 + ((783255761115461708 / 10000000000000000000) + (268525944538021629 / 100000000000000000000) * x) * x4)).

(** Result of Eigen_Sym33_NonUnit *)
Record eigen := Eigen { eval0 : R; eval1 : R; eval2 : R; evec0 : arr; evec1 : arr; evec2 : arr }.

(** Eigen_Sym33_NonUnit, nimble_utils.h 667-857, cut into the consecutive pieces of its body.
    The helper Cos_Of_Acos_Divided_By_3 is a parameter [cos3] so that statements can separate
    the algorithm from the accuracy of that helper. *)
(** nimble_utils.h 691-696: second invariant of the shifted tensor *)
Definition eigen_c2 (cxx cyy czz cxy cyz czx : R) : R :=
  let cxy_cxy := cxy * cxy in
  let cyz_cyz := cyz * cyz in
  let czx_czx := czx * czx in
  let cxx_cyy := cxx * cyy in
  let c2 := cxx_cyy + cyy * czz + czz * cxx - cxy_cxy - cyz_cyz - czx_czx in
  c2.
(** nimble_utils.h 698-711: eigenvalue of largest magnitude of the shifted tensor *)
Definition eigen_largest (cos3 : R -> R) (cxx cyy czz cxy cyz czx : R) : R :=
  let cxy_cxy := cxy * cxy in
  let cyz_cyz := cyz * cyz in
  let czx_czx := czx * czx in
  let cxx_cyy := cxx * cyy in
  let c2 := eigen_c2 cxx cyy czz cxy cyz czx in
  let ThreeOverA := (-3) / c2 in
  let sqrtThreeOverA := (sqrt (ThreeOverA)) in
  let c3 := cxx * cyz_cyz + cyy * czx_czx - 2 * cxy * cyz * czx + czz * (cxy_cxy - cxx_cyy) in
  let rr := (-(1 / 2)) * c3 * ThreeOverA * sqrtThreeOverA in
  let arg := (minimum ((Rabs (rr))) (1)) in
  let cos_thd3 := (cos3 (arg)) in
  let two_cos_thd3 := 2 * (multiply_sign (cos_thd3) (rr)) in
  let eval2 := two_cos_thd3 / sqrtThreeOverA in
  eval2.
(** nimble_utils.h 713-762: the pivot row and the two others; (k_row1, row2, row3, ki_ki) *)
Definition eigen_pick (junk : arr) (cxx cyy czz cxy cyz czx eval2 : R) : arr * arr * arr * R :=
  let cxy_cxy := cxy * cxy in
  let cyz_cyz := cyz * cyz in
  let czx_czx := czx * czx in
  let crow0 := (upd (upd (upd (fun _ => 0) 0%nat (cxx - eval2)) 1 (cxy)) 2 (czx)) in
  let crow1 := (upd (upd (upd (fun _ => 0) 0%nat (cxy)) 1 (cyy - eval2)) 2 (cyz)) in
  let crow2 := (upd (upd (upd (fun _ => 0) 0%nat (czx)) 1 (cyz)) 2 (czz - eval2)) in
  let k0 := (crow0 0%nat) * (crow0 0%nat) + cxy_cxy + czx_czx in
  let k1 := cxy_cxy + (crow1 1%nat) * (crow1 1%nat) + cyz_cyz in
  let k2 := czx_czx + cyz_cyz + (crow2 2%nat) * (crow2 2%nat) in
  let k_row1 := junk in
  let row2 := junk in
  let row3 := junk in
  let k0gk1 := (if Rle_dec (k1) (k0) then true else false) in
  let k0gk2 := (if Rle_dec (k2) (k0) then true else false) in
  let k1gk2 := (if Rle_dec (k2) (k1) then true else false) in
  let k0_largest := k0gk1 && k0gk2 in
  let k1_largest := k1gk2 && negb k0gk1 in
  let k2_largest := negb (k0_largest || k1_largest) in
  let k_row1 := upd k_row1 0%nat ((if k0_largest then (crow0 0%nat) else 0) + (if k1_largest then (crow1 0%nat) else 0) + (if k2_largest then (crow2 0%nat) else 0)) in
  let k_row1 := upd k_row1 1%nat ((if k0_largest then (crow0 1%nat) else 0) + (if k1_largest then (crow1 1%nat) else 0) + (if k2_largest then (crow2 1%nat) else 0)) in
  let k_row1 := upd k_row1 2%nat ((if k0_largest then (crow0 2%nat) else 0) + (if k1_largest then (crow1 2%nat) else 0) + (if k2_largest then (crow2 2%nat) else 0)) in
  let row2 := upd row2 0%nat ((if k0_largest then (crow1 0%nat) else (crow0 0%nat))) in
  let row2 := upd row2 1%nat ((if k0_largest then (crow1 1%nat) else (crow0 1%nat))) in
  let row2 := upd row2 2%nat ((if k0_largest then (crow1 2%nat) else (crow0 2%nat))) in
  let row3 := upd row3 0%nat ((if k2_largest then (crow1 0%nat) else (crow2 0%nat))) in
  let row3 := upd row3 1%nat ((if k2_largest then (crow1 1%nat) else (crow2 1%nat))) in
  let row3 := upd row3 2%nat ((if k2_largest then (crow1 2%nat) else (crow2 2%nat))) in
  let ki_ki := 1 / ((if k0_largest then k0 else 0) + (if k1_largest then k1 else 0) + (if k2_largest then k2 else 0)) in
  (k_row1, row2, row3, ki_ki).
(** nimble_utils.h 764-784: the other rows made orthogonal to the pivot row, and the longer
    one selected; (a_row2, ai_ai) *)
Definition eigen_orth (junk k_row1 row2 row3 : arr) (ki_ki : R) : arr * R :=
  let ki_dpr1 := ki_ki * ((k_row1 0%nat) * (row2 0%nat) + (k_row1 1%nat) * (row2 1%nat) + (k_row1 2%nat) * (row2 2%nat)) in
  let ki_dpr2 := ki_ki * ((k_row1 0%nat) * (row3 0%nat) + (k_row1 1%nat) * (row3 1%nat) + (k_row1 2%nat) * (row3 2%nat)) in
  let row2 := upd row2 0%nat ((row2 0%nat) - (ki_dpr1 * (k_row1 0%nat))) in
  let row2 := upd row2 1%nat ((row2 1%nat) - (ki_dpr1 * (k_row1 1%nat))) in
  let row2 := upd row2 2%nat ((row2 2%nat) - (ki_dpr1 * (k_row1 2%nat))) in
  let row3 := upd row3 0%nat ((row3 0%nat) - (ki_dpr2 * (k_row1 0%nat))) in
  let row3 := upd row3 1%nat ((row3 1%nat) - (ki_dpr2 * (k_row1 1%nat))) in
  let row3 := upd row3 2%nat ((row3 2%nat) - (ki_dpr2 * (k_row1 2%nat))) in
  let a0 := (row2 0%nat) * (row2 0%nat) + (row2 1%nat) * (row2 1%nat) + (row2 2%nat) * (row2 2%nat) in
  let a1 := (row3 0%nat) * (row3 0%nat) + (row3 1%nat) * (row3 1%nat) + (row3 2%nat) * (row3 2%nat) in
  let a_row2 := junk in
  let a0lea1 := (if Rle_dec (a0) (a1) then true else false) in
  let a_row2 := upd a_row2 0%nat ((if a0lea1 then (row3 0%nat) else (row2 0%nat))) in
  let a_row2 := upd a_row2 1%nat ((if a0lea1 then (row3 1%nat) else (row2 1%nat))) in
  let a_row2 := upd a_row2 2%nat ((if a0lea1 then (row3 2%nat) else (row2 2%nat))) in
  let ai_ai := 1 / (if a0lea1 then a1 else a0) in
  (a_row2, ai_ai).
(** nimble_utils.h 786-788 *)
Definition eigen_vec2 (k_row1 a_row2 evec2 : arr) : arr :=
  let evec2 := upd evec2 K_X ((k_row1 1%nat) * (a_row2 2%nat) - (k_row1 2%nat) * (a_row2 1%nat)) in
  let evec2 := upd evec2 K_Y ((k_row1 2%nat) * (a_row2 0%nat) - (k_row1 0%nat) * (a_row2 2%nat)) in
  let evec2 := upd evec2 K_Z ((k_row1 0%nat) * (a_row2 1%nat) - (k_row1 1%nat) * (a_row2 0%nat)) in
  evec2.
(** nimble_utils.h 790-822 and 828-830: the 2x2 problem; (eval0, eval1, fac1, fac2, both_zero) *)
Definition eigen_reduced (cxx cyy czz cxy cyz czx : R) (k_row1 a_row2 : arr) (ki_ki ai_ai : R) : R * R * R * R * bool :=
  let k_atr11 := cxx * (k_row1 0%nat) + cxy * (k_row1 1%nat) + czx * (k_row1 2%nat) in
  let k_atr21 := cxy * (k_row1 0%nat) + cyy * (k_row1 1%nat) + cyz * (k_row1 2%nat) in
  let k_atr31 := czx * (k_row1 0%nat) + cyz * (k_row1 1%nat) + czz * (k_row1 2%nat) in
  let a_atr12 := cxx * (a_row2 0%nat) + cxy * (a_row2 1%nat) + czx * (a_row2 2%nat) in
  let a_atr22 := cxy * (a_row2 0%nat) + cyy * (a_row2 1%nat) + cyz * (a_row2 2%nat) in
  let a_atr32 := czx * (a_row2 0%nat) + cyz * (a_row2 1%nat) + czz * (a_row2 2%nat) in
  let rm2xx := ((k_row1 0%nat) * k_atr11 + (k_row1 1%nat) * k_atr21 + (k_row1 2%nat) * k_atr31) * ki_ki in
  let k_a_rm2xy := ((k_row1 0%nat) * a_atr12 + (k_row1 1%nat) * a_atr22 + (k_row1 2%nat) * a_atr32) in
  let rm2yy := ((a_row2 0%nat) * a_atr12 + (a_row2 1%nat) * a_atr22 + (a_row2 2%nat) * a_atr32) * ai_ai in
  let rm2xy_rm2xy := k_a_rm2xy * k_a_rm2xy * ai_ai * ki_ki in
  let b := (1 / 2) * (rm2xx - rm2yy) in
  let sqrtTerm := (multiply_sign ((sqrt (b * b + rm2xy_rm2xy))) (b)) in
  let eval0 := rm2yy + b - sqrtTerm in
  let eval1 := rm2xx + rm2yy - eval0 in
  let rm2xx := rm2xx - (eval0) in
  let rm2yy := rm2yy - (eval0) in
  let rm2xx2 := rm2xx * rm2xx in
  let rm2yy2 := rm2yy * rm2yy in
  let fac1 := (if Rlt_dec (rm2xx2) (rm2yy2) then k_a_rm2xy * ai_ai else rm2xx) in
  let fac2 := (if Rlt_dec (rm2xx2) (rm2yy2) then rm2yy else ki_ki * k_a_rm2xy) in
  let rm2xx2iszero := (if Req_EM_T (rm2xx2) (0) then true else false) in
  let rm2xy_rm2xyiszero := (if Req_EM_T (rm2xy_rm2xy) (0) then true else false) in
  let both_zero := rm2xx2iszero && rm2xy_rm2xyiszero in
  (eval0, eval1, fac1, fac2, both_zero).
(** nimble_utils.h 824-835 *)
Definition eigen_vec0 (k_row1 a_row2 : arr) (fac1 fac2 : R) (both_zero : bool) (evec0 : arr) : arr :=
  let evec0 := upd evec0 0%nat (fac1 * (a_row2 0%nat) - fac2 * (k_row1 0%nat)) in
  let evec0 := upd evec0 1%nat (fac1 * (a_row2 1%nat) - fac2 * (k_row1 1%nat)) in
  let evec0 := upd evec0 2%nat (fac1 * (a_row2 2%nat) - fac2 * (k_row1 2%nat)) in
  let evec0 := upd evec0 0%nat ((if both_zero then (a_row2 0%nat) else (evec0 0%nat))) in
  let evec0 := upd evec0 1%nat ((if both_zero then (a_row2 1%nat) else (evec0 1%nat))) in
  let evec0 := upd evec0 2%nat ((if both_zero then (a_row2 2%nat) else (evec0 2%nat))) in
  evec0.
(** nimble_utils.h 837-839 *)
Definition eigen_vec1 (evec2 evec0 evec1 : arr) : arr :=
  let evec1 := upd evec1 K_X ((evec2 K_Y) * (evec0 K_Z) - (evec2 K_Z) * (evec0 K_Y)) in
  let evec1 := upd evec1 K_Y ((evec2 K_Z) * (evec0 K_X) - (evec2 K_X) * (evec0 K_Z)) in
  let evec1 := upd evec1 K_Z ((evec2 K_X) * (evec0 K_Y) - (evec2 K_Y) * (evec0 K_X)) in
  evec1.
(** nimble_utils.h 841-864: shift back, and the near-spherical case *)
Definition eigen_finish (c1 c2 eval0 eval1 eval2 : R) (evec0 evec1 evec2 : arr) : eigen :=
  let eval0 := eval0 + (c1) in
  let eval1 := eval1 + (c1) in
  let eval2 := eval2 + (c1) in
  let c2tol := (c1 * c1) * (-(/ 10 ^ 30)) in
  let c2lsmall_neg := (if Rlt_dec (c2) (c2tol) then true else false) in
  let eval0 := (if c2lsmall_neg then eval0 else c1) in
  let eval1 := (if c2lsmall_neg then eval1 else c1) in
  let eval2 := (if c2lsmall_neg then eval2 else c1) in
  let evec0 := upd evec0 0%nat ((if c2lsmall_neg then (evec0 0%nat) else 1)) in
  let evec0 := upd evec0 1%nat ((if c2lsmall_neg then (evec0 1%nat) else 0)) in
  let evec0 := upd evec0 2%nat ((if c2lsmall_neg then (evec0 2%nat) else 0)) in
  let evec1 := upd evec1 0%nat ((if c2lsmall_neg then (evec1 0%nat) else 0)) in
  let evec1 := upd evec1 1%nat ((if c2lsmall_neg then (evec1 1%nat) else 1)) in
  let evec1 := upd evec1 2%nat ((if c2lsmall_neg then (evec1 2%nat) else 0)) in
  let evec2 := upd evec2 0%nat ((if c2lsmall_neg then (evec2 0%nat) else 0)) in
  let evec2 := upd evec2 1%nat ((if c2lsmall_neg then (evec2 1%nat) else 0)) in
  let evec2 := upd evec2 2%nat ((if c2lsmall_neg then (evec2 2%nat) else 1)) in
  Eigen eval0 eval1 eval2 evec0 evec1 evec2.
(** nimble_utils.h 667-857; e0, e1, e2 are the incoming eigenvector arrays *)
Definition eigen_sym33_with (cos3 : R -> R) (junk tensor e0 e1 e2 : arr) : eigen :=
  let cxx := (tensor K_S_XX) in
  let cyy := (tensor K_S_YY) in
  let czz := (tensor K_S_ZZ) in
  let cxy := (tensor K_S_XY) in
  let cyz := (tensor K_S_YZ) in
  let czx := (tensor K_S_ZX) in
  let c1 := (cxx + cyy + czz) / 3 in
  let cxx := cxx - (c1) in
  let cyy := cyy - (c1) in
  let czz := czz - (c1) in
  let c2 := eigen_c2 cxx cyy czz cxy cyz czx in
  let eval2 := eigen_largest cos3 cxx cyy czz cxy cyz czx in
  let '(k_row1, row2, row3, ki_ki) := eigen_pick junk cxx cyy czz cxy cyz czx eval2 in
  let '(a_row2, ai_ai) := eigen_orth junk k_row1 row2 row3 ki_ki in
  let evec2 := eigen_vec2 k_row1 a_row2 e2 in
  let '(eval0, eval1, fac1, fac2, both_zero) := eigen_reduced cxx cyy czz cxy cyz czx k_row1 a_row2 ki_ki ai_ai in
  let evec0 := eigen_vec0 k_row1 a_row2 fac1 fac2 both_zero e0 in
  let evec1 := eigen_vec1 evec2 evec0 e1 in
  eigen_finish c1 c2 eval0 eval1 eval2 evec0 evec1 evec2.
(** Eigen_Sym33_NonUnit itself *)
Definition eigen_sym33_nonunit := eigen_sym33_with cos_of_acos_divided_by_3.

(** Polar_Decomp, nimble_utils.h 859-908: (left stretch, rotation) *)
Definition polar_decomp_with (cos3 : R -> R) (junk mat left_stretch rotation : arr) : outcome (arr * arr) :=
  do i <- invert_full33 mat junk;
  let mat_inv := fst i in
  let mat_inv_squared := square_full33T_full33 mat_inv junk in
  let zero_vec := upd (upd (upd junk 0%nat 0) 1 0) 2 0 in
  let e := eigen_sym33_with cos3 junk mat_inv_squared zero_vec zero_vec zero_vec in
  let vec1 := evec0 e in
  let vec2 := evec1 e in
  let vec3 := evec2 e in
  let eval := upd (upd (upd junk 0%nat (eval0 e)) 1 (eval1 e)) 2 (eval2 e) in
  let zero := 0 in
  let eval := upd eval 0%nat ((if Rlt_dec ((eval 0%nat)) (zero) then zero else (eval 0%nat))) in
  let eval := upd eval 1%nat ((if Rlt_dec ((eval 1%nat)) (zero) then zero else (eval 1%nat))) in
  let eval := upd eval 2%nat ((if Rlt_dec ((eval 2%nat)) (zero) then zero else (eval 2%nat))) in
  let len1_sq := (vec1 K_X) * (vec1 K_X) + (vec1 K_Y) * (vec1 K_Y) + (vec1 K_Z) * (vec1 K_Z) in
  let len2_sq := (vec2 K_X) * (vec2 K_X) + (vec2 K_Y) * (vec2 K_Y) + (vec2 K_Z) * (vec2 K_Z) in
  let len3_sq := (vec3 K_X) * (vec3 K_X) + (vec3 K_Y) * (vec3 K_Y) + (vec3 K_Z) * (vec3 K_Z) in
  let xlx := (sqrt ((eval 0%nat))) in
  let xly := (sqrt ((eval 1%nat))) in
  let xlz := (sqrt ((eval 2%nat))) in
  let one := 1 in
  let xlxi := one / (xlx * len1_sq) in
  let xlyi := one / (xly * len2_sq) in
  let xlzi := one / (xlz * len3_sq) in
  let left_stretch := upd left_stretch K_S_XX (xlxi * (vec1 K_X) * (vec1 K_X) + xlyi * (vec2 K_X) * (vec2 K_X) + xlzi * (vec3 K_X) * (vec3 K_X)) in
  let left_stretch := upd left_stretch K_S_YY (xlxi * (vec1 K_Y) * (vec1 K_Y) + xlyi * (vec2 K_Y) * (vec2 K_Y) + xlzi * (vec3 K_Y) * (vec3 K_Y)) in
  let left_stretch := upd left_stretch K_S_ZZ (xlxi * (vec1 K_Z) * (vec1 K_Z) + xlyi * (vec2 K_Z) * (vec2 K_Z) + xlzi * (vec3 K_Z) * (vec3 K_Z)) in
  let left_stretch := upd left_stretch K_S_XY (xlxi * (vec1 K_X) * (vec1 K_Y) + xlyi * (vec2 K_X) * (vec2 K_Y) + xlzi * (vec3 K_X) * (vec3 K_Y)) in
  let left_stretch := upd left_stretch K_S_YZ (xlxi * (vec1 K_Y) * (vec1 K_Z) + xlyi * (vec2 K_Y) * (vec2 K_Z) + xlzi * (vec3 K_Y) * (vec3 K_Z)) in
  let left_stretch := upd left_stretch K_S_ZX (xlxi * (vec1 K_Z) * (vec1 K_X) + xlyi * (vec2 K_Z) * (vec2 K_X) + xlzi * (vec3 K_Z) * (vec3 K_X)) in
  let rotation := mult_full33_sym33_returnT mat_inv left_stretch rotation in
  Ok (left_stretch, rotation).
(** Polar_Decomp itself *)
Definition polar_decomp := polar_decomp_with cos_of_acos_divided_by_3.

(** std::numeric_limits<double>::epsilon() *)
Definition machine_epsilon : R := / 2 ^ 52.
(** Log_Rotation, nimble_utils.h 1177-1227: the firewall only fills a local string; the branch
    near an angle of pi assigns nothing *)
Definition log_rotation (junk rotation log_rotation0 : arr) : arr :=
  let cosine := 1 / 2 * (rotation K_F_XX + rotation K_F_YY + rotation K_F_ZZ - 1) in
  let cosine := if Rlt_dec cosine (-1) then -1 else if Rlt_dec 1 cosine then 1 else cosine in
  let theta := acos cosine in
  if Req_EM_T theta 0 then zero_full33 log_rotation0
  else if Rlt_dec (Rabs (cosine + 1)) (10 * machine_epsilon) then log_rotation0
  else
    let a := theta / sin theta in
    let rotation_skew := skew_part_full33 rotation junk in
    mult_scalar_full33 a rotation_skew log_rotation0.

(** Log_Rotation_Pi, nimble_utils.h 1105-1175 (its firewall does nothing either) *)
Definition vec_norm (v : arr) : R :=
  let norm := v 0%nat * v 0%nat + v 1%nat * v 1%nat + v 2%nat * v 2%nat in
  if Rlt_dec 0 norm then sqrt norm else norm.
Definition log_rotation_pi (junk rotation log_rotation : arr) : outcome arr :=
  let B := junk in
  let u := junk in
  let v := junk in
  let B := upd B K_F_XX ((rotation K_F_XX) - 1) in
  let B := upd B K_F_XY ((rotation K_F_XY)) in
  let B := upd B K_F_XZ ((rotation K_F_XZ)) in
  let B := upd B K_F_YX ((rotation K_F_YX)) in
  let B := upd B K_F_YY ((rotation K_F_YY) - 1) in
  let B := upd B K_F_YZ ((rotation K_F_YZ)) in
  let B := upd B K_F_ZX ((rotation K_F_ZX)) in
  let B := upd B K_F_ZY ((rotation K_F_ZY)) in
  let B := upd B K_F_ZZ ((rotation K_F_ZZ) - 1) in
  let u := upd u 0%nat ((B K_F_XX)) in
  let u := upd u 1%nat ((B K_F_XY)) in
  let u := upd u 2%nat ((B K_F_XZ)) in
  let v := upd v 0%nat ((B K_F_YX)) in
  let v := upd v 1%nat ((B K_F_YY)) in
  let v := upd v 2%nat ((B K_F_YZ)) in
  let normal := cross_product u v junk in
  let norm := vec_norm normal in
  do nn <- (if Rlt_dec norm machine_epsilon then
              let w := junk in
              let w := upd w 0%nat (B K_F_ZX) in
              let w := upd w 1%nat (B K_F_ZY) in
              let w := upd w 2%nat (B K_F_ZZ) in
              let normal := cross_product u w normal in
              let norm := vec_norm normal in
              if Rle_dec machine_epsilon norm then Ok (normal, norm) else Abort
            else Ok (normal, norm));
  let normal := fst nn in
  let norm := snd nn in
  let normal := upd normal 0%nat (normal 0%nat / norm) in
  let normal := upd normal 1%nat (normal 1%nat / norm) in
  let normal := upd normal 2%nat (normal 2%nat / norm) in
  let pi := acos (-1) in
  let log_rotation := upd log_rotation K_F_XX (0) in
  let log_rotation := upd log_rotation K_F_XY (-(normal 2%nat) * pi) in
  let log_rotation := upd log_rotation K_F_XZ ((normal 1%nat) * pi) in
  let log_rotation := upd log_rotation K_F_YX ((normal 2%nat) * pi) in
  let log_rotation := upd log_rotation K_F_YY (0) in
  let log_rotation := upd log_rotation K_F_YZ (-(normal 0%nat) * pi) in
  let log_rotation := upd log_rotation K_F_ZX (-(normal 1%nat) * pi) in
  let log_rotation := upd log_rotation K_F_ZY ((normal 0%nat) * pi) in
  let log_rotation := upd log_rotation K_F_ZZ (0) in
  Ok log_rotation.

(** Invert3x3, nimble_utils.h 1229-1268 (build without Kokkos: det <= 0 aborts) *)
Definition invert3x3 (mat inv : nat -> nat -> R) : outcome ((nat -> nat -> R) * R) :=
  let minor0 := (mat 1%nat 1%nat) * (mat 2%nat 2%nat) - (mat 1%nat 2%nat) * (mat 2%nat 1%nat) in
  let minor1 := (mat 1%nat 0%nat) * (mat 2%nat 2%nat) - (mat 1%nat 2%nat) * (mat 2%nat 0%nat) in
  let minor2 := (mat 1%nat 0%nat) * (mat 2%nat 1%nat) - (mat 1%nat 1%nat) * (mat 2%nat 0%nat) in
  let minor3 := (mat 0%nat 1%nat) * (mat 2%nat 2%nat) - (mat 0%nat 2%nat) * (mat 2%nat 1%nat) in
  let minor4 := (mat 0%nat 0%nat) * (mat 2%nat 2%nat) - (mat 2%nat 0%nat) * (mat 0%nat 2%nat) in
  let minor5 := (mat 0%nat 0%nat) * (mat 2%nat 1%nat) - (mat 0%nat 1%nat) * (mat 2%nat 0%nat) in
  let minor6 := (mat 0%nat 1%nat) * (mat 1%nat 2%nat) - (mat 0%nat 2%nat) * (mat 1%nat 1%nat) in
  let minor7 := (mat 0%nat 0%nat) * (mat 1%nat 2%nat) - (mat 0%nat 2%nat) * (mat 1%nat 0%nat) in
  let minor8 := (mat 0%nat 0%nat) * (mat 1%nat 1%nat) - (mat 0%nat 1%nat) * (mat 1%nat 0%nat) in
  let det := (mat 0%nat 0%nat) * minor0 - (mat 0%nat 1%nat) * minor1 + (mat 0%nat 2%nat) * minor2 in
  if Rle_dec det 0 then Abort else
  let inv := upd2 inv 0%nat 0%nat (minor0 / det) in
  let inv := upd2 inv 0%nat 1%nat (-1 * minor3 / det) in
  let inv := upd2 inv 0%nat 2%nat (minor6 / det) in
  let inv := upd2 inv 1%nat 0%nat (-1 * minor1 / det) in
  let inv := upd2 inv 1%nat 1%nat (minor4 / det) in
  let inv := upd2 inv 1%nat 2%nat (-1 * minor7 / det) in
  let inv := upd2 inv 2%nat 0%nat (minor2 / det) in
  let inv := upd2 inv 2%nat 1%nat (-1 * minor5 / det) in
  let inv := upd2 inv 2%nat 2%nat (minor8 / det) in
  Ok (inv, det).

(** Polar_Left_LogV_Lame, nimble_utils.h 910-1046: (left stretch, rotation, log of the stretch) *)
Definition polar_left_logv_lame (junk def_grad_inc left_stretch_inc rotation_inc log_left_stretch_inc : arr) : arr * arr * arr :=
  let b := square_full33_full33T def_grad_inc junk in
  let zero_vec := upd (upd (upd junk 0%nat 0) 1 0) 2 0 in
  let e := eigen_sym33_nonunit junk b zero_vec zero_vec zero_vec in
  let vec1 := evec0 e in
  let vec2 := evec1 e in
  let vec3 := evec2 e in
  let eval := upd (upd (upd junk 0%nat (eval0 e)) 1 (eval1 e)) 2 (eval2 e) in
  let mag := (sqrt ((vec1 0%nat) * (vec1 0%nat) + (vec1 1%nat) * (vec1 1%nat) + (vec1 2%nat) * (vec1 2%nat))) in
  let vec1 := upd vec1 0%nat ((vec1 0%nat) / (mag)) in
  let vec1 := upd vec1 1%nat ((vec1 1%nat) / (mag)) in
  let vec1 := upd vec1 2%nat ((vec1 2%nat) / (mag)) in
  let mag := (sqrt ((vec2 0%nat) * (vec2 0%nat) + (vec2 1%nat) * (vec2 1%nat) + (vec2 2%nat) * (vec2 2%nat))) in
  let vec2 := upd vec2 0%nat ((vec2 0%nat) / (mag)) in
  let vec2 := upd vec2 1%nat ((vec2 1%nat) / (mag)) in
  let vec2 := upd vec2 2%nat ((vec2 2%nat) / (mag)) in
  let mag := (sqrt ((vec3 0%nat) * (vec3 0%nat) + (vec3 1%nat) * (vec3 1%nat) + (vec3 2%nat) * (vec3 2%nat))) in
  let vec3 := upd vec3 0%nat ((vec3 0%nat) / (mag)) in
  let vec3 := upd vec3 1%nat ((vec3 1%nat) / (mag)) in
  let vec3 := upd vec3 2%nat ((vec3 2%nat) / (mag)) in
  let x := junk in
  let x := upd x 0%nat ((sqrt ((eval 0%nat)))) in
  let x := upd x 1%nat ((sqrt ((eval 1%nat)))) in
  let x := upd x 2%nat ((sqrt ((eval 2%nat)))) in
  let xi := junk in
  let xi := upd xi 0%nat (1 / (x 0%nat)) in
  let xi := upd xi 1%nat (1 / (x 1%nat)) in
  let xi := upd xi 2%nat (1 / (x 2%nat)) in
  let lnx := junk in
  let lnx := upd lnx 0%nat ((ln ((x 0%nat)))) in
  let lnx := upd lnx 1%nat ((ln ((x 1%nat)))) in
  let lnx := upd lnx 2%nat ((ln ((x 2%nat)))) in
  let vec_transpose := junk in
  let vec_transpose := upd vec_transpose K_F_XX ((vec1 0%nat)) in
  let vec_transpose := upd vec_transpose K_F_XY ((vec1 1%nat)) in
  let vec_transpose := upd vec_transpose K_F_XZ ((vec1 2%nat)) in
  let vec_transpose := upd vec_transpose K_F_YX ((vec2 0%nat)) in
  let vec_transpose := upd vec_transpose K_F_YY ((vec2 1%nat)) in
  let vec_transpose := upd vec_transpose K_F_YZ ((vec2 2%nat)) in
  let vec_transpose := upd vec_transpose K_F_ZX ((vec3 0%nat)) in
  let vec_transpose := upd vec_transpose K_F_ZY ((vec3 1%nat)) in
  let vec_transpose := upd vec_transpose K_F_ZZ ((vec3 2%nat)) in
  let temp := junk in
  let temp := upd temp K_F_XX ((vec1 0%nat) * (x 0%nat)) in
  let temp := upd temp K_F_XY ((vec2 0%nat) * (x 1%nat)) in
  let temp := upd temp K_F_XZ ((vec3 0%nat) * (x 2%nat)) in
  let temp := upd temp K_F_YX ((vec1 1%nat) * (x 0%nat)) in
  let temp := upd temp K_F_YY ((vec2 1%nat) * (x 1%nat)) in
  let temp := upd temp K_F_YZ ((vec3 1%nat) * (x 2%nat)) in
  let temp := upd temp K_F_ZX ((vec1 2%nat) * (x 0%nat)) in
  let temp := upd temp K_F_ZY ((vec2 2%nat) * (x 1%nat)) in
  let temp := upd temp K_F_ZZ ((vec3 2%nat) * (x 2%nat)) in
  let left_stretch_inc := upd left_stretch_inc K_S_XX ((temp K_F_XX) * (vec_transpose K_F_XX) + (temp K_F_XY) * (vec_transpose K_F_YX) + (temp K_F_XZ) * (vec_transpose K_F_ZX)) in
  let left_stretch_inc := upd left_stretch_inc K_S_YY ((temp K_F_YX) * (vec_transpose K_F_XY) + (temp K_F_YY) * (vec_transpose K_F_YY) + (temp K_F_YZ) * (vec_transpose K_F_ZY)) in
  let left_stretch_inc := upd left_stretch_inc K_S_ZZ ((temp K_F_ZX) * (vec_transpose K_F_XZ) + (temp K_F_ZY) * (vec_transpose K_F_YZ) + (temp K_F_ZZ) * (vec_transpose K_F_ZZ)) in
  let left_stretch_inc := upd left_stretch_inc K_S_XY ((temp K_F_XX) * (vec_transpose K_F_XY) + (temp K_F_XY) * (vec_transpose K_F_YY) + (temp K_F_XZ) * (vec_transpose K_F_ZY)) in
  let left_stretch_inc := upd left_stretch_inc K_S_YZ ((temp K_F_YX) * (vec_transpose K_F_XZ) + (temp K_F_YY) * (vec_transpose K_F_YZ) + (temp K_F_YZ) * (vec_transpose K_F_ZZ)) in
  let left_stretch_inc := upd left_stretch_inc K_S_ZX ((temp K_F_ZX) * (vec_transpose K_F_XX) + (temp K_F_ZY) * (vec_transpose K_F_YX) + (temp K_F_ZZ) * (vec_transpose K_F_ZX)) in
  let temp := upd temp K_F_XX ((vec1 0%nat) * (xi 0%nat)) in
  let temp := upd temp K_F_XY ((vec2 0%nat) * (xi 1%nat)) in
  let temp := upd temp K_F_XZ ((vec3 0%nat) * (xi 2%nat)) in
  let temp := upd temp K_F_YX ((vec1 1%nat) * (xi 0%nat)) in
  let temp := upd temp K_F_YY ((vec2 1%nat) * (xi 1%nat)) in
  let temp := upd temp K_F_YZ ((vec3 1%nat) * (xi 2%nat)) in
  let temp := upd temp K_F_ZX ((vec1 2%nat) * (xi 0%nat)) in
  let temp := upd temp K_F_ZY ((vec2 2%nat) * (xi 1%nat)) in
  let temp := upd temp K_F_ZZ ((vec3 2%nat) * (xi 2%nat)) in
  let left_stretch_inc_inverse := mult_full33_full33 temp vec_transpose junk in
  let temp := upd temp K_F_XX ((vec1 0%nat) * (lnx 0%nat)) in
  let temp := upd temp K_F_XY ((vec2 0%nat) * (lnx 1%nat)) in
  let temp := upd temp K_F_XZ ((vec3 0%nat) * (lnx 2%nat)) in
  let temp := upd temp K_F_YX ((vec1 1%nat) * (lnx 0%nat)) in
  let temp := upd temp K_F_YY ((vec2 1%nat) * (lnx 1%nat)) in
  let temp := upd temp K_F_YZ ((vec3 1%nat) * (lnx 2%nat)) in
  let temp := upd temp K_F_ZX ((vec1 2%nat) * (lnx 0%nat)) in
  let temp := upd temp K_F_ZY ((vec2 2%nat) * (lnx 1%nat)) in
  let temp := upd temp K_F_ZZ ((vec3 2%nat) * (lnx 2%nat)) in
  let log_left_stretch_inc := upd log_left_stretch_inc K_S_XX ((temp K_F_XX) * (vec_transpose K_F_XX) + (temp K_F_XY) * (vec_transpose K_F_YX) + (temp K_F_XZ) * (vec_transpose K_F_ZX)) in
  let log_left_stretch_inc := upd log_left_stretch_inc K_S_YY ((temp K_F_YX) * (vec_transpose K_F_XY) + (temp K_F_YY) * (vec_transpose K_F_YY) + (temp K_F_YZ) * (vec_transpose K_F_ZY)) in
  let log_left_stretch_inc := upd log_left_stretch_inc K_S_ZZ ((temp K_F_ZX) * (vec_transpose K_F_XZ) + (temp K_F_ZY) * (vec_transpose K_F_YZ) + (temp K_F_ZZ) * (vec_transpose K_F_ZZ)) in
  let log_left_stretch_inc := upd log_left_stretch_inc K_S_XY ((temp K_F_XX) * (vec_transpose K_F_XY) + (temp K_F_XY) * (vec_transpose K_F_YY) + (temp K_F_XZ) * (vec_transpose K_F_ZY)) in
  let log_left_stretch_inc := upd log_left_stretch_inc K_S_YZ ((temp K_F_YX) * (vec_transpose K_F_XZ) + (temp K_F_YY) * (vec_transpose K_F_YZ) + (temp K_F_YZ) * (vec_transpose K_F_ZZ)) in
  let log_left_stretch_inc := upd log_left_stretch_inc K_S_ZX ((temp K_F_ZX) * (vec_transpose K_F_XX) + (temp K_F_ZY) * (vec_transpose K_F_YX) + (temp K_F_ZZ) * (vec_transpose K_F_ZX)) in
  let rotation_inc := mult_full33_full33 left_stretch_inc_inverse def_grad_inc rotation_inc in
  (left_stretch_inc, rotation_inc, log_left_stretch_inc).
