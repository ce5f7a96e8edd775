(** What the theorems on the device model compare with: the loops over elements of the host code
    (BlockModel), one block after the other, elements in increasing order. *)
From Coq Require Import Reals.
From Verif Require Import Base Strings DataModel Loops TensorModel ElementModel BlockModel KokkosModel.
Set Implicit Arguments.
Local Open Scope nat_scope.
Local Open Scope list_scope.
Local Notation length := List.length.

(** [n] entries of a list from [off] on *)
Definition slice (d : list R) (off n : nat) : list R := map (fun k => nth (off + k) d 0%R) (seq 0 n).
(** The stress of the eight points of element e for its new deformation gradients F, from the old
    deformation gradients and stresses of the block *)
Definition stress_of (m : kmat) (time_n time_np1 : R) (old_F old_S : list R) (e : nat) (F : arr) : outcome arr :=
  do ss <- omapM (fun p => km_stress m time_n time_np1 (slice old_F (e * 72 + p * 9) 9) (map F (seq (p * 9) 9)) (slice old_S (e * 48 + p * 6) 6)) (seq 0 8);
  Ok (fun k => nth (k / 6) ss zeros (k mod 6)).
Definition conn_of (conn : list nat) (k : nat) : nat := nth k conn 0.
(** One block, elements in order; [ref] and [disp] are the nodal values *)
Definition serial_block_force (time_n time_np1 : R) (ref disp : list R) (b : mblock) (old_F old_S : list R) (f : arr) : outcome arr :=
  block_internal_force (stress_of (mb_mat b) time_n time_np1 old_F old_S) (arr_of ref) (arr_of disp) (seq 0 (mb_num_elem b)) (conn_of (mb_conn b)) zeros f.
(** All blocks *)
Definition serial_force (time_n time_np1 : R) (ref disp : list R) (bs : list (mblock * (list R * list R))) : outcome arr :=
  ofold (fun f x => serial_block_force time_n time_np1 ref disp (fst x) (fst (snd x)) (snd (snd x)) f) bs zeros.
(** The lumped mass of the host code, one block after the other *)
Definition serial_mass (ref : list R) (mesh : list mblock) : outcome arr :=
  ofold (fun l b => block_lumped_mass (km_density (mb_mat b)) (arr_of ref) (mb_num_elem b) (conn_of (mb_conn b)) zeros l) mesh zeros.
(** The critical time step of the host code: the least one of the blocks *)
Definition serial_time_step (dbl_max : R) (ref disp : list R) (mesh : list mblock) : R :=
  fold_left (fun dt b => lower (block_critical_time_step dbl_max (km_bulk (mb_mat b)) (km_density (mb_mat b)) (arr_of ref) (arr_of disp) (mb_num_elem b) (conn_of (mb_conn b)) zeros) dt) mesh dbl_max.
