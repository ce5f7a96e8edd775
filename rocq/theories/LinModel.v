(** Model of src/nimble_linear_solver.{h,cc}, src/nimble_mesh_utils.cc and the LU routines of
    src/nimble_utils.h.  Serial build (no MPI_Allreduce in InnerProduct); doubles as reals;
    double* arguments as functions nat -> R. *)
From Verif Require Import Base Loops.
From Coq Require Import Reals.
Local Open Scope nat_scope.
Set Implicit Arguments.

(** ** CRSMatrixContainer (linear_solver.h 117-211) *)
Section CRS.
  Context {T : Type} (zero : T).
  Record crs := CRS {
    num_rows : nat; data : list T; i_index : list nat; j_index : list nat; row_first : list nat }.

  (** default constructor, linear_solver.h 120 *)
  Definition crs_new : crs := CRS 0 [] [] [] [].

  (** std::vector::resize *)
  Definition vec_resize {U} (l : list U) (n : nat) (d : U) : list U := firstn n l ++ repeat d (n - length l).

  (** AllocateNonzeros, linear_solver.cc 56-77; the state before the call matters because
      resize keeps existing entries. *)
  Definition allocate_nonzeros (a : crs) (ii jj : list nat) : outcome crs :=
    let dat := vec_resize (data a) (length ii) zero in
    let max_row := fold_left (fun m i => if m <? i then i else m) ii 0 in
    let n := max_row + 1 in
    let rf := vec_resize (row_first a) (n + 1) 0 in
    do st <- oloop 0 (length ii) (fun i st =>
        let '(rf, cur) := st in
        do row <- vget ii i;
        if (cur <? Z.of_nat row)%Z then do rf' <- vset rf row i; Ok (rf', Z.of_nat row) else Ok (rf, cur))
      (rf, (-1)%Z);
    do rf2 <- vset (fst st) n (length ii);
    Ok (CRS n dat ii jj rf2).

  (** SetAllValues, linear_solver.h 145-149 *)
  Definition set_all_values (a : crs) (v : T) : crs :=
    CRS (num_rows a) (map (fun _ => v) (data a)) (i_index a) (j_index a) (row_first a).

  Definition with_data (a : crs) (d : list T) : crs :=
    CRS (num_rows a) d (i_index a) (j_index a) (row_first a).

  (** SetRowValues, linear_solver.cc 79-83 *)
  Definition set_row_values (a : crs) (row : nat) (v : T) : outcome crs :=
    do b <- vget (row_first a) row;
    do e <- vget (row_first a) (row + 1);
    do d <- oloop b e (fun i d => vset d i v) (data a);
    Ok (with_data a d).

  (** SetColumnValues, linear_solver.cc 85-91 *)
  Definition set_column_values (a : crs) (col : nat) (v : T) : outcome crs :=
    do d <- oloop 0 (length (j_index a)) (fun i d =>
      do j <- vget (j_index a) i; if j =? col then vset d i v else Ok d) (data a);
    Ok (with_data a d).

  (** FindIndex, linear_solver.cc 93-115: [fuel] counts the remaining trials. *)
  Fixpoint find_loop (jj : list nat) (j : nat) (fuel mn mx trial jv : nat) : outcome nat :=
    match fuel with
    | 0 => Throw
    | S fuel =>
      if jv =? j then Ok trial
      else
        let mn' := if jv <? j then trial else mn in
        let mx' := if jv <? j then mx else trial in
        let trial' := (mn' + mx') / 2 in
        do jv' <- vget jj trial';
        find_loop jj j fuel mn' mx' trial' jv'
    end.
  Definition find_index (a : crs) (i j : nat) : outcome nat :=
    do mn <- vget (row_first a) i;
    do mx <- vget (row_first a) (i + 1);
    let trial := (mn + mx) / 2 in
    do jv <- vget (j_index a) trial;
    find_loop (j_index a) j (mx - mn) mn mx trial jv.

  (** operator(), linear_solver.h 172-182 *)
  Definition crs_get (a : crs) (i j : nat) : outcome T :=
    do k <- find_index a i j; vget (data a) k.
  Definition crs_set (a : crs) (i j : nat) (v : T) : outcome crs :=
    do k <- find_index a i j; do d <- vset (data a) k v; Ok (with_data a d).
End CRS.
Arguments crs : clear implicits.

(** ** Dense MatrixContainer, linear_solver.h 59-115 *)
Section Dense.
  Context {T : Type} (zero : T).
  Record dense := Dense { d_rows : nat; d_data : list T }.
  (** default constructor, 62 *)
  Definition dense_new : dense := Dense 0 [].
  (** AllocateNonzeros, 66-75 (the column list is ignored) *)
  Definition dense_allocate (m : dense) (ii : list nat) : dense :=
    let n := fold_left (fun m i => if m <? i then i else m) ii 0 + 1 in
    Dense n (vec_resize (d_data m) (n * n) zero).
  (** SetAllValues, 77-81 *)
  Definition dense_set_all (m : dense) (v : T) : dense := Dense (d_rows m) (map (fun _ => v) (d_data m)).
  (** SetRowValues, 83-87 *)
  Definition dense_set_row (m : dense) (row : nat) (v : T) : outcome dense :=
    do d <- oloop 0 (d_rows m) (fun i d => vset d (d_rows m * row + i) v) (d_data m);
    Ok (Dense (d_rows m) d).
  (** SetColumnValues, 89-93 *)
  Definition dense_set_col (m : dense) (col : nat) (v : T) : outcome dense :=
    do d <- oloop 0 (d_rows m) (fun i d => vset d (d_rows m * i + col) v) (d_data m);
    Ok (Dense (d_rows m) d).
  (** operator(), 101-111 *)
  Definition dense_get (m : dense) (i j : nat) : outcome T := vget (d_data m) (d_rows m * i + j).
  Definition dense_set (m : dense) (i j : nat) (v : T) : outcome dense :=
    do d <- vset (d_data m) (d_rows m * i + j) v; Ok (Dense (d_rows m) d).
End Dense.
Arguments dense : clear implicits.

Local Open Scope R_scope.

(** ** Sparse products and the conjugate gradient solver *)
Definition rcrs := crs R.

(** MatVec, linear_solver.cc 117-122.  result is the array before the call. *)
Definition mat_vec (a : rcrs) (vec result : nat -> R) : nat -> R :=
  let r0 := floop 0 (num_rows a) (fun i r => upd r i 0) result in
  floop 0 (length (data a)) (fun k r =>
    upd r (nth k (i_index a) 0%nat)
      (r (nth k (i_index a) 0%nat) + nth k (data a) 0 * vec (nth k (j_index a) 0%nat))) r0.

(** InnerProduct, linear_solver.h 214-224 *)
Definition inner (n : nat) (u v : nat -> R) : R := floop 0 n (fun i s => s + u i * v i) 0.

(** PopulateDiagonalPreconditioner, linear_solver.cc 137-151: M's data array; writing past its
    end is undefined. *)
Definition populate_diagonal (a : rcrs) (m : list R) : outcome (list R) :=
  do st <- oloop 0 (length (data a)) (fun k st =>
    let '(m, idx) := st in
    if (nth k (i_index a) 0 =? nth k (j_index a) 0)%nat
    then do m' <- vset m idx (1 / nth k (data a) 0); Ok (m', S idx)
    else Ok (m, idx)) (m, 0%nat);
  Ok (fst st).

(** DiagonalMatrixMatVec, linear_solver.cc 124-135 *)
Definition diag_mat_vec (n : nat) (m : list R) (vec result : nat -> R) : nat -> R :=
  floop 0 n (fun i r => upd r i (nth i m 0 * vec i)) result.

Record cg_state := CG {
  cg_x : nat -> R; cg_d : nat -> R; cg_r : nat -> R; cg_s : nat -> R; cg_q : nat -> R;
  cg_delta : R; cg_iter : nat }.

(** One pass of the while loop, linear_solver.cc 192-227.  None: one of the two divisions is by
    zero (the program goes on with an infinity or NaN, which the model does not follow). *)
Definition cg_step (a : rcrs) (n : nat) (m : list R) (b : nat -> R) (st : cg_state) : option cg_state :=
  let q := mat_vec a (cg_d st) (cg_q st) in
  let dq := inner n (cg_d st) q in
  if Req_EM_T dq 0 then None
  else
    let alpha := cg_delta st / dq in
    let x := floop 0 n (fun i x => upd x i (x i + alpha * cg_d st i)) (cg_x st) in
    let q' := if (cg_iter st mod 50 =? 0)%nat then mat_vec a x q else q in
    let r := if (cg_iter st mod 50 =? 0)%nat
             then floop 0 n (fun i r => upd r i (b i - q' i)) (cg_r st)
             else floop 0 n (fun i r => upd r i (r i - alpha * q i)) (cg_r st) in
    let s := diag_mat_vec n m r (cg_s st) in
    let delta_old := cg_delta st in
    let delta_new := inner n r s in
    if Req_EM_T delta_old 0 then None
    else
      let beta := delta_new / delta_old in
      let d := floop 0 n (fun i d => upd d i (s i + beta * d i)) (cg_d st) in
      Some (CG x d r s q' delta_new (S (cg_iter st))).

Fixpoint cg_loop (fuel : nat) (a : rcrs) (n : nat) (m : list R) (b : nat -> R) (tol : R) (st : cg_state) : option cg_state :=
  match fuel with
  | 0%nat => Some st
  | S fuel =>
      if Rlt_dec tol (cg_delta st) then
        match cg_step a n m b st with Some st' => cg_loop fuel a n m b tol st' | None => None end
      else Some st
  end.

(** a stored diagonal entry is zero: 1.0 / A.data_[i] of PopulateDiagonalPreconditioner,
    linear_solver.cc 147-149, is infinite *)
Definition zero_diagonal (a : rcrs) : bool :=
  existsb (fun k => ((nth k (i_index a) 0 =? nth k (j_index a) 0)%nat &&
                     (if Req_EM_T (nth k (data a) 0) 0 then true else false))%bool) (seq 0 (length (data a))).

(** CG_SolveSystem, linear_solver.cc 154-234: (success, x, num_iterations); [scratch] is the
    content of the scratch arrays, M's data being n values.  None: a division by zero. *)
Record cg_result := CGR { cg_success : bool; cg_solution : nat -> R; cg_iterations : nat; cg_last : cg_state }.
Definition cg_solve (a : rcrs) (b : nat -> R) (m0 : list R) (scratch : nat -> R) (x : nat -> R)
  (cg_tol : R) (max_iterations : nat) : outcome (option cg_result) :=
  let n := num_rows a in
  do m <- populate_diagonal a m0;
  if zero_diagonal a then Ok None
  else
    let q := mat_vec a x scratch in
    let r := floop 0 n (fun i r => upd r i (b i - q i)) scratch in
    let d := diag_mat_vec n m r scratch in
    let delta := inner n r d in
    let tolerance := cg_tol * delta in
    match cg_loop max_iterations a n m b tolerance (CG x d r scratch q delta 0) with
    | None => Ok None
    | Some st => Ok (Some (CGR (negb (cg_iter st =? max_iterations)%nat) (cg_x st) (cg_iter st) st))
    end.

(** ** LU decomposition (nimble_utils.h 1271-1342); the matrix is any container whose entries
    (i, j), i, j < n, are independent. *)
Definition matrix := nat -> nat -> R.

(** row scaling, 1284-1295 *)
Definition row_max (n : nat) (m : matrix) (i : nat) : R :=
  floop 0 n (fun j big => if Rlt_dec big (Rabs (m i j)) then Rabs (m i j) else big) 0.
Definition lu_scaling (tiny : R) (n : nat) (m : matrix) : outcome (nat -> R) :=
  oloop 0 n (fun i vv =>
    let big := row_max n m i in
    if Rlt_dec big tiny then Abort else Ok (upd vv i (1 / big))) (fun _ => 0).

(** sum -= mat(i,k) * mat(k,j) for k < bound *)
Definition crout_sum (m : matrix) (i j bound : nat) : R :=
  floop 0 bound (fun k sum => sum - m i k * m k j) (m i j).

(** column j above the diagonal, 1299-1303 *)
Definition lu_upper (j : nat) (m : matrix) : matrix :=
  floop 0 j (fun i m => upd2 m i j (crout_sum m i j i)) m.

(** column j from the diagonal down with the pivot search, 1305-1317 *)
Definition lu_lower (n j : nat) (vv : nat -> R) (st : matrix * R * nat) : matrix * R * nat :=
  floop j n (fun i st =>
    let '(m, big, imax) := st in
    let sum := crout_sum m i j j in
    let m := upd2 m i j sum in
    if Rlt_dec big (vv i * Rabs sum) then (m, vv i * Rabs sum, i) else (m, big, imax)) st.

(** row interchange, 1320-1326 *)
Definition swap_rows (n : nat) (m : matrix) (a b : nat) : matrix :=
  floop 0 n (fun k m =>
    let temp := m a k in
    let m := upd2 m a k (m b k) in
    upd2 m b k temp) m.

(** division by the pivot, 1335-1339 *)
Definition lu_scale (n j : nat) (m : matrix) : matrix :=
  let temp := 1 / m j j in
  floop (j + 1) n (fun i m => upd2 m i j (m i j * temp)) m.

Record lu_state := LU { lu_m : matrix; lu_vv : nat -> R; lu_index : nat -> nat; lu_imax : nat }.
(** one column, 1298-1340 *)
Definition lu_column (tiny : R) (n j : nat) (st : lu_state) : outcome lu_state :=
  let m1 := lu_upper j (lu_m st) in
  let '(m2, _, imax) := lu_lower n j (lu_vv st) (m1, 0, lu_imax st) in
  let m3 := if (j =? imax)%nat then m2 else swap_rows n m2 imax j in
  let vv := if (j =? imax)%nat then lu_vv st else upd (lu_vv st) imax (lu_vv st j) in
  let index := upd (lu_index st) j imax in
  if Rlt_dec (Rabs (m3 j j)) tiny then Abort
  else Ok (LU (lu_scale n j m3) vv index imax).

Definition lu_decompose (tiny : R) (n : nat) (m : matrix) : outcome (matrix * (nat -> nat)) :=
  do vv <- lu_scaling tiny n m;
  do st <- oloop 0 n (lu_column tiny n) (LU m vv (fun _ => 0%nat) 0);
  Ok (lu_m st, lu_index st).

(** LU_Solve, 1345-1373 *)
Definition lu_forward (n : nat) (m : matrix) (index : nat -> nat) (vec : nat -> R) : nat -> R :=
  floop 0 n (fun i vec =>
    let sum := vec (index i) in
    let vec := upd vec (index i) (vec i) in
    upd vec i (floop 0 i (fun j sum => sum - m i j * vec j) sum)) vec.
(** i runs from n-1 down to 0: i = n - 1 - k *)
Definition lu_backward (n : nat) (m : matrix) (vec : nat -> R) : nat -> R :=
  floop 0 n (fun k vec =>
    let i := (n - 1 - k)%nat in
    upd vec i (floop (i + 1) n (fun j sum => sum - m i j * vec j) (vec i) / m i i)) vec.
Definition lu_solve (n : nat) (m : matrix) (index : nat -> nat) (vec : nat -> R) : nat -> R :=
  lu_backward n m (lu_forward n m index vec).

(** LU_SolveSystem, 1376-1387 (tiny = 1e-40 in the code) *)
Definition lu_solve_system (tiny : R) (n : nat) (m : matrix) (vec : nat -> R) : outcome (nat -> R) :=
  do r <- lu_decompose tiny n m; Ok (lu_solve n (fst r) (snd r) vec).

(** ** Sparsity pattern of the tangent (nimble_mesh_utils.cc 48-99) *)
Local Open Scope nat_scope.
(** std::set<int>::insert *)
Fixpoint set_insert (x : nat) (s : list nat) : list nat :=
  match s with
  | [] => [x]
  | y :: s' => if x <? y then x :: s else if x =? y then s else y :: set_insert x s'
  end.

(** linear_system_dof of one element, lines 69-74 *)
Definition element_dofs (dim : nat) (lsn : list nat) (elem : list nat) : outcome (list nat) :=
  do ls <- omapM (vget lsn) elem;
  Ok (flat_map (fun l => map (fun d => l * dim + d) (seq 0 dim)) ls).

(** nonzeros[r].insert(c), r out of range being undefined *)
Definition nz_insert (nz : list (list nat)) (r c : nat) : outcome (list (list nat)) :=
  do s <- vget nz r; vset nz r (set_insert c s).

(** lines 75-84 *)
Definition element_nonzeros (dofs : list nat) (nz : list (list nat)) : outcome (list (list nat)) :=
  ofold (fun nz row =>
    ofold (fun nz col => do nz1 <- nz_insert nz row col; nz_insert nz1 col row) dofs nz) dofs nz.

(** the whole function; [elems] is the concatenation over the blocks of the element
    connectivities (lines 63-86 visit the blocks and elements in this order) *)
Definition tangent_structure (dim : nat) (lsn : list nat) (elems : list (list nat))
  : outcome (list nat * list nat) :=
  let nrows := length lsn * dim in
  do nz <- ofold (fun nz e => do dofs <- element_dofs dim lsn e; element_nonzeros dofs nz)
             elems (repeat [] nrows);
  let pairs := concat (map (fun rc => map (fun c => (fst rc, c)) (snd rc)) (combine (seq 0 nrows) nz)) in
  Ok (map fst pairs, map snd pairs).
