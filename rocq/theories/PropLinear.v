(** Property theorems C12 (sparse matrix), C13 (tangent pattern), C14 (conjugate gradient),
    C15 (LU).  Model: LinModel.v; vocabulary: LinSpec.v. *)
From Verif Require Import Base ListLemmas Loops LinModel LinSpec CrsProofs PatternProofs CgProofs CgSpd LuProofs.
From Coq Require Import Reals Lra Sorting.Sorted.
Local Open Scope nat_scope.
Set Implicit Arguments.

Ltac sortlex := repeat (apply SSorted_cons || apply SSorted_nil || apply Forall_cons || apply Forall_nil);
  unfold lex_lt; simpl; lia.

(** C12: a matrix allocated from a sorted duplicate-free pattern in which no row is empty, after
    any sequence of SetAllValues, SetRowValues, SetColumnValues and entry writes within the
    pattern, succeeds without undefined behaviour; then reading an entry of the pattern returns
    what that history wrote there last (0 if nothing), reading outside the pattern throws, and
    MatVec is the dense product. *)
Theorem C12_sparse_matrix_history :
  forall (pat : list (nat * nat)) (ops : list (mat_op R)),
    good_pattern pat -> Forall (op_valid pat) ops ->
    let D := fold_left op_meaning ops (fun _ _ => 0%R) in
    exists a0 a,
      allocate_nonzeros 0%R crs_new (map fst pat) (map snd pat) = Ok a0 /\
      ofold op_call ops a0 = Ok a /\
      (forall i j, In (i, j) pat -> crs_get a i j = Ok (D i j)) /\
      (forall i j, is_row pat i -> ~ In (i, j) pat -> crs_get a i j = Throw /\ forall v, crs_set a i j v = Throw) /\
      (forall ncols x y r, (forall i j, In (i, j) pat -> j < ncols) -> is_row pat r ->
         mat_vec a x y r = mv ncols (dense_of pat D) x r).
Proof.
  intros pat ops Hp Ho D. destruct (history_refines 0%R Hp Ho) as (a0 & a & E0 & E & H).
  exists a0, a. split; auto. split; auto. split; [|split].
  - intros i j Hin. apply (get_represents Hp i j H). auto.
  - intros i j Hr Hn. split.
    + apply (get_represents Hp i j H); auto.
    + intros v. unfold crs_set. destruct H as [Hs _]. now rewrite (find_index_absent Hp j Hs Hr Hn).
  - intros ncols x y r Hc Hr. now apply (mat_vec_dense _ _ Hp H).
Qed.
Print Assumptions C12_sparse_matrix_history.

(** The pattern of a 3x3 tridiagonal matrix meets the hypotheses. *)
Example C12_ex_pattern : good_pattern [(0,0); (0,1); (1,0); (1,1); (1,2); (2,1); (2,2)].
Proof.
  split.
  - sortlex.
  - discriminate.
  - intros r i j H Hr. simpl in H.
    assert (r = 0 \/ r = 1 \/ r = 2) as [->|[->| ->]].
    { repeat (destruct H as [H|H]; [injection H as <- <-; lia|]). destruct H. }
    + exists 0. simpl. auto.
    + exists 1. simpl. auto.
    + exists 1. simpl. tauto.
Qed.

(** Refuted corner: with an empty row before the last one, an entry of the pattern is not found
    (reading it throws), although the pattern is sorted and duplicate-free. *)
Theorem C12_empty_row_refuted :
  exists pat a, StronglySorted lex_lt pat /\ In (0, 0) pat /\
    allocate_nonzeros 0%Z crs_new (map fst pat) (map snd pat) = Ok a /\ crs_get a 0 0 = Throw.
Proof.
  exists [(0, 0); (2, 2)], (CRS 3 [0%Z; 0%Z] [0; 2] [0; 2] [0; 0; 1; 2]). split; [|split; [|split]].
  - sortlex.
  - simpl; auto.
  - vm_compute; reflexivity.
  - vm_compute; reflexivity.
Qed.
Print Assumptions C12_empty_row_refuted.

(** Refuted corner: allocating an already used matrix again does not reset its entries. *)
Theorem C12_reallocate_keeps_values_refuted :
  (do a0 <- allocate_nonzeros 0%Z crs_new [0] [0]; do a1 <- crs_set a0 0 0 5%Z;
   do a2 <- allocate_nonzeros 0%Z a1 [0] [0]; crs_get a2 0 0) = Ok 5%Z.
Proof. vm_compute. reflexivity. Qed.

(** C13: for any connectivity with valid node numbers the pattern exists, is sorted by row and
    then column without duplicates, lists exactly the pairs of degrees of freedom coupled by an
    element, and is symmetric. *)
Theorem C13_tangent_pattern_exact :
  forall dim lsn elems,
    Forall (Forall (fun a => a < length lsn)) elems -> Forall (fun l => l < length lsn) lsn ->
    exists pat, tangent_structure dim lsn elems = Ok (map fst pat, map snd pat) /\
      StronglySorted lex_lt pat /\ NoDup pat /\
      (forall r c, In (r, c) pat <-> coupled dim lsn elems r c) /\
      (forall r c, In (r, c) pat -> In (c, r) pat).
Proof.
  intros dim lsn elems He Hl. destruct (tangent_structure_ok dim He Hl) as (pat & E & Hs & Hin).
  exists pat. split; auto. split; auto. split.
  - apply (@StronglySorted_NoDup _ lex_lt); [|auto]. intros [u v] [H|[_ H]]; simpl in H; lia.
  - split; auto. intros r c H. apply Hin. apply Hin in H as (e & a & b & ? & ? & ? & ? & ?).
    exists e, b, a. auto.
Qed.
Print Assumptions C13_tangent_pattern_exact.

(** ... and it is accepted by the sparse matrix (C12) as soon as every node belongs to an
    element: every row of the linear system then has an entry. *)
Theorem C13_pattern_usable :
  forall dim lsn elems,
    Forall (Forall (fun a => a < length lsn)) elems -> Forall (fun l => l < length lsn) lsn ->
    0 < dim -> lsn <> [] ->
    (forall l, l < length lsn -> exists e a, In e elems /\ In a e /\ nth_error lsn a = Some l) ->
    exists pat, tangent_structure dim lsn elems = Ok (map fst pat, map snd pat) /\ good_pattern pat /\
      (forall i, i < length lsn * dim <-> is_row pat i).
Proof. exact tangent_structure_good. Qed.
Print Assumptions C13_pattern_usable.

(** C14: on any matrix produced by a history as in C12, with all diagonal entries in the
    pattern, the solver does not touch memory it does not own, throw or abort; unless a division
    by zero occurs (r = None) it returns; it never reports more than max_iterations iterations;
    the residual vector it tracked is b - A x for the returned x; and when it reports success the
    diagonally weighted squared residual of the returned x is at most cg_tol times that of the
    initial guess. *)
Local Open Scope R_scope.
Theorem C14_cg_reports_soundly :
  forall (pat : list (nat * nat)) (ops : list (mat_op R)) a0 a b m0 scratch x cg_tol max_it,
    good_pattern pat -> Forall (op_valid pat) ops ->
    allocate_nonzeros 0 crs_new (map fst pat) (map snd pat) = Ok a0 -> ofold op_call ops a0 = Ok a ->
    (forall i j, In (i, j) pat -> (j < num_rows a)%nat) -> (forall r, is_row pat r -> In (r, r) pat) ->
    length m0 = num_rows a ->
    let n := num_rows a in
    let A := dense_of pat (fold_left op_meaning ops (fun _ _ => 0)) in
    exists r, cg_solve a b m0 scratch x cg_tol max_it = Ok r /\
      forall res, r = Some res ->
      (cg_iterations res <= max_it)%nat /\
      (cg_success res = true <-> (cg_iterations res < max_it)%nat) /\
      (forall i, (i < n)%nat -> cg_r (cg_last res) i = b i - mv n A (cg_solution res) i) /\
      (cg_success res = true ->
         weighted_residual n A b (cg_solution res) <= cg_tol * weighted_residual n A b x).
Proof.
  intros pat ops a0 a b m0 scratch x cg_tol max_it Hp Ho E0 E Hc Hd Hm n A.
  destruct (history_refines 0 Hp Ho) as (a0' & a' & E0' & E' & H).
  assert (a0' = a0) by congruence. subst a0'. assert (a' = a) by congruence. subst a'.
  exact (@cg_solve_ok pat a _ b m0 scratch x cg_tol max_it Hp H Hc Hd Hm).
Qed.
Print Assumptions C14_cg_reports_soundly.

(** C14, convergence: if the matrix is symmetric positive definite, no division by zero occurs,
    and with more than n permitted iterations the solver reports success after at most n of them,
    with the residual bound above; with tolerance 0 the returned vector solves the system. *)
Theorem C14_cg_converges :
  forall (pat : list (nat * nat)) (ops : list (mat_op R)) a0 a b m0 scratch x cg_tol max_it,
    good_pattern pat -> Forall (op_valid pat) ops ->
    allocate_nonzeros 0 crs_new (map fst pat) (map snd pat) = Ok a0 -> ofold op_call ops a0 = Ok a ->
    (forall i j, In (i, j) pat -> (j < num_rows a)%nat) -> (forall r, is_row pat r -> In (r, r) pat) ->
    length m0 = num_rows a ->
    let n := num_rows a in
    let A := dense_of pat (fold_left op_meaning ops (fun _ _ => 0)) in
    symmetric n A -> positive_definite n A -> 0 <= cg_tol -> (n < max_it)%nat ->
    exists res, cg_solve a b m0 scratch x cg_tol max_it = Ok (Some res) /\
      cg_success res = true /\ (cg_iterations res <= n)%nat /\
      weighted_residual n A b (cg_solution res) <= cg_tol * weighted_residual n A b x /\
      (cg_tol = 0 -> forall i, (i < n)%nat -> mv n A (cg_solution res) i = b i).
Proof.
  intros pat ops a0 a b m0 scratch x cg_tol max_it Hp Ho E0 E Hc Hd Hm n A Hs Hpd Ht Hn.
  destruct (history_refines 0 Hp Ho) as (a0' & a' & E0' & E' & H).
  assert (a0' = a0) by congruence. subst a0'. assert (a' = a) by congruence. subst a'.
  destruct (@cg_solve_ok pat a _ b m0 scratch x cg_tol max_it Hp H Hc Hd Hm) as (r & E1 & H1).
  destruct (@cg_spd pat a _ b m0 scratch x cg_tol max_it Hp H Hc Hd Hm Hs Hpd Ht) as (res & E2 & H2 & _).
  assert (r = Some res) by congruence. subst r. destruct (H1 res eq_refl) as (H3 & H4 & _ & H6).
  assert (Hok : cg_success res = true) by (apply H4; fold n in H2; lia).
  exists res. split; auto. split; auto. split; auto. split; [auto|].
  intros Hz. apply (@weighted_zero n A b _ Hpd). specialize (H6 Hok). fold n A in H6. rewrite Hz in H6. lra.
Qed.
Print Assumptions C14_cg_converges.

(** A case with coupling, meeting the hypotheses: [[2,-1],[-1,2]]. *)
Definition C14_ex_pattern : list (nat * nat) := [(0, 0); (0, 1); (1, 0); (1, 1)]%nat.
Definition C14_ex_ops : list (mat_op R) := [OWrite 0 0 2; OWrite 1 1 2; OWrite 0 1 (-1); OWrite 1 0 (-1)].
Example C14_ex_spd :
  let A := dense_of C14_ex_pattern (fold_left op_meaning C14_ex_ops (fun _ _ => 0)) in
  good_pattern C14_ex_pattern /\ Forall (op_valid C14_ex_pattern) C14_ex_ops /\ symmetric 2 A /\ positive_definite 2 A /\
  (forall r, is_row C14_ex_pattern r -> In (r, r) C14_ex_pattern).
Proof.
  cbv zeta. split.
  { split.
    - unfold C14_ex_pattern. sortlex.
    - discriminate.
    - intros r i j Hin Hr. assert (Hi : (i < 2)%nat) by (cbn in Hin; destruct Hin as [H|[H|[H|[H|[]]]]]; injection H; lia).
      destruct r as [|[|r]]; [exists 0%nat|exists 0%nat|lia]; cbn; auto. }
  split; [repeat (apply Forall_cons; [simpl; auto 10|]); constructor|]. split; [|split].
  - intros [|[|i]] [|[|j]] Hi Hj; try lia; cbv - [Rplus Rmult Rminus Rdiv Rinv R0 R1 Ropp IZR]; lra.
  - intros x (i & Hi & Hx). cbv [dot mv Rsum].
    cbv - [Rplus Rmult Rminus Rdiv Rinv R0 R1 Ropp IZR Rlt].
    assert (H : 0 < x 0%nat * x 0%nat + x 1%nat * x 1%nat).
    { destruct i as [|[|i]]; [| |lia]; nra. }
    nra.
  - intros r [j Hj]. cbn in Hj. decompose [or] Hj; try contradiction; match goal with H : _ = (r, j) |- _ => injection H as <- <- end; cbn; auto.
Qed.

(** Refuted corner: a solve that converges exactly in the last permitted iteration is reported
    as a failure although its residual vanishes. *)
Theorem C14_failure_report_refuted :
  exists a res, allocate_nonzeros 0 crs_new [0%nat] [0%nat] = Ok a /\
    exists a1, crs_set a 0 0 1 = Ok a1 /\
    cg_solve a1 (fun _ => 1) [0] (fun _ => 0) (fun _ => 0) (/ 1000) 1 = Ok (Some res) /\
    cg_success res = false /\ cg_solution res 0%nat = 1 /\ cg_delta (cg_last res) = 0.
Proof.
  eexists. eexists. split; [reflexivity|]. eexists. split; [reflexivity|].
  cbv - [Rplus Rmult Rminus Rdiv Rinv R0 R1 Ropp IZR Rlt Rlt_dec Req_EM_T].
  repeat match goal with
  | |- context [Req_EM_T ?x ?y] => first [destruct (Req_EM_T x y) as [H|_]; [exfalso; lra|] | destruct (Req_EM_T x y) as [H|_]; [exfalso; field_simplify in H; lra|]]
  | |- context [Rlt_dec ?x ?y] => destruct (Rlt_dec x y) as [_|H]; [|exfalso; apply H; lra]
  end.
  split; [reflexivity|]. cbv - [Rplus Rmult Rminus Rdiv Rinv R0 R1 Ropp IZR]. split; [reflexivity|]. split; field.
Qed.
Print Assumptions C14_failure_report_refuted.

(** Refuted corner: for the non-singular symmetric matrix diag(1, -1) and right-hand side (1, 1)
    the solver reports success without a single iteration: the weighted residual it watches is 0. *)
Theorem C14_indefinite_success_refuted :
  exists a0 a res, allocate_nonzeros 0 crs_new [0; 1]%nat [0; 1]%nat = Ok a0 /\
    ofold op_call [OWrite 0 0 1; OWrite 1 1 (-1)] a0 = Ok a /\
    cg_solve a (fun _ => 1) [0; 0] (fun _ => 0) (fun _ => 0) 0 2 = Ok (Some res) /\
    cg_success res = true /\ cg_iterations res = 0%nat /\
    mv 2 (dense_of [(0, 0); (1, 1)]%nat (fold_left op_meaning [OWrite 0 0 1; OWrite 1 1 (-1)] (fun _ _ => 0))) (cg_solution res) 0 <> 1.
Proof.
  do 3 eexists. split; [reflexivity|]. split; [reflexivity|].
  cbv - [Rplus Rmult Rminus Rdiv Rinv R0 R1 Ropp IZR Rlt Rlt_dec Req_EM_T].
  repeat match goal with
  | |- context [Req_EM_T ?x ?y] => destruct (Req_EM_T x y) as [H|_]; [exfalso; lra|]
  | |- context [Rlt_dec ?x ?y] => destruct (Rlt_dec x y) as [H|_]; [exfalso; lra|]
  end.
  split; [reflexivity|]. cbv - [Rplus Rmult Rminus Rdiv Rinv R0 R1 Ropp IZR]. split; [reflexivity|]. split; [reflexivity|]. lra.
Qed.
Print Assumptions C14_indefinite_success_refuted.

(** Refuted corner: a non-singular symmetric matrix and a right-hand side for which the first
    pass divides by zero (d . A d = 0); the program goes on with an infinite step length. *)
Theorem C14_division_by_zero_refuted :
  exists a0 a, allocate_nonzeros 0 crs_new [0; 0; 1; 1]%nat [0; 1; 0; 1]%nat = Ok a0 /\
    ofold op_call [OWrite 0 0 1; OWrite 0 1 (5 / 4); OWrite 1 0 (5 / 4); OWrite 1 1 1] a0 = Ok a /\
    cg_solve a (fun i => match i with 0%nat => 1 | _ => -2 end) [0; 0] (fun _ => 0) (fun _ => 0) 0 1 = Ok None.
Proof.
  do 2 eexists. split; [reflexivity|]. split; [reflexivity|].
  cbv - [Rplus Rmult Rminus Rdiv Rinv R0 R1 Ropp IZR Rlt Rlt_dec Req_EM_T].
  repeat match goal with
  | |- context [Rlt_dec ?x ?y] => destruct (Rlt_dec x y) as [_|H]; [|exfalso; apply H; lra]
  | |- context [Req_EM_T ?x ?y] => destruct (Req_EM_T x y) as [H|H]; try (exfalso; lra); try reflexivity; try (exfalso; apply H; field); clear H
  end.
Qed.
Print Assumptions C14_division_by_zero_refuted.

(** C15: for every non-singular matrix and right-hand side, if LU_SolveSystem returns (does not
    abort) then the returned vector solves the system (the solution then is unique). *)
Theorem C15_lu_solves :
  forall tiny n (A : matrix) v x, 0 < tiny -> nonsingular n A ->
    lu_solve_system tiny n A v = Ok x -> forall r, (r < n)%nat -> mv n A x r = v r.
Proof. intros tiny n A v x Ht Hn. now apply lu_solves. Qed.
Print Assumptions C15_lu_solves.

(** A non-trivial case: a 2x2 matrix needing a row interchange meets the hypotheses and its
    system is solved. *)
Definition C15_ex_matrix : matrix := fun i j => match i, j with 0%nat, 0%nat => 0 | 0%nat, _ => 2 | _, 0%nat => 1 | _, _ => 1 end.
Example C15_ex_nonsingular : nonsingular 2 C15_ex_matrix.
Proof.
  intros x H i Hi. pose proof (H 0%nat ltac:(lia)) as H0. pose proof (H 1%nat ltac:(lia)) as H1.
  cbv [mv Rsum C15_ex_matrix] in H0, H1. destruct i as [|[|]]; [lra|lra|lia].
Qed.

Ltac norlt x := match x with context [Rlt_dec _ _] => fail 1 | _ => idtac end.
Ltac lu_step := match goal with
  | |- context [Rabs ?x] => norlt x; first [rewrite (Rabs_right x) by lra | rewrite (Rabs_left x) by lra]
  | |- context [Rlt_dec ?x ?y] => norlt x; norlt y; destruct (Rlt_dec x y); try (exfalso; lra)
  end; cbn beta iota delta [obind fst snd].

(** Refuted corner: for a singular matrix the factorisation can return without aborting (the
    pivot search leaves the pivot row of the previous column in place), and the vector returned
    does not solve the system although the system has solutions. *)
Definition C15_singular_matrix : matrix := fun i _ => match i with 0%nat => 1 | _ => 2 end.
Theorem C15_singular_accepted_refuted :
  let v := fun i => match i with 0%nat => 1 | _ => 2 end in
  let good := fun i => match i with 0%nat => 1 | _ => 0 end in
  (forall r, (r < 2)%nat -> mv 2 C15_singular_matrix good r = v r) /\
  exists x, lu_solve_system (/ 1000) 2 C15_singular_matrix v = Ok x /\ mv 2 C15_singular_matrix x 0 <> v 0%nat.
Proof.
  intros v good. split.
  - intros [|[|r]] Hr; [| |lia]; cbv [mv Rsum C15_singular_matrix good v]; lra.
  - cbv - [Rplus Rmult Rminus Rdiv Rinv R0 R1 Ropp IZR Rlt Rlt_dec Rabs].
    repeat lu_step. eexists. split; [reflexivity|]. cbv beta iota. lra.
Qed.
Print Assumptions C15_singular_accepted_refuted.
