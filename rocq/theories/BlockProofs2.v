(** Proofs about the assembled tangent stiffness matrix. *)
From Verif Require Import Base Loops ListLemmas TensorModel TensorSpec TensorProofs PolarProofs ElementModel ElementSpec ElementProofs ElementProofs2 ElementProofs3 ElementProofs4 ElementProofs5 BlockModel BlockProofs.
From Coq Require Import Reals Lra Psatz.
Set Implicit Arguments.
Local Open Scope R_scope.

Lemma bil_upd N K u v p q a : (p < N)%nat -> (q < N)%nat ->
  bil N (upd2 K p q (K p q + a)) u v = bil N K u v + u p * a * v q.
Proof.
  intros Hp Hq. unfold bil.
  transitivity (Rsum N (fun i => Rsum N (fun j => u i * K i j * v j)) + Rsum N (fun i => Rsum N (fun j => if (i =? p)%nat then if (j =? q)%nat then u p * a * v q else 0 else 0))).
  - rewrite <- Rsum_plus. apply Rsum_ext. intros i Hi. rewrite <- Rsum_plus. apply Rsum_ext. intros j Hj. unfold upd2.
    destruct (Nat.eqb_spec i p) as [->|], (Nat.eqb_spec j q) as [->|]; cbn [andb]; ring.
  - f_equal. rewrite (@Rsum_single N _ p Hp).
    + rewrite Nat.eqb_refl. rewrite (@Rsum_single N _ q Hq).
      * now rewrite Nat.eqb_refl.
      * intros k Hk Hne. destruct (Nat.eqb_spec k q); [contradiction|reflexivity].
    + intros k Hk Hne. destruct (Nat.eqb_spec k p); [contradiction|]. now apply Rsum_zero.
Qed.
Lemma acc_loop {S} (phi : S -> R) n (f : nat -> S -> S) (g : nat -> R) s :
  (forall k s, (k < n)%nat -> phi (f k s) = phi s + g k) -> phi (floop 0 n f s) = phi s + Rsum n g.
Proof.
  intros H. pose (P := fun m t => phi t = phi s + Rsum m g).
  change (P n (floop 0 n f s)). apply (@floop_ind S P); [lia|unfold P; simpl; ring|].
  intros k t Hk IH. unfold P in *. rewrite H by lia. rewrite IH. change (Rsum (1 + k) g) with (Rsum k g + g k). ring.
Qed.
Definition tangent_scatter (conn gid : nat -> nat) (e : nat) (t : arr) (K : nat -> nat -> R) : nat -> nat -> R :=
  floop 0 8 (fun row K =>
      let global_row_node := gid (conn (e * 8 + row)%nat) in
      floop 0 8 (fun col K =>
        let global_col_node := gid (conn (e * 8 + col)%nat) in
        floop 0 3 (fun i K => floop 0 3 (fun j K =>
          let local_row_index := (row * 3 + i)%nat in
          let local_col_index := (col * 3 + j)%nat in
          let global_row_index := (global_row_node * 3 + i)%nat in
          let global_col_index := (global_col_node * 3 + j)%nat in
          let value := t (local_row_index * 8 * 3 + local_col_index)%nat in
          upd2 K global_row_index global_col_index (K global_row_index global_col_index + value)) K) K) K) K.
(** nodal vector of the element, flat *)
Definition evec (conn gid : nat -> nat) (u : arr) (e : nat) : arr := fun k => u (3 * gid (conn (e * 8 + k / 3)%nat) + k mod 3)%nat.
Lemma evec_at conn gid u e n i : (i < 3)%nat -> evec conn gid u e (3 * n + i)%nat = u (3 * gid (conn (e * 8 + n)%nat) + i)%nat.
Proof.
  intros Hi. unfold evec. replace ((3 * n + i) / 3)%nat with n by (rewrite Nat.mul_comm, Nat.div_add_l by lia; rewrite (Nat.div_small i 3) by lia; lia).
  replace ((3 * n + i) mod 3)%nat with i by (rewrite Nat.add_comm, Nat.mul_comm, Nat.mod_add by lia; now rewrite Nat.mod_small by lia). reflexivity.
Qed.
Lemma tangent_scatter_bil conn gid e t K u v N : (forall n, (n < 8)%nat -> (gid (conn (e * 8 + n)%nat) < N)%nat) ->
  bil (3 * N) (tangent_scatter conn gid e t K) u v = bil (3 * N) K u v + quad 24 t (evec conn gid u e) (evec conn gid v e).
Proof.
  intros Hc.
  transitivity (bil (3 * N) K u v + Rsum 8 (fun row => Rsum 8 (fun col => Rsum 3 (fun i => Rsum 3 (fun j =>
      evec conn gid u e (3 * row + i)%nat * t ((3 * row + i) * 24 + (3 * col + j))%nat * evec conn gid v e (3 * col + j)%nat))))).
  - unfold tangent_scatter. apply (@acc_loop _ (fun K => bil (3 * N) K u v)). intros row K1 Hrow. cbv zeta.
    apply (@acc_loop _ (fun K => bil (3 * N) K u v)). intros col K2 Hcol.
    apply (@acc_loop _ (fun K => bil (3 * N) K u v)). intros i K3 Hi.
    apply (@acc_loop _ (fun K => bil (3 * N) K u v)). intros j K4 Hj.
    pose proof (Hc row Hrow). pose proof (Hc col Hcol).
    rewrite bil_upd by lia. rewrite !evec_at by assumption. rewrite !(Nat.mul_comm _ 3).
    replace (3 * ((3 * row + i) * 8) + (3 * col + j))%nat with (24 * (3 * row + i) + (3 * col + j))%nat by lia.
    rewrite (Nat.mul_comm 24). reflexivity.
  - f_equal. unfold quad. rewrite Rsum_24. apply Rsum_ext. intros row Hrow.
    transitivity (Rsum 3 (fun i => Rsum 8 (fun col => Rsum 3 (fun j =>
      evec conn gid u e (3 * row + i)%nat * t ((3 * row + i) * 24 + (3 * col + j))%nat * evec conn gid v e (3 * col + j)%nat)))).
    + rewrite Rsum_swap. reflexivity.
    + apply Rsum_ext. intros i Hi. rewrite Rsum_24. reflexivity.
Qed.
Lemma block_tangent_ok mt ref disp E conn gid junk K N :
  (forall e, (e < E)%nat -> well_shaped (enodes conn (fun k => ref k + disp k) e)) ->
  (forall e n, (e < E)%nat -> (n < 8)%nat -> (gid (conn (e * 8 + n)%nat) < N)%nat) ->
  exists K' T, block_tangent mt ref disp E conn gid junk K = Ok K' /\
   (forall e, (e < E)%nat -> compute_tangent (gather conn e (fun k => ref k + disp k) junk) mt junk = Ok (T e)) /\
   forall u v, bil (3 * N) K' u v = bil (3 * N) K u v + Rsum E (fun e => quad 24 (T e) (evec conn gid u e) (evec conn gid v e)).
Proof.
  intros Hw Hc.
  pose (T := fun e => match compute_tangent (gather conn e (fun k => ref k + disp k) junk) mt junk with Ok t => t | _ => junk end).
  assert (HT : forall e, (e < E)%nat -> compute_tangent (gather conn e (fun k => ref k + disp k) junk) mt junk = Ok (T e)).
  { intros e He. unfold T. destruct (@tangent_ok (gather conn e (fun k => ref k + disp k) junk) mt junk) as (t & -> & _); [|reflexivity].
    refine (@shaped_ext _ _ _ (Hw e He)). intros n i Hn Hi. symmetry. now apply gather_at. }
  unfold block_tangent. cbv zeta.
  match goal with |- context [oloop 0 E ?f ?s] =>
    destruct (@oloop_ind (nat -> nat -> R) (fun m K' => forall u v, bil (3 * N) K' u v = bil (3 * N) K u v + Rsum m (fun e => quad 24 (T e) (evec conn gid u e) (evec conn gid v e))) 0%nat E f s) as (K' & EK & H) end.
  - lia.
  - intros u v; simpl; ring.
  - intros e K1 He IH. rewrite HT by lia. cbn [obind]. eexists. split; [reflexivity|]. intros u v.
    match goal with |- bil _ ?X u v = _ => change X with (tangent_scatter conn gid e (T e) K1) end.
    rewrite tangent_scatter_bil by (intros; apply Hc; lia). rewrite IH.
    change (Rsum (1 + e)) with (Rsum (S e)). cbn [Rsum]. ring.
  - exists K', T. auto.
Qed.
