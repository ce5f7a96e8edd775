(** Consequences of the element lemmas used by the property statements. *)
From Verif Require Import Base Loops ListLemmas TensorModel TensorSpec TensorProofs PolarProofs ElementModel ElementSpec ElementProofs ElementProofs2 ElementProofs3 ElementProofs4 ElementProofs5 BlockModel BlockProofs BlockProofs2.
From Coq Require Import Reals Lra Psatz Permutation.
Set Implicit Arguments.
Local Open Scope R_scope.

Lemma affine_gradient x v A b : (forall n i, (n < 8)%nat -> (i < 3)%nat -> v n i = b i + mvec A (x n) i) -> gradient_of x v (fun _ => A).
Proof. intros H q Hq. symmetry. now apply (@jac_affine x v A b q). Qed.
Lemma corner_shaped A b x : (forall n i, (n < 8)%nat -> (i < 3)%nat -> x n i = b i + mvec A (corner n) i) -> 0 < mdet A -> well_shaped x.
Proof.
  intros H Hd q Hq. rewrite (mdet_proper (@jac_affine corner x A b q H)), mdet_mul, (mdet_proper (jac_corners q)).
  replace (mdet mone) with 1 by (cbv [mdet mone Nat.eqb]; ring). lra.
Qed.
Lemma corner_volume A b x : (forall n i, (n < 8)%nat -> (i < 3)%nat -> x n i = b i + mvec A (corner n) i) -> element_volume x = 8 * mdet A.
Proof.
  intros H. unfold element_volume. transitivity (Rsum 8 (fun _ => mdet A)); [|cbv [Rsum]; ring].
  apply Rsum_ext. intros q Hq. rewrite (mdet_proper (@jac_affine corner x A b q H)), mdet_mul, (mdet_proper (jac_corners q)).
  replace (mdet mone) with 1 by (cbv [mdet mone Nat.eqb]; ring). ring.
Qed.
(** the two rigid velocity fields *)
Definition along (i : nat) : nat -> R := fun k => if (k =? i)%nat then 1 else 0.
Definition spin (i j : nat) : mat3 := fun a b => (if (a =? j)%nat then along i b else 0) - (if (a =? i)%nat then along j b else 0).
Lemma contract_zero S : contract S mzero = 0.
Proof. unfold contract, mzero. cbv [Rsum]. ring. Qed.
Lemma contract_spin s q i j : (i < 3)%nat -> (j < 3)%nat -> contract (stress_at s q) (spin i j) = 0.
Proof. intros Hi Hj. idx3 i; idx3 j; cbv [contract Rsum spin along Nat.eqb stress_at sym sym_index]; ring. Qed.
Lemma along_work (f : nat -> nat -> R) i : (i < 3)%nat -> Rsum 8 (fun n => Rsum 3 (fun k => along i k * f n k)) = Rsum 8 (fun n => f n i).
Proof. intros Hi. apply Rsum_ext. intros n Hn. idx3 i; cbv [along Rsum Nat.eqb]; ring. Qed.
Lemma spin_work (x f : nat -> nat -> R) i j : (i < 3)%nat -> (j < 3)%nat ->
  Rsum 8 (fun n => Rsum 3 (fun k => mvec (spin i j) (x n) k * f n k)) = moment x f i j.
Proof. intros Hi Hj. unfold moment. apply Rsum_ext. intros n Hn. idx3 i; idx3 j; cbv [spin mvec along Rsum Nat.eqb]; ring. Qed.
Lemma along_gradient x i : gradient_of x (fun _ k => along i k) (fun _ => mzero).
Proof. apply affine_gradient with (b := along i). intros n k Hn Hk. unfold mvec, mzero. cbv [Rsum]. ring. Qed.
Lemma spin_gradient x i j : gradient_of x (fun n => mvec (spin i j) (x n)) (fun _ => spin i j).
Proof. apply affine_gradient with (b := fun _ => 0). intros n k Hn Hk. ring. Qed.

(** ** Tangent *)
Lemma quad_basis n K (v : nat -> R) i : (i < n)%nat -> quad n K (along i) v = Rsum n (fun j => K (i * n + j)%nat * v j).
Proof.
  intros Hi. unfold quad. rewrite (@Rsum_single n _ i Hi).
  - apply Rsum_ext. intros j Hj. unfold along. rewrite Nat.eqb_refl. ring.
  - intros k Hk Hne. apply Rsum_zero. intros j Hj. unfold along. destruct (Nat.eqb_spec k i); [contradiction|ring].
Qed.
Lemma bil_basis N K i j : (i < N)%nat -> (j < N)%nat -> bil N K (along i) (along j) = K i j.
Proof.
  intros Hi Hj. unfold bil. rewrite (@Rsum_single N _ i Hi).
  - rewrite (@Rsum_single N _ j Hj).
    + unfold along. rewrite !Nat.eqb_refl. ring.
    + intros k Hk Hne. unfold along. destruct (Nat.eqb_spec k j); [contradiction|ring].
  - intros k Hk Hne. apply Rsum_zero. intros l Hl. unfold along. destruct (Nat.eqb_spec k i); [contradiction|ring].
Qed.
Lemma tangent_form coords C t0 : well_shaped (nodes coords) ->
  exists K, compute_tangent coords C t0 = Ok K /\
   forall u v Gu Gv, gradient_of (nodes coords) (nodes u) Gu -> gradient_of (nodes coords) (nodes v) Gv ->
     quad 24 K u v = Rsum 8 (fun q => mdet (jac (nodes coords) q) * Rsum 6 (fun k => Rsum 6 (fun l => eng_strain (Gu q) k * cmat C q k l * eng_strain (Gv q) l))).
Proof.
  intros Hw. destruct (@tangent_ok coords C t0 Hw) as (K & E & HK). exists K. split; [exact E|].
  intros u v Gu Gv Hu Hv. now apply (@quad_form (nodes coords) C K u v Gu Gv Hw Hu Hv).
Qed.
Lemma tangent_form_sym x C (K : arr) : well_shaped x ->
  (forall u v Gu Gv, gradient_of x (nodes u) Gu -> gradient_of x (nodes v) Gv ->
     quad 24 K u v = Rsum 8 (fun q => mdet (jac x q) * Rsum 6 (fun k => Rsum 6 (fun l => eng_strain (Gu q) k * cmat C q k l * eng_strain (Gv q) l)))) ->
  (forall q k l, (q < 8)%nat -> (k < 6)%nat -> (l < 6)%nat -> cmat C q k l = cmat C q l k) ->
  forall u v, quad 24 K u v = quad 24 K v u.
Proof.
  intros Hw H HC u v. pose proof (gradient_exists (nodes u) Hw) as Gu. pose proof (gradient_exists (nodes v) Hw) as Gv.
  rewrite (H _ _ _ _ Gu Gv), (H _ _ _ _ Gv Gu). apply Rsum_ext. intros q Hq. f_equal.
  rewrite Rsum_swap. apply Rsum_ext. intros k Hk. apply Rsum_ext. intros l Hl. rewrite (HC q l k) by assumption. ring.
Qed.
Lemma skew_strain W k : (forall i j, (i < 3)%nat -> (j < 3)%nat -> W i j = - W j i) -> (k < 6)%nat -> eng_strain W k = 0.
Proof.
  intros H Hk. pose proof (H 0 0 ltac:(lia) ltac:(lia))%nat. pose proof (H 1 1 ltac:(lia) ltac:(lia))%nat. pose proof (H 2 2 ltac:(lia) ltac:(lia))%nat.
  pose proof (H 0 1 ltac:(lia) ltac:(lia))%nat. pose proof (H 1 2 ltac:(lia) ltac:(lia))%nat. pose proof (H 2 0 ltac:(lia) ltac:(lia))%nat.
  idx6 k; cbn [eng_strain]; lra.
Qed.
Lemma tangent_form_rigid x C (K : arr) W b : well_shaped x ->
  (forall u v Gu Gv, gradient_of x (nodes u) Gu -> gradient_of x (nodes v) Gv ->
     quad 24 K u v = Rsum 8 (fun q => mdet (jac x q) * Rsum 6 (fun k => Rsum 6 (fun l => eng_strain (Gu q) k * cmat C q k l * eng_strain (Gv q) l)))) ->
  (forall i j, (i < 3)%nat -> (j < 3)%nat -> W i j = - W j i) ->
  forall u v, (forall n i, (n < 8)%nat -> (i < 3)%nat -> nodes v n i = b i + mvec W (x n) i) -> quad 24 K u v = 0 /\ quad 24 K v u = 0.
Proof.
  intros Hw H HW u v Hv. pose proof (gradient_exists (nodes u) Hw) as Gu.
  pose proof (@affine_gradient x (nodes v) W b Hv) as Gv.
  split.
  - rewrite (H _ _ _ _ Gu Gv). apply Rsum_zero. intros q Hq. rewrite (Rsum_zero 6); [ring|]. intros k Hk. apply Rsum_zero. intros l Hl.
    rewrite (@skew_strain W) by assumption. ring.
  - rewrite (H _ _ _ _ Gv Gu). apply Rsum_zero. intros q Hq. rewrite (Rsum_zero 6); [ring|]. intros k Hk. apply Rsum_zero. intros l Hl.
    rewrite (@skew_strain W) by assumption. ring.
Qed.
Lemma tangent_form_psd x C (K : arr) : well_shaped x ->
  (forall u v Gu Gv, gradient_of x (nodes u) Gu -> gradient_of x (nodes v) Gv ->
     quad 24 K u v = Rsum 8 (fun q => mdet (jac x q) * Rsum 6 (fun k => Rsum 6 (fun l => eng_strain (Gu q) k * cmat C q k l * eng_strain (Gv q) l)))) ->
  (forall q eps, (q < 8)%nat -> 0 <= Rsum 6 (fun k => Rsum 6 (fun l => eps k * cmat C q k l * eps l))) ->
  forall u, 0 <= quad 24 K u u.
Proof.
  intros Hw H HC u. pose proof (gradient_exists (nodes u) Hw) as Gu. rewrite (H _ _ _ _ Gu Gu).
  apply Rsum_nonneg. intros q Hq. apply Rmult_le_pos; [left; now apply Hw|]. now apply HC.
Qed.

(** ** Characteristic length *)
Lemma box_spread big c i : (i < 3)%nat -> (forall n, (n < 8)%nat -> 0 <= nodes c n i <= big) ->
  (exists n m, (n < 8)%nat /\ (m < 8)%nat /\ box big c i = nodes c n i - nodes c m i) /\
  forall n m, (n < 8)%nat -> (m < 8)%nat -> nodes c n i - nodes c m i <= box big c i.
Proof.
  intros Hi H. unfold box. split.
  - assert (A : exists n, (n < 8)%nat /\ maxf 8 (fun n => nodes c n i) 0 = nodes c n i).
    { destruct (maxf_att 8 (fun n => nodes c n i) 0) as [E|E]; [|exact E]. exists 0%nat. split; [lia|].
      pose proof (@maxf_ge 8 (fun n => nodes c n i) 0 0 ltac:(lia)). pose proof (H 0%nat ltac:(lia)). cbv beta in *. lra. }
    assert (B : exists n, (n < 8)%nat /\ minf 8 (fun n => nodes c n i) big = nodes c n i).
    { destruct (minf_att 8 (fun n => nodes c n i) big) as [E|E]; [|exact E]. exists 0%nat. split; [lia|].
      pose proof (@minf_le 8 (fun n => nodes c n i) big 0 ltac:(lia)). pose proof (H 0%nat ltac:(lia)). cbv beta in *. lra. }
    destruct A as (n & Hn & ->), B as (m & Hm & ->). exists n, m. auto.
  - intros n m Hn Hm. pose proof (@maxf_ge 8 (fun n => nodes c n i) 0 n Hn). pose proof (@minf_le 8 (fun n => nodes c n i) big m Hm). cbv beta in *. lra.
Qed.
Lemma box_ge big c i n m : (n < 8)%nat -> (m < 8)%nat -> nodes c n i - nodes c m i <= box big c i.
Proof.
  intros Hn Hm. unfold box. pose proof (@maxf_ge 8 (fun n => nodes c n i) 0 n Hn). pose proof (@minf_le 8 (fun n => nodes c n i) big m Hm). cbv beta in *. lra.
Qed.
