(** Properties of the small-tensor routines (C25, C51, C52, C53).  Arithmetic is exact real
    arithmetic; the vocabulary is in TensorSpec.v. *)
From Verif Require Import Base Loops TensorModel TensorSpec TensorProofs BchProofs RotProofs EigenProofs EigenProofs2 PolarProofs CosProofs.
From Coq Require Import Reals Lra Psatz.
Set Implicit Arguments.
Local Open Scope R_scope.

(** C25: the product routines compute the matrix products they are named after, for every tensor
    and whatever the output array held before. *)
Theorem C25_products : forall (A B r : arr) (a : R),
  meq (full (mult_full33_full33 A B r)) (mmul (full A) (full B)) /\
  meq (full (mult_scalar_full33_full33 a A B r)) (mscale a (mmul (full A) (full B))) /\
  meq (full (mult_sym33_full33 A B r)) (mmul (sym A) (full B)) /\
  meq (full (mult_full33_sym33_returnT A B r)) (mT (mmul (full A) (sym B))) /\
  meq (sym (square_full33T_full33 A r)) (mmul (mT (full A)) (full A)) /\
  meq (sym (square_full33_full33T A r)) (mmul (full A) (mT (full A))) /\
  meq (sym (rotate_sym33 A B r)) (mmul (mT (full B)) (mmul (sym A) (full B))) /\
  meq (sym (unrotate_sym33 A B r)) (mmul (full B) (mmul (sym A) (mT (full B)))).
Proof.
  intros. split; [apply mult_ff|]. split; [apply mult_aff|]. split; [apply mult_sf|]. split; [apply mult_fsT|].
  split; [apply square_tf|]. split; [apply square_ft|]. split; [apply rotate_s|apply unrotate_s].
Qed.
Print Assumptions C25_products.

(** C25: sums, multiples, copies, norms and the determinant. *)
Theorem C25_sums_norms_determinant : forall (A B r : arr) (a : R),
  meq (full (mult_scalar_full33 a A r)) (mscale a (full A)) /\
  meq (full (sum_full33_full33 A B r)) (madd (full A) (full B)) /\
  meq (full (sum_sym33_full33 A B r)) (madd (sym A) (full B)) /\
  meq (full (zero_full33 r)) mzero /\
  meq (full (set_equal_full33 A r)) (full A) /\
  meq (sym (set_equal_sym33 A r)) (sym A) /\
  norm_full33 A = sqrt (msumsq (full A)) /\ norm_sym33 A = sqrt (msumsq (sym A)) /\
  determinant_full33 A = mdet (full A).
Proof.
  intros. split; [apply scale_f|]. split; [apply sum_ff|]. split; [apply sum_sf|]. split; [apply zero_f|].
  split; [apply equal_f|]. split; [apply equal_s|]. split; [apply norm_f|]. split; [apply norm_s|apply det_f].
Qed.
Print Assumptions C25_sums_norms_determinant.

(** C25: the symmetric and skew parts are symmetric and skew and add back to the tensor. *)
Theorem C25_sym_skew_split : forall (A r1 r2 : arr),
  let S := sym (sym_part_full33 A r1) in let W := full (skew_part_full33 A r2) in
  meq (mT S) S /\ meq (mT W) (mscale (-1) W) /\ meq (madd S W) (full A).
Proof.
  intros A r1 r2. cbv zeta. pose proof (sym_part_f A r1) as HS. pose proof (skew_part_f A r2) as HW.
  split; [|split]; apply meq_intro; intros i j Hi Hj; unfold mT, madd, mscale.
  - rewrite (meq_elim HS), (meq_elim HS) by lia. unfold madd, mscale, mT. ring.
  - rewrite (meq_elim HW), (meq_elim HW) by lia. unfold msub, mscale, mT. ring.
  - rewrite (meq_elim HS), (meq_elim HW) by lia. unfold msub, madd, mscale, mT. field.
Qed.
Print Assumptions C25_sym_skew_split.

(** C25: for a positive determinant, Invert_Full33 and Invert3x3 return the determinant and store
    the two-sided inverse; for a negative one both abort, and Invert3x3 aborts for a singular
    matrix too. *)
Theorem C25_invert : forall (m r : arr) (m2 r2 : mat3),
  (0 < mdet (full m) -> exists inv, invert_full33 m r = Ok (inv, mdet (full m)) /\
     meq (mmul (full m) (full inv)) mone /\ meq (mmul (full inv) (full m)) mone) /\
  (mdet (full m) < 0 -> invert_full33 m r = Abort) /\
  (0 < mdet m2 -> exists inv, invert3x3 m2 r2 = Ok (inv, mdet m2) /\
     meq (mmul m2 inv) mone /\ meq (mmul inv m2) mone) /\
  (mdet m2 <= 0 -> invert3x3 m2 r2 = Abort).
Proof.
  intros. split; [apply invert_full_ok|]. split; [apply invert_full_neg|]. split; [apply invert3_ok|apply invert3_fail].
Qed.
Print Assumptions C25_invert.

(** A matrix meeting the hypothesis: shear with stretch. *)
Definition ex_stretch : arr := fun k => match k with 0%nat => 2 | 1%nat => 3 | 2%nat => 1 | 3%nat => 1 / 2 | 6%nat => 1 | _ => 0 end.
Example C25_ex_det : mdet (full ex_stretch) = 11 / 2.
Proof. cbv [mdet full full_index ex_stretch]. field. Qed.
Example C25_ex_meets_hypothesis : 0 < mdet (full ex_stretch).
Proof. rewrite C25_ex_det. lra. Qed.

(** Refuted corner: Invert_Full33 does not reject a singular matrix: it returns normally although
    the matrix has no inverse (Invert3x3 rejects it). *)
Theorem C25_singular_accepted_refuted : forall r, exists (m : arr),
  (exists inv, invert_full33 m r = Ok (inv, 0)) /\ forall inv : mat3, ~ meq (mmul (full m) inv) mone.
Proof.
  intros r. exists (fun _ => 0). split.
  - apply invert_full_singular. cbv [mdet full]. ring.
  - intros inv H. pose proof (meq_elim H (i := 0%nat) (j := 0%nat) ltac:(lia) ltac:(lia)) as H0.
    cbv [mmul full Rsum mone Nat.eqb] in H0. lra.
Qed.
Print Assumptions C25_singular_accepted_refuted.

(** C51: for the rotation by an angle th in [0,pi] about a unit axis n, not within the numerical
    cut-off of a half turn, Log_Rotation returns th times the cross-product matrix of n. *)
Theorem C51_log_rotation : forall (junk r l n : arr) th,
  dot3 n n = 1 -> meq (full r) (rodrigues n th) -> 0 <= th <= PI -> 10 * machine_epsilon <= cos th + 1 ->
  rotation_matrix (full r) /\ meq (full (log_rotation junk r l)) (mscale th (cross_matrix n)).
Proof.
  intros junk r l n th Hn Hr Hth Hc. split; [|eapply log_rotation_ok; eassumption].
  destruct (rodrigues_rotation th Hn) as [HR HD]. split.
  - rewrite Hr. exact HR.
  - rewrite (mdet_proper Hr). exact HD.
Qed.
Print Assumptions C51_log_rotation.

(** A quarter turn about the z axis meets the hypotheses. *)
Example C51_ex_quarter_turn : let n := fun k => if (k =? 2)%nat then 1 else 0 in
  dot3 n n = 1 /\ 0 <= PI / 2 <= PI /\ 10 * machine_epsilon <= cos (PI / 2) + 1.
Proof.
  pose proof PI_RGT_0. split; [cbv [dot3 Rsum Nat.eqb]; ring|]. split; [lra|]. rewrite cos_PI2.
  assert (machine_epsilon <= / 10); [|lra]. unfold machine_epsilon. apply Rinv_le_contravar; [lra|].
  apply Rle_trans with (2 ^ 4); [lra|]. apply Rle_pow; [lra|lia].
Qed.

(** Refuted corner: within the cut-off of a half turn Log_Rotation does not write its result at
    all: the output array keeps whatever it held.  The half turn about x is such a rotation. *)
Theorem C51_half_turn_refuted : forall (junk r l n : arr) th,
  dot3 n n = 1 -> meq (full r) (rodrigues n th) -> 0 < th <= PI -> cos th + 1 < 10 * machine_epsilon ->
  log_rotation junk r l = l.
Proof. intros; eapply log_rotation_unset; eassumption. Qed.
Print Assumptions C51_half_turn_refuted.
Example C51_half_turn_ex : 0 < PI <= PI /\ cos PI + 1 < 10 * machine_epsilon.
Proof.
  pose proof PI_RGT_0. split; [lra|]. rewrite cos_PI. unfold machine_epsilon.
  assert (0 < / 2 ^ 52); [|lra]. apply Rinv_0_lt_compat. apply pow_lt. lra.
Qed.

(** C51: whenever Log_Rotation_Pi returns for a half turn about n, it returns a logarithm of the
    half turn (pi times the cross-product matrix of n or of -n). *)
Theorem C51_log_rotation_pi : forall (junk r l n l' : arr),
  dot3 n n = 1 -> meq (full r) (rodrigues n PI) -> log_rotation_pi junk r l = Ok l' ->
  exists s, (s = 1 \/ s = -1) /\ meq (full l') (mscale (s * PI) (cross_matrix n)).
Proof. intros; eapply log_rotation_pi_cases; eassumption. Qed.
Print Assumptions C51_log_rotation_pi.

(** Refuted corner: for the half turn about the x axis Log_Rotation_Pi aborts. *)
Theorem C51_half_turn_x_refuted : forall (junk l : arr), exists r : arr,
  meq (full r) (rodrigues (fun k => if (k =? 0)%nat then 1 else 0) PI) /\ log_rotation_pi junk r l = Abort.
Proof. intros. exists half_turn_x. split; [apply half_turn_x_is_rotation|apply log_rotation_pi_x]. Qed.
Print Assumptions C51_half_turn_x_refuted.

(** C52: BCH computes the Baker-Campbell-Hausdorff series of log(exp X exp Y) up to fourth order,
    for all tensors and whatever the scratch and output arrays held. *)
Theorem C52_bch : forall (junk x y r : arr), let X := full x in let Y := full y in
  meq (full (bch junk x y r))
    (madd (madd (madd (madd (madd X Y)
       (mscale (1 / 2) (commutator X Y)))
       (mscale (1 / 12) (commutator X (commutator X Y))))
       (mscale (1 / 12) (commutator Y (commutator Y X))))
       (mscale (- (1 / 24)) (commutator Y (commutator X (commutator X Y))))).
Proof. exact bch_spec. Qed.
Print Assumptions C52_bch.

(** ... and the variant whose first argument is symmetric is the same series. *)
Theorem C52_bch_sym : forall (junk x y r : arr), let X := sym x in let Y := full y in
  meq (full (bch_sym33_full33 junk x y r))
    (madd (madd (madd (madd (madd X Y)
       (mscale (1 / 2) (commutator X Y)))
       (mscale (1 / 12) (commutator X (commutator X Y))))
       (mscale (1 / 12) (commutator Y (commutator Y X))))
       (mscale (- (1 / 24)) (commutator Y (commutator X (commutator X Y))))).
Proof.
  intros junk x y r. cbv zeta. unfold bch_sym33_full33.
  match goal with |- context [bch junk ?t y r] => pose proof (bch_spec junk t y r) as H; set (T := t) in H |- * end.
  assert (E : meq (full T) (sym x)) by (apply meq_intro; tcase i j; reflexivity).
  cbv zeta in H. apply meq_intro. intros i j Hi Hj. rewrite (meq_elim H) by lia.
  pose proof (meq_elim E) as E'. cbv [commutator madd msub mscale mmul Rsum].
  idx3 i; idx3 j; rewrite !E' by lia; ring.
Qed.
Print Assumptions C52_bch_sym.

(** ... so for commuting tensors it is the plain sum. *)
Theorem C52_bch_commuting : forall (junk x y r : arr),
  meq (mmul (full x) (full y)) (mmul (full y) (full x)) ->
  meq (full (bch junk x y r)) (madd (full x) (full y)).
Proof.
  intros junk x y r H. pose proof (bch_spec junk x y r) as HB. cbv zeta in HB.
  assert (Z1 : meq (commutator (full x) (full y)) mzero).
  { apply meq_intro; intros i j Hi Hj. unfold commutator, msub. rewrite (meq_elim H) by lia. unfold mzero. ring. }
  assert (Z2 : meq (commutator (full y) (full x)) mzero).
  { apply meq_intro; intros i j Hi Hj. unfold commutator, msub. rewrite (meq_elim H) by lia. unfold mzero. ring. }
  assert (CZ : forall A B, meq B mzero -> meq (commutator A B) mzero).
  { intros A B HBz. apply meq_intro; intros i j Hi Hj. cbv [commutator msub mmul Rsum].
    rewrite !(meq_elim HBz) by lia. unfold mzero. ring. }
  pose proof (CZ (full x) _ Z1) as Z3. pose proof (CZ (full y) _ Z2) as Z4. pose proof (CZ (full y) _ Z3) as Z5.
  apply meq_intro; intros i j Hi Hj. rewrite (meq_elim HB) by lia. cbv [madd mscale].
  rewrite (meq_elim Z1), (meq_elim Z3), (meq_elim Z4), (meq_elim Z5) by lia. unfold mzero. ring.
Qed.
Print Assumptions C52_bch_commuting.

(** C53: the three vectors Eigen_Sym33_NonUnit returns are always pairwise orthogonal. *)
Theorem C53_eigenvectors_orthogonal : forall (junk t e0 e1 e2 : arr),
  let e := eigen_sym33_nonunit junk t e0 e1 e2 in pairwise_orthogonal (evec0 e) (evec1 e) (evec2 e).
Proof. intros. apply eigen_orthogonal. Qed.
Print Assumptions C53_eigenvectors_orthogonal.

(** C53: the rational approximation of cos(acos(x)/3) the routine uses is accurate to 4e-16 on [0,1]. *)
Theorem C53_helper_accuracy : forall x, 0 <= x <= 1 ->
  Rabs (cos_of_acos_divided_by_3 x - cos (acos x / 3)) <= 4 / 10 ^ 16.
Proof. exact approx_accuracy. Qed.
Print Assumptions C53_helper_accuracy.

(** C53: with the approximation the code uses, the eigenvalue it starts from is within
    4e-16 |dev t| + 2e-15 |mean t| of an exact eigenvalue, for every symmetric tensor. *)
Theorem C53_first_eigenvalue_accuracy : forall (junk t e0 e1 e2 : arr),
  let e := eigen_sym33_nonunit junk t e0 e1 e2 in
  exists l, mdet (msub (sym t) (mscale l mone)) = 0 /\
    Rabs (eval2 e - l) <= 4 / 10 ^ 16 * sqrt (msumsq (mdev (sym t))) + 2 / 10 ^ 15 * Rabs (mtrace (sym t) / 3).
Proof. intros. apply eval2_accuracy. Qed.
Print Assumptions C53_first_eigenvalue_accuracy.

(** The exact function the code approximates. *)
Definition exact_helper (x : R) : R := cos (acos x / 3).
Lemma exact_helper_good : good_cos3 exact_helper.
Proof. intros x Hx. exact (exact_cos3 Hx). Qed.

(** C53, partial: if the helper were exact, every symmetric tensor whose deviator is above the
    cut-off would get three exact eigenpairs, and below the cut-off the mean value and unit
    vectors.  Missing: error bounds for the other two eigenvalues and the vectors with the
    rational approximation. *)
Theorem C53_eigenpairs_partial : forall (junk t e0 e1 e2 : arr),
  let e := eigen_sym33_with exact_helper junk t e0 e1 e2 in
  let mean := mtrace (sym t) / 3 in
  (2 / 10 ^ 30 * (mean * mean) < msumsq (mdev (sym t)) ->
    eigenpair (sym t) (eval0 e) (evec0 e) /\ eigenpair (sym t) (eval1 e) (evec1 e) /\ eigenpair (sym t) (eval2 e) (evec2 e)) /\
  (msumsq (mdev (sym t)) <= 2 / 10 ^ 30 * (mean * mean) ->
    eval0 e = mean /\ eval1 e = mean /\ eval2 e = mean /\
    forall n, (n < 3)%nat -> evec0 e n = mone 0%nat n /\ evec1 e n = mone 1%nat n /\ evec2 e n = mone 2%nat n).
Proof.
  intros junk t e0 e1 e2 e m. subst e m.
  pose proof (@eigen_complete exact_helper junk t e0 e1 e2 exact_helper_good) as H. cbv zeta in H.
  rewrite mean_trace, (msumsq_proper (dev_mdev t)) in H. exact H.
Qed.
Print Assumptions C53_eigenpairs_partial.

(** C53, partial: with an exact helper, Polar_Decomp of a tensor of positive determinant returns a
    positive definite V and R of positive determinant with V R = (I+E) F and R R^T = I+E for an E
    of squared norm at most 2e-30; and unless F is within the cut-off of a multiple of a rotation
    without being one, R is a rotation and V R = F exactly. *)
Theorem C53_polar_partial : forall (junk m ls0 r0 : arr), 0 < mdet (full m) ->
  exists V Rt, polar_decomp_with exact_helper junk m ls0 r0 = Ok (V, Rt) /\
    positive_definite (sym V) /\ 0 < mdet (full Rt) /\
    (exists E, msumsq E <= 2 / 10 ^ 30 /\ meq (mmul (sym V) (full Rt)) (mmul (madd mone E) (full m)) /\
               meq (mmul (full Rt) (mT (full Rt))) (madd mone E)) /\
    forall inv, meq (mmul (full m) inv) mone -> let N := mmul (mT inv) inv in
      (2 / 10 ^ 30 * (mtrace N / 3 * (mtrace N / 3)) < msumsq (mdev N) \/ meq (mdev N) mzero) ->
      rotation_matrix (full Rt) /\ meq (mmul (sym V) (full Rt)) (full m).
Proof. intros junk m ls0 r0 Hd. apply polar_main; [exact exact_helper_good|exact Hd]. Qed.
Print Assumptions C53_polar_partial.

(** C53: a non-invertible or inverted tensor of negative determinant makes Polar_Decomp abort. *)
Theorem C53_polar_rejects_inverted : forall (junk m ls0 r0 : arr), mdet (full m) < 0 ->
  polar_decomp junk m ls0 r0 = Abort.
Proof.
  intros junk m ls0 r0 Hd. unfold polar_decomp, polar_decomp_with. rewrite invert_full_neg by exact Hd. reflexivity.
Qed.
Print Assumptions C53_polar_rejects_inverted.
