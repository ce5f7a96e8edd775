(** Proofs about the tensor routines. *)
From Verif Require Import Base Loops TensorModel TensorSpec.
From Coq Require Import Reals Lra Psatz Setoid Morphisms.
Set Implicit Arguments.
Local Open Scope R_scope.

Ltac idx3 i := destruct i as [|[|[|i]]]; [| | |exfalso; lia].
Ltac tred := cbv [full sym full_index sym_index mmul madd msub mscale mT mone mzero mdet Rsum commutator
  upd upd2 Nat.eqb andb K_X K_Y K_Z
  K_S_XX K_S_YY K_S_ZZ K_S_XY K_S_YZ K_S_ZX K_S_YX K_S_ZY K_S_XZ
  K_F_XX K_F_YY K_F_ZZ K_F_XY K_F_YZ K_F_ZX K_F_YX K_F_ZY K_F_XZ
  square_full33T_full33 mult_scalar_full33 sum_full33_full33 sum_sym33_full33 mult_full33_full33
  mult_sym33_full33 mult_scalar_full33_full33 square_full33_full33T mult_full33_sym33_returnT
  rotate_sym33 unrotate_sym33 cross_product zero_full33 set_equal_full33 set_equal_sym33
  sym_part_full33 skew_part_full33 determinant_full33].
Ltac tcase i j := let Hi := fresh in let Hj := fresh in intros i j Hi Hj; idx3 i; idx3 j; tred.

Section Products.
  Variables (A B r : arr) (a : R).
  Lemma mult_ff : meq (full (mult_full33_full33 A B r)) (mmul (full A) (full B)).
  Proof. tcase i j; ring. Qed.
  Lemma mult_aff : meq (full (mult_scalar_full33_full33 a A B r)) (mscale a (mmul (full A) (full B))).
  Proof. tcase i j; ring. Qed.
  Lemma mult_sf : meq (full (mult_sym33_full33 A B r)) (mmul (sym A) (full B)).
  Proof. tcase i j; ring. Qed.
  Lemma mult_fsT : meq (full (mult_full33_sym33_returnT A B r)) (mT (mmul (full A) (sym B))).
  Proof. tcase i j; ring. Qed.
  Lemma square_tf : meq (sym (square_full33T_full33 A r)) (mmul (mT (full A)) (full A)).
  Proof. tcase i j; ring. Qed.
  Lemma square_ft : meq (sym (square_full33_full33T A r)) (mmul (full A) (mT (full A))).
  Proof. tcase i j; ring. Qed.
  Lemma scale_f : meq (full (mult_scalar_full33 a A r)) (mscale a (full A)).
  Proof. tcase i j; ring. Qed.
  Lemma sum_ff : meq (full (sum_full33_full33 A B r)) (madd (full A) (full B)).
  Proof. tcase i j; ring. Qed.
  Lemma sum_sf : meq (full (sum_sym33_full33 A B r)) (madd (sym A) (full B)).
  Proof. tcase i j; ring. Qed.
  Lemma rotate_s : meq (sym (rotate_sym33 A B r)) (mmul (mT (full B)) (mmul (sym A) (full B))).
  Proof. tcase i j; ring. Qed.
  Lemma unrotate_s : meq (sym (unrotate_sym33 A B r)) (mmul (full B) (mmul (sym A) (mT (full B)))).
  Proof. tcase i j; ring. Qed.
  Lemma zero_f : meq (full (zero_full33 r)) mzero.
  Proof. tcase i j; ring. Qed.
  Lemma equal_f : meq (full (set_equal_full33 A r)) (full A).
  Proof. tcase i j; ring. Qed.
  Lemma equal_s : meq (sym (set_equal_sym33 A r)) (sym A).
  Proof. tcase i j; ring. Qed.
  Lemma sym_part_f : meq (sym (sym_part_full33 A r)) (mscale (1 / 2) (madd (full A) (mT (full A)))).
  Proof. tcase i j; field. Qed.
  Lemma skew_part_f : meq (full (skew_part_full33 A r)) (mscale (1 / 2) (msub (full A) (mT (full A)))).
  Proof. tcase i j; field. Qed.
  Lemma det_f : determinant_full33 A = mdet (full A).
  Proof. tred. ring. Qed.
End Products.

Lemma norm_sq_nonneg (m : mat3) : 0 <= Rsum 3 (fun i => Rsum 3 (fun j => m i j * m i j)).
Proof. apply Rsum_nonneg; intros; apply Rsum_nonneg; intros; nra. Qed.
Lemma norm_f A : norm_full33 A = sqrt (Rsum 3 (fun i => Rsum 3 (fun j => full A i j * full A i j))).
Proof.
  unfold norm_full33. set (s := Rsum 3 _).
  match goal with |- context [Rlt_dec 0 ?x] => assert (E : x = s) by (unfold s; tred; ring); rewrite E end.
  destruct (Rlt_dec 0 s) as [|Hn]; auto. pose proof (norm_sq_nonneg (full A)). fold s in H.
  assert (s = 0) by lra. rewrite H0. now rewrite sqrt_0.
Qed.
Lemma norm_s A : norm_sym33 A = sqrt (Rsum 3 (fun i => Rsum 3 (fun j => sym A i j * sym A i j))).
Proof.
  unfold norm_sym33. set (s := Rsum 3 _).
  match goal with |- context [Rlt_dec 0 ?x] => assert (E : x = s) by (unfold s; tred; ring); rewrite E end.
  destruct (Rlt_dec 0 s) as [|Hn]; auto. pose proof (norm_sq_nonneg (sym A)). fold s in H.
  assert (s = 0) by lra. rewrite H0. now rewrite sqrt_0.
Qed.

Lemma invert_full_ok m r : 0 < mdet (full m) ->
  exists inv, invert_full33 m r = Ok (inv, mdet (full m)) /\
    meq (mmul (full m) (full inv)) mone /\ meq (mmul (full inv) (full m)) mone.
Proof.
  intros Hd. unfold invert_full33.
  match goal with |- context [Rlt_dec ?x 0] => assert (E : x = mdet (full m)) by (tred; ring); rewrite E end.
  destruct (Rlt_dec (mdet (full m)) 0); [lra|]. eexists. split; [reflexivity|].
  assert (Hne : mdet (full m) <> 0) by lra. clear E n Hd.
  split; tcase i j; cbv [mdet full full_index] in Hne; field; exact Hne.
Qed.
Lemma invert_full_neg m r : mdet (full m) < 0 -> invert_full33 m r = Abort.
Proof.
  intros Hd. unfold invert_full33.
  match goal with |- context [Rlt_dec ?x 0] => assert (E : x = mdet (full m)) by (tred; ring); rewrite E end.
  destruct (Rlt_dec (mdet (full m)) 0); [reflexivity|lra].
Qed.
Lemma invert_full_singular m r : mdet (full m) = 0 -> exists inv, invert_full33 m r = Ok (inv, 0).
Proof.
  intros Hd. unfold invert_full33.
  match goal with |- context [Rlt_dec ?x 0] => assert (E : x = mdet (full m)) by (tred; ring); rewrite E end.
  rewrite Hd. destruct (Rlt_dec 0 0); [lra|]. eexists. reflexivity.
Qed.
Lemma invert3_ok m r : 0 < mdet m ->
  exists inv, invert3x3 m r = Ok (inv, mdet m) /\ meq (mmul m inv) mone /\ meq (mmul inv m) mone.
Proof.
  intros Hd. unfold invert3x3.
  match goal with |- context [Rle_dec ?x 0] => assert (E : x = mdet m) by (tred; ring); rewrite E end.
  destruct (Rle_dec (mdet m) 0); [lra|]. eexists. split; [reflexivity|].
  assert (Hne : mdet m <> 0) by lra. clear E n Hd.
  split; tcase i j; cbv [mdet] in Hne; field; exact Hne.
Qed.
Lemma invert3_fail m r : mdet m <= 0 -> invert3x3 m r = Abort.
Proof.
  intros Hd. unfold invert3x3.
  match goal with |- context [Rle_dec ?x 0] => assert (E : x = mdet m) by (tred; ring); rewrite E end.
  destruct (Rle_dec (mdet m) 0); [reflexivity|lra].
Qed.

Lemma mdet_mul A B : mdet (mmul A B) = mdet A * mdet B.
Proof. cbv [mdet mmul Rsum]. ring. Qed.
Lemma mdet_T A : mdet (mT A) = mdet A.
Proof. cbv [mdet mT]. ring. Qed.

(** ** Matrix algebra modulo [meq] *)
Global Instance meq_equiv : Equivalence meq.
Proof.
  split.
  - intros A i j _ _. reflexivity.
  - intros A B H i j Hi Hj. symmetry. now apply H.
  - intros A B C H1 H2 i j Hi Hj. rewrite H1, H2; auto.
Qed.
Global Instance mmul_proper : Proper (meq ==> meq ==> meq) mmul.
Proof. intros A A' HA B B' HB i j Hi Hj. unfold mmul. apply Rsum_ext. intros k Hk. rewrite HA, HB; auto. Qed.
Global Instance madd_proper : Proper (meq ==> meq ==> meq) madd.
Proof. intros A A' HA B B' HB i j Hi Hj. unfold madd. rewrite HA, HB; auto. Qed.
Global Instance msub_proper : Proper (meq ==> meq ==> meq) msub.
Proof. intros A A' HA B B' HB i j Hi Hj. unfold msub. rewrite HA, HB; auto. Qed.
Global Instance mscale_proper : Proper (eq ==> meq ==> meq) mscale.
Proof. intros c c' -> B B' HB i j Hi Hj. unfold mscale. rewrite HB; auto. Qed.
Global Instance mT_proper : Proper (meq ==> meq) mT.
Proof. intros B B' HB i j Hi Hj. unfold mT. rewrite HB; auto. Qed.
Lemma mdet_proper A B : meq A B -> mdet A = mdet B.
Proof. intros H. unfold mdet. rewrite !H by lia. reflexivity. Qed.
Lemma mmul_assoc A B C : meq (mmul A (mmul B C)) (mmul (mmul A B) C).
Proof. intros i j _ _. cbv [mmul Rsum]. ring. Qed.
Lemma mmul_1_l A : meq (mmul mone A) A.
Proof. intros i j Hi Hj. idx3 i; cbv [mmul mone Rsum Nat.eqb]; ring. Qed.
Lemma mmul_1_r A : meq (mmul A mone) A.
Proof. intros i j Hi Hj. idx3 j; cbv [mmul mone Rsum Nat.eqb]; ring. Qed.

