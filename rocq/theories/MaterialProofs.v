(** Proofs about the materials. *)
From Verif Require Import Base Loops ListLemmas TensorModel TensorSpec TensorProofs EigenProofs EigenProofs2 PolarProofs ElementSpec MaterialModel MaterialSpec.
From Coq Require Import Reals Lra Psatz.
Set Implicit Arguments.
Local Open Scope R_scope.

Ltac idx6m k := destruct k as [|[|[|[|[|[|k]]]]]]; [| | | | | |exfalso; lia].

Lemma elastic_point m junk F s : meq (sym (elastic_stress m junk F s)) (hooke (bulk_modulus_ m) (shear_modulus_ m) (msym (msub (full F) mone))) /\
  forall k, (6 <= k)%nat -> elastic_stress m junk F s k = s k.
Proof.
  split.
  - apply meq_intro. intros i j Hi Hj. idx3 i; idx3 j;
    cbv [elastic_stress sym sym_index upd K_S_XX K_S_YY K_S_ZZ K_S_XY K_S_YZ K_S_ZX K_F_XX K_F_YY K_F_ZZ K_F_XY K_F_YZ K_F_ZX K_F_YX K_F_ZY K_F_XZ Nat.eqb
         hooke msym msub mone madd mscale mT mdev mtrace Rsum full full_index]; field.
  - intros k Hk. destruct k as [|[|[|[|[|[|k]]]]]]; try lia. reflexivity.
Qed.

(** the loop over points: any predicate on windows *)
Lemma points_ok (point : arr -> arr -> outcome arr) (P : arr -> arr -> Prop) n F s0 :
  (forall A B a, P A a -> (forall k, (k < 6)%nat -> a k = B k) -> P A B) ->
  (forall p s, (p < n)%nat -> exists w, point (window F (9 * p)) s = Ok w /\ P (window F (9 * p)) w /\ forall k, (6 <= k)%nat -> w k = s k) ->
  exists s, points_stress point n F s0 = Ok s /\ (forall p, (p < n)%nat -> P (window F (9 * p)) (window s (6 * p))) /\ forall k, (6 * n <= k)%nat -> s k = s0 k.
Proof.
  intros Hext Hp. unfold points_stress.
  match goal with |- context [oloop 0 n ?f ?i] =>
    destruct (@oloop_ind (nat -> R) (fun q s => (forall p, (p < q)%nat -> P (window F (9 * p)) (window s (6 * p))) /\ forall k, (6 * q <= k)%nat -> s k = s0 k) 0%nat n f i) as (s & E & H) end; [lia| | |].
  - split; [intros; lia|reflexivity].
  - intros q s Hq [I1 I2]. destruct (Hp q (window s (6 * q)) ltac:(lia)) as (w & Ew & Pw & Rw). rewrite Ew. cbn [obind]. eexists. split; [reflexivity|]. split.
    + intros p Hpq. destruct (Nat.eq_dec p q) as [->|].
      * apply (Hext _ _ w Pw). intros k Hk. unfold window at 1, write_window. destruct (Nat.ltb_spec (6 * q + k) (6 * q)); [lia|]. f_equal. lia.
      * apply (Hext _ _ (window s (6 * p))); [apply I1; lia|]. intros k Hk. unfold window, write_window. destruct (Nat.ltb_spec (6 * p + k) (6 * q)); [reflexivity|lia].
    + intros k Hk. unfold write_window. destruct (Nat.ltb_spec k (6 * q)); [lia|]. rewrite Rw by lia. unfold window. replace (6 * q + (k - 6 * q))%nat with k by lia. apply I2; lia.
  - exists s. auto.
Qed.
Lemma sym_ext a b : (forall k, (k < 6)%nat -> a k = b k) -> meq (sym a) (sym b).
Proof. intros H. apply meq_intro. intros i j Hi Hj. idx3 i; idx3 j; cbv [sym sym_index]; apply H; lia. Qed.

(** ** Tangent *)
Definition voigt_row (k : nat) : nat := match k with 0 => 0 | 1 => 1 | 2 => 2 | 3 => 0 | 4 => 1 | _ => 2 end.
Definition voigt_col (k : nat) : nat := match k with 0 => 0 | 1 => 1 | 2 => 2 | 3 => 1 | 4 => 2 | _ => 0 end.
Definition tangent_entry (m : material) (k l : nat) : R :=
  let lambda := bulk_modulus_ m - 2 * shear_modulus_ m / 3 in
  if ((k <? 3) && (l <? 3))%nat then if (k =? l)%nat then lambda + 2 * shear_modulus_ m else lambda
  else if (k =? l)%nat then shear_modulus_ m else 0.
Lemma tangent_spec m n t0 : let C := get_tangent m n t0 in
  (forall p k l, (p < n)%nat -> (k < 6)%nat -> (l < 6)%nat -> cmat C p k l = tangent_entry m k l) /\ forall k, (36 * n <= k)%nat -> C k = t0 k.
Proof.
  intros C. unfold C, get_tangent. clear C. cbv zeta.
  match goal with |- context [floop 0 n ?f ?s] =>
    enough (G : (fun q C => (forall p k l, (p < q)%nat -> (k < 6)%nat -> (l < 6)%nat -> cmat C p k l = tangent_entry m k l) /\ forall k, (36 * q <= k)%nat -> C k = t0 k) n (floop 0 n f s)) by exact G end.
  apply floop_ind; [lia|split; [intros; lia|reflexivity]|].
  intros q C Hq [I1 I2]. split.
  - intros p k l Hp Hk Hl. unfold cmat. destruct (Nat.eq_dec p q) as [->|].
    + rewrite (Nat.mul_comm 36 q). generalize (q * 36)%nat. intros o. unfold upd.
      idx6m k; idx6m l;
      repeat match goal with |- context [Nat.eqb ?a ?b] => first [replace (Nat.eqb a b) with true by (symmetry; apply Nat.eqb_eq; lia)|replace (Nat.eqb a b) with false by (symmetry; apply Nat.eqb_neq; lia)] end; reflexivity.
    + unfold upd.
      assert (36 * p + 6 * k + l < q * 36)%nat by lia.
      repeat match goal with |- context [Nat.eqb ?a ?b] => replace (Nat.eqb a b) with false by (symmetry; apply Nat.eqb_neq; lia) end.
      apply I1; lia.
  - intros k Hk. unfold upd.
    repeat match goal with |- context [Nat.eqb ?a ?b] => replace (Nat.eqb a b) with false by (symmetry; apply Nat.eqb_neq; lia) end. apply I2. lia.
Qed.
Lemma tangent_entry_applied m (G : mat3) k : (k < 6)%nat ->
  Rsum 6 (fun l => tangent_entry m k l * eng_strain G l) = hooke (bulk_modulus_ m) (shear_modulus_ m) (msym G) (voigt_row k) (voigt_col k).
Proof.
  intros Hk. idx6m k; cbv [Rsum tangent_entry eng_strain hooke msym madd mscale mT mone mdev msub mtrace voigt_row voigt_col Nat.ltb Nat.leb Nat.eqb andb]; field.
Qed.
Lemma tangent_entry_psd m eps : 0 <= bulk_modulus_ m -> 0 <= shear_modulus_ m ->
  0 <= Rsum 6 (fun k => Rsum 6 (fun l => eps k * tangent_entry m k l * eps l)).
Proof.
  intros HK Hm. cbv [Rsum tangent_entry Nat.ltb Nat.leb Nat.eqb andb].
  set (a := eps 0%nat). set (b := eps 1%nat). set (c := eps 2%nat). set (d := eps 3%nat). set (e := eps 4%nat). set (f := eps 5%nat).
  set (K := bulk_modulus_ m) in *. set (mu := shear_modulus_ m) in *.
  match goal with |- 0 <= ?x => replace x with (K * ((a + b + c) * (a + b + c)) + mu * (d * d) + mu * (e * e) + mu * (f * f)
     + mu * (2 / 3) * ((a - b) * (a - b) + (b - c) * (b - c) + (c - a) * (c - a))) by field end.
  assert (S : forall x, 0 <= x * x) by (intros; nra).
  pose proof (Rmult_le_pos _ _ HK (S (a + b + c))). pose proof (Rmult_le_pos _ _ Hm (S d)). pose proof (Rmult_le_pos _ _ Hm (S e)). pose proof (Rmult_le_pos _ _ Hm (S f)).
  assert (0 <= mu * (2 / 3) * ((a - b) * (a - b) + (b - c) * (b - c) + (c - a) * (c - a))).
  { apply Rmult_le_pos; [lra|]. pose proof (S (a - b)). pose proof (S (b - c)). pose proof (S (c - a)). lra. }
  lra.
Qed.

(** ** Neo-Hookean *)
Lemma cube_inj a b : 0 < a -> 0 < b -> a * a * a = b * b * b -> a = b.
Proof. intros Ha Hb E. assert ((a - b) * (a * a + a * b + b * b) = 0) by lra. apply Rmult_integral in H as [H|H]; [lra|nra]. Qed.
Lemma cbrt_pos x : 0 < x -> 0 < cbrt x /\ cbrt x * cbrt x * cbrt x = x.
Proof.
  intros Hx. unfold cbrt. destruct (Rlt_dec 0 x); [|contradiction]. split; [apply exp_pos|].
  rewrite <- !Rpower_plus. replace (/ 3 + / 3 + / 3) with 1 by field. now apply Rpower_1.
Qed.
Lemma neo_point cos3 m junk F s V Rt g B : polar_decomp_with cos3 junk F junk junk = Ok (V, Rt) ->
  0 < mdet (sym V) -> meq (mmul (sym V) (sym V)) B -> 0 < g -> g * g * g * (mdet (sym V) * mdet (sym V)) = 1 ->
  let J := mdet (sym V) in
  exists s', neohookean_stress_with cos3 m junk F s = Ok s' /\
    meq (sym s') (madd (mscale (bulk_modulus_ m / 2 * (J - / J)) mone) (mscale (shear_modulus_ m / J) (mdev (mscale g B)))) /\
    forall k, (6 <= k)%nat -> s' k = s k.
Proof.
  intros HP HJ HB Hg Hg3 J. unfold neohookean_stress_with. rewrite HP. cbn [obind fst]. cbv zeta.
  match goal with |- context [cbrt ?x] => replace x with J end.
  2:{ unfold J. cbv [mdet sym sym_index K_S_XX K_S_YY K_S_ZZ K_S_XY K_S_YZ K_S_ZX]. ring. }
  destruct (@cbrt_pos J HJ) as [C1 C2]. set (c := cbrt J) in *.
  assert (Eg : 1 / (c * c) = g).
  { apply cube_inj; [|assumption|].
    - apply Rmult_lt_0_compat; [lra|]. apply Rinv_0_lt_compat. now apply Rmult_lt_0_compat.
    - fold J in Hg3. apply Rmult_eq_reg_r with (J * J); [|apply Rgt_not_eq; now apply Rmult_lt_0_compat]. rewrite Hg3. rewrite <- C2. field. lra. }
  rewrite Eg. 
  eexists. split; [reflexivity|]. split.
  - assert (HBe := meq_elim HB).
    apply meq_intro. intros i j Hi Hj. unfold madd, mscale, mdev, msub, mtrace, mscale. rewrite <- !HBe by (assumption || lia).
    assert (HJ' : J <> 0) by (unfold J; lra). clearbody J.
    cbn [Rsum]. rewrite <- !HBe by lia.
    idx3 i; idx3 j;
    cbv [sym sym_index upd K_S_XX K_S_YY K_S_ZZ K_S_XY K_S_YZ K_S_ZX K_S_YX K_S_ZY K_S_XZ Nat.eqb mmul Rsum mone]; field; assumption.
  - intros k Hk. destruct k as [|[|[|[|[|[|k]]]]]]; try lia. reflexivity.
Qed.

(** ** Multiples of rotations, for any helper *)
Lemma eigen_spherical cos3 junk t e0 e1 e2 : 
  let e := eigen_sym33_with cos3 junk t e0 e1 e2 in
  msumsq (dev t) <= 2 / 10 ^ 30 * (mean t * mean t) ->
    eval0 e = mean t /\ eval1 e = mean t /\ eval2 e = mean t /\
    forall n, (n < 3)%nat -> evec0 e n = mone 0%nat n /\ evec1 e n = mone 1%nat n /\ evec2 e n = mone 2%nat n.
Proof.
  cbv zeta. unfold eigen_sym33_with.
  change ((t K_S_XX + t K_S_YY + t K_S_ZZ) / 3) with (mean t).
  set (c1 := mean t).
  set (cxx := t K_S_XX - c1). set (cyy := t K_S_YY - c1). set (czz := t K_S_ZZ - c1).
  change (t K_S_XY) with (t 3%nat). change (t K_S_YZ) with (t 4%nat). change (t K_S_ZX) with (t 5%nat).
  set (cxy := t 3%nat). set (cyz := t 4%nat). set (czx := t 5%nat).
  set (c2 := eigen_c2 _ _ _ _ _ _).
  assert (Htr : cxx + cyy + czz = 0) by (unfold cxx, cyy, czz, c1, mean, K_S_XX, K_S_YY, K_S_ZZ; field).
  assert (Hs : msumsq (dev t) = - 2 * c2).
  { transitivity (cxx * cxx + cyy * cyy + czz * czz + 2 * (cxy * cxy) + 2 * (cyz * cyz) + 2 * (czx * czx)).
    - unfold msumsq. pose proof (dev_row t) as Hd. cbv zeta in Hd. cbv [Rsum]. rewrite !Hd by lia. cbn [row].
      unfold cxx, cyy, czz, cxy, cyz, czx, c1, K_S_XX, K_S_YY, K_S_ZZ. ring.
    - unfold c2, eigen_c2. replace czz with (- cxx - cyy) by lra. ring. }
  set (l := eigen_largest _ _ _ _ _ _ _).
  destruct (eigen_pick _ _ _ _ _ _ _ _) as [[[k r2] r3] kk] eqn:Epick.
  destruct (eigen_orth _ _ _ _ _) as [a aa] eqn:Eorth.
  destruct (eigen_reduced _ _ _ _ _ _ _ _ _ _) as [[[[m0 m1] f1] f2] bz] eqn:Ered.
  set (v0 := eigen_vec0 _ _ _ _ _ _). set (v2 := eigen_vec2 k a e2). set (v1 := eigen_vec1 _ _ _).
  destruct (finish_spec c1 c2 m0 m1 l v0 v1 v2) as [(H & E0 & E1 & E2 & F0 & F1 & F2)|(H & E0 & E1 & E2 & F0 & F1 & F2)].
  - intro H'; exfalso; lra.
  - intros _. rewrite E0, E1, E2. repeat (split; [reflexivity|]).
    intros n Hn. rewrite F0, F1, F2 by exact Hn. auto.
Qed.
Lemma mdet_scale c A : mdet (mscale c A) = c * c * c * mdet A.
Proof. cbv [mdet mscale]. ring. Qed.
Lemma polar_scaled cos3 junk F ls0 r0 a Q : 0 < a -> rotation_matrix Q -> meq (full F) (mscale a Q) ->
  exists V Rt, polar_decomp_with cos3 junk F ls0 r0 = Ok (V, Rt) /\ meq (sym V) (mscale a mone).
Proof.
  intros Ha [HQ1 HQ2] HF.
  assert (Hdet : 0 < mdet (full F)).
  { rewrite (mdet_proper HF), mdet_scale, HQ2. assert (0 < a * a * a) by (apply Rmult_lt_0_compat; [apply Rmult_lt_0_compat|]; assumption). lra. }
  destruct (invert_full_ok junk Hdet) as (inv & Hinv & Hr & Hl).
  destruct (@polar_unfold cos3 junk F ls0 r0 inv Hinv) as (V & Rt & HP & HR & HV).
  exists V, Rt. split; [exact HP|].
  set (M := square_full33T_full33 inv junk) in *.
  assert (HM : meq (sym M) (mmul (mT (full inv)) (full inv))) by (apply square_tf).
  set (z := upd (upd (upd junk 0%nat 0) 1 0) 2 0) in *.
  set (e := eigen_sym33_with cos3 junk M z z z) in *.
  assert (Ei : meq (full inv) (mscale (/ a) (mT Q))).
  { assert (E : meq (mmul (full F) (mscale (/ a) (mT Q))) mone).
    { rewrite HF, mmul_scale_l, mmul_scale_r, HQ1. apply meq_intro. intros i j _ _. unfold mscale. field. lra. }
    rewrite <- (mmul_1_l (mscale (/ a) (mT Q))), <- Hl, <- mmul_assoc, E, mmul_1_r. reflexivity. }
  assert (EM : meq (sym M) (mscale (/ a * / a) mone)).
  { rewrite HM, Ei. assert (ET : meq (mT (mscale (/ a) (mT Q))) (mscale (/ a) Q)) by (apply meq_intro; reflexivity).
    rewrite ET, mmul_scale_l, mmul_scale_r, HQ1. apply meq_intro. intros i j _ _. unfold mscale. ring. }
  assert (Ec : mtrace (sym M) / 3 = / a * / a).
  { rewrite (mtrace_proper EM). cbv [mtrace mscale mone Rsum Nat.eqb]. field. lra. }
  assert (Ed : msumsq (mdev (sym M)) = 0).
  { assert (D : meq (mdev (sym M)) mzero).
    { apply meq_intro. intros i j Hi Hj. unfold mdev, msub. rewrite Ec. rewrite (meq_elim EM) by assumption. unfold mzero. ring. }
    rewrite (msumsq_proper D). cbv [msumsq mzero Rsum]. ring. }
  pose proof (@eigen_spherical cos3 junk M z z z) as HC. cbv zeta in HC. fold e in HC.
  rewrite mean_trace, (msumsq_proper (dev_mdev M)), Ed, Ec in HC.
  assert (Hia : 0 < / a) by (apply Rinv_0_lt_compat; exact Ha).
  destruct HC as (L0 & L1 & L2 & LV).
  { pose proof tol_pos as T. unfold tol in T. apply Rmult_le_pos; [lra|]. nra. }
  assert (S : sqrt (/ a * / a) = / a) by (apply sqrt_square; lra).
  rewrite HV.
  - apply meq_intro. intros i j Hi Hj. pose proof (LV 0%nat ltac:(lia)) as A0. pose proof (LV 1%nat ltac:(lia)) as A1. pose proof (LV 2%nat ltac:(lia)) as A2.
    destruct A0 as (A00 & A01 & A02), A1 as (A10 & A11 & A12), A2 as (A20 & A21 & A22).
    cbv [mone Nat.eqb] in *.
    idx3 i; idx3 j; cbv [mmul mdiag mT Rsum Nat.eqb mscale]; rewrite !dot3_explicit, ?L0, ?L1, ?L2, ?A00, ?A01, ?A02, ?A10, ?A11, ?A12, ?A20, ?A21, ?A22, ?S; field; lra.
  - intros i Hi. destruct i as [|[|i]]; rewrite ?L0, ?L1, ?L2; nra.
Qed.

(** The stress when the polar factors are exact *)
Lemma polar_gives_B F V Rt : rotation_matrix (full Rt) -> meq (mmul (sym V) (full Rt)) (full F) ->
  meq (mmul (sym V) (sym V)) (mmul (full F) (mT (full F))) /\ mdet (sym V) = mdet (full F).
Proof.
  intros [R1 R2] E. split.
  - rewrite <- E, mT_mul, (sym_T V). rewrite mmul_assoc, <- (mmul_assoc (sym V)), R1, mmul_1_r. reflexivity.
  - rewrite <- (mdet_proper E), mdet_mul, R2. ring.
Qed.
Lemma tangent_entry_pd m eps : 0 < bulk_modulus_ m -> 0 < shear_modulus_ m -> (exists k, (k < 6)%nat /\ eps k <> 0) ->
  0 < Rsum 6 (fun k => Rsum 6 (fun l => eps k * tangent_entry m k l * eps l)).
Proof.
  intros HK Hm He. cbv [Rsum tangent_entry Nat.ltb Nat.leb Nat.eqb andb].
  set (a := eps 0%nat) in *. set (b := eps 1%nat) in *. set (c := eps 2%nat) in *. set (d := eps 3%nat) in *. set (e := eps 4%nat) in *. set (f := eps 5%nat) in *.
  set (K := bulk_modulus_ m) in *. set (mu := shear_modulus_ m) in *.
  match goal with |- 0 < ?x => replace x with (K * ((a + b + c) * (a + b + c)) + mu * (d * d) + mu * (e * e) + mu * (f * f)
     + mu * (2 / 3) * ((a - b) * (a - b) + (b - c) * (b - c) + (c - a) * (c - a))) by field end.
  assert (S : forall x, 0 <= x * x) by (intros; nra).
  assert (Q : forall x k, 0 < k -> 0 <= k * (x * x) /\ (k * (x * x) <= 0 -> x = 0)).
  { intros x k Hk. split; [apply Rmult_le_pos; [lra|apply S]|]. intros H. destruct (Req_dec x 0) as [|N]; [assumption|].
    assert (0 < k * (x * x)) by (apply Rmult_lt_0_compat; [assumption|nra]). lra. }
  replace (mu * (2 / 3) * ((a - b) * (a - b) + (b - c) * (b - c) + (c - a) * (c - a))) with
    (mu * (2 / 3) * ((a - b) * (a - b)) + mu * (2 / 3) * ((b - c) * (b - c)) + mu * (2 / 3) * ((c - a) * (c - a))) by ring.
  assert (Hm2 : 0 < mu * (2 / 3)) by lra.
  destruct (Q (a + b + c) K HK) as [A1 A2]. destruct (Q d mu Hm) as [B1 B2]. destruct (Q e mu Hm) as [C1 C2]. destruct (Q f mu Hm) as [D1 D2].
  destruct (Q (a - b) _ Hm2) as [E1 E2]. destruct (Q (b - c) _ Hm2) as [F1 F2]. destruct (Q (c - a) _ Hm2) as [G1 G2].
  apply Rnot_le_lt. intros N.
  assert (a + b + c = 0) by (apply A2; lra). assert (d = 0) by (apply B2; lra). assert (e = 0) by (apply C2; lra). assert (f = 0) by (apply D2; lra).
  assert (a - b = 0) by (apply E2; lra). assert (b - c = 0) by (apply F2; lra).
  destruct He as (k & Hk & Nz). apply Nz. idx6m k; [change (a = 0)|change (b = 0)|change (c = 0)|change (d = 0)|change (e = 0)|change (f = 0)]; lra.
Qed.
Lemma cube_root_exists J : 0 < J -> exists g, 0 < g /\ g * g * g * (J * J) = 1.
Proof.
  intros HJ. destruct (@cbrt_pos J HJ) as [C1 C2]. exists (/ (cbrt J * cbrt J)). split.
  - apply Rinv_0_lt_compat. now apply Rmult_lt_0_compat.
  - set (c := cbrt J) in *. clearbody c. subst J. field. lra.
Qed.
