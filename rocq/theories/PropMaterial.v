(** Properties of the materials. *)
From Verif Require Import Base Loops TensorModel TensorSpec TensorProofs EigenProofs EigenProofs2 PolarProofs ElementSpec MaterialModel MaterialSpec MaterialProofs PropTensor.
From Coq Require Import Reals Lra Psatz.
Set Implicit Arguments.
Local Open Scope R_scope.

(** ** C31: the elastic material *)
Lemma elastic_points : forall m junk n F s0, exists s, elastic_get_stress m junk n F s0 = Ok s /\
  (forall p, (p < n)%nat -> meq (stress_at s p) (hooke (bulk_modulus_ m) (shear_modulus_ m) (msym (msub (gradient_at F p) mone)))) /\
  forall k, (6 * n <= k)%nat -> s k = s0 k.
Proof.
  intros m junk n F s0.
  destruct (@points_ok (fun F s => Ok (elastic_stress m junk F s))
     (fun A a => meq (sym a) (hooke (bulk_modulus_ m) (shear_modulus_ m) (msym (msub (full A) mone)))) n F s0) as (s & E & H1 & H2).
  - intros A B a H Hab. rewrite <- H. apply sym_ext. intros k Hk. symmetry. now apply Hab.
  - intros p s Hp. eexists. split; [reflexivity|]. apply elastic_point.
  - exists s. split; [exact E|]. split; [exact H1|exact H2].
Qed.
(** Every point gets Hooke's law for the symmetric part of F - I; nothing else is written; the
    result does not depend on what was in the stress array or in the temporaries. *)
Theorem C31_elastic_stress : forall m junk n F s0, exists s, elastic_get_stress m junk n F s0 = Ok s /\
  (forall p, (p < n)%nat -> meq (stress_at s p) (hooke (bulk_modulus_ m) (shear_modulus_ m) (msym (msub (gradient_at F p) mone)))) /\
  forall k, (6 * n <= k)%nat -> s k = s0 k.
Proof. exact elastic_points. Qed.
Print Assumptions C31_elastic_stress.

(** The stress vanishes at the undeformed state and depends linearly on the displacement gradient. *)
Theorem C31_zero_and_linear : forall m junk n F G H c d s1 s2 s3 o1 o2 o3,
  elastic_get_stress m junk n F o1 = Ok s1 -> elastic_get_stress m junk n G o2 = Ok s2 -> elastic_get_stress m junk n H o3 = Ok s3 ->
  forall p, (p < n)%nat ->
  (meq (gradient_at F p) mone -> meq (stress_at s1 p) mzero) /\
  (meq (msub (gradient_at H p) mone) (madd (mscale c (msub (gradient_at F p) mone)) (mscale d (msub (gradient_at G p) mone))) ->
   meq (stress_at s3 p) (madd (mscale c (stress_at s1 p)) (mscale d (stress_at s2 p)))).
Proof.
  intros m junk n F G H c d s1 s2 s3 o1 o2 o3 E1 E2 E3 p Hp.
  destruct (elastic_points m junk n F o1) as (s1' & E1' & P1 & _). rewrite E1 in E1'. injection E1' as <-.
  destruct (elastic_points m junk n G o2) as (s2' & E2' & P2 & _). rewrite E2 in E2'. injection E2' as <-.
  destruct (elastic_points m junk n H o3) as (s3' & E3' & P3 & _). rewrite E3 in E3'. injection E3' as <-.
  specialize (P1 p Hp). specialize (P2 p Hp). specialize (P3 p Hp). split.
  - intros HF. rewrite P1. apply meq_intro. intros i j Hi Hj. pose proof (meq_elim HF) as HFe.
    unfold hooke, msym, madd, mscale, mdev, msub, mtrace, mscale, mT, mzero. cbn [Rsum]. rewrite !HFe by lia.
    unfold mone. rewrite (Nat.eqb_sym j i). destruct (i =? j)%nat; cbn [Nat.eqb]; field.
  - intros HL. pose proof (meq_elim HL) as HLe. apply meq_intro. intros i j Hi Hj.
    rewrite (meq_elim P3) by assumption. unfold madd at 1, mscale at 1 2. rewrite (meq_elim P1), (meq_elim P2) by assumption.
    unfold hooke, msym, madd, mscale, mdev, mtrace, mscale, mT. cbn [Rsum].
    unfold msub at 1 3 4 5 7 8 9 11 12.
    assert (X : forall i j, (i < 3)%nat -> (j < 3)%nat -> gradient_at H p i j = mone i j + (c * (gradient_at F p i j - mone i j) + d * (gradient_at G p i j - mone i j))).
    { intros a b Ha Hb. pose proof (HLe a b Ha Hb) as Y. unfold msub, madd, mscale in Y. lra. }
    unfold msub. rewrite !X by lia. field.
Qed.
Print Assumptions C31_zero_and_linear.

(** The material tangent is symmetric, maps the engineering strain of any displacement gradient to
    Hooke's stress of it, is positive semidefinite when the moduli are not negative (and positive
    definite when they are positive), and nothing else is written. *)
Theorem C31_tangent : forall m n t0, let C := get_tangent m n t0 in
  (forall p, (p < n)%nat ->
    (forall k l, (k < 6)%nat -> (l < 6)%nat -> cmat C p k l = cmat C p l k) /\
    (forall G k, (k < 6)%nat -> Rsum 6 (fun l => cmat C p k l * eng_strain G l) = component (hooke (bulk_modulus_ m) (shear_modulus_ m) (msym G)) k) /\
    (0 <= bulk_modulus_ m -> 0 <= shear_modulus_ m -> forall eps, 0 <= Rsum 6 (fun k => Rsum 6 (fun l => eps k * cmat C p k l * eps l))) /\
    (0 < bulk_modulus_ m -> 0 < shear_modulus_ m -> forall eps, (exists k, (k < 6)%nat /\ eps k <> 0) -> 0 < Rsum 6 (fun k => Rsum 6 (fun l => eps k * cmat C p k l * eps l)))) /\
  forall k, (36 * n <= k)%nat -> C k = t0 k.
Proof.
  intros m n t0 C. destruct (tangent_spec m n t0) as [T1 T2]. fold C in T1, T2. split; [|exact T2].
  intros p Hp. split; [|split; [|split]].
  - intros k l Hk Hl. rewrite !T1 by assumption. idx6m k; idx6m l; reflexivity.
  - intros G k Hk. transitivity (Rsum 6 (fun l => tangent_entry m k l * eng_strain G l)).
    + cbn [Rsum]. rewrite !T1 by lia. reflexivity.
    + rewrite tangent_entry_applied by assumption. idx6m k; reflexivity.
  - intros HK Hm eps. cbn [Rsum]. rewrite !T1 by lia. exact (@tangent_entry_psd m eps HK Hm).
  - intros HK Hm eps He. cbn [Rsum]. rewrite !T1 by lia. exact (@tangent_entry_pd m eps HK Hm He).
Qed.
Print Assumptions C31_tangent.

(** The stress of a point is the tangent applied to the engineering strain of F - I. *)
Theorem C31_stress_is_tangent_times_strain : forall m junk n F s0 t0 s, elastic_get_stress m junk n F s0 = Ok s ->
  forall p k, (p < n)%nat -> (k < 6)%nat ->
  s (6 * p + k)%nat = Rsum 6 (fun l => cmat (get_tangent m n t0) p k l * eng_strain (msub (gradient_at F p) mone) l).
Proof.
  intros m junk n F s0 t0 s E p k Hp Hk.
  destruct (elastic_points m junk n F s0) as (s' & E' & P & _). rewrite E in E'. injection E' as <-.
  destruct (C31_tangent m n t0) as [T _]. destruct (T p Hp) as (_ & T2 & _). rewrite T2 by assumption.
  specialize (P p Hp). pose proof (meq_elim P) as Pe.
  idx6m k; cbn [component]; rewrite <- Pe by lia; reflexivity.
Qed.
Print Assumptions C31_stress_is_tangent_times_strain.

(** GetOffNominalStress gives the stress for the given moduli and leaves the material as it was. *)
Theorem C31_off_nominal : forall m junk K mu n F s0, exists s,
  off_nominal_stress (fun m F s => Ok (elastic_stress m junk F s)) m K mu n F s0 = Ok (m, s) /\
  (forall p, (p < n)%nat -> meq (stress_at s p) (hooke K mu (msym (msub (gradient_at F p) mone)))) /\
  forall k, (6 * n <= k)%nat -> s k = s0 k.
Proof.
  intros m junk K mu n F s0. destruct (elastic_points (Mat (density_ m) K mu) junk n F s0) as (s & E & H).
  exists s. split; [|exact H]. unfold off_nominal_stress. cbn [density_ bulk_modulus_ shear_modulus_].
  unfold elastic_get_stress in E. rewrite E. cbn [obind]. destruct m; reflexivity.
Qed.
Print Assumptions C31_off_nominal.

Example C31_example : exists s, elastic_get_stress (Mat 1 3 1) (fun _ => 0) 1 (fun k => match k with 0%nat => 2 | 1%nat | 2%nat => 1 | 3%nat => 1 | _ => 0 end) (fun _ => 7) = Ok s /\
  s 0%nat = 3 + 4 / 3 /\ s 3%nat = 1 /\ s 6%nat = 7.
Proof.
  eexists. split; [reflexivity|]. cbv - [Rplus Rmult Rminus Rdiv Rinv Ropp IZR]. repeat split; field.
Qed.

(** The elastic law is a small-strain law: a rigid quarter turn about z produces stress. *)
Theorem C31_rotation_refuted : exists F s, rotation_matrix (gradient_at F 0) /\
  elastic_get_stress (Mat 1 1 1) (fun _ => 0) 1 F (fun _ => 0) = Ok s /\ s 0%nat <> 0.
Proof.
  exists (fun k => match k with 0%nat | 1%nat => 0 | 2%nat => 1 | 3%nat => -1 | 6%nat => 1 | _ => 0 end). eexists.
  split; [|split; [reflexivity|]].
  - split; [apply meq_intro; intros i j Hi Hj; idx3 i; idx3 j|];
    cbv - [Rplus Rmult Rminus Rdiv Rinv Ropp IZR]; ring.
  - cbv - [Rplus Rmult Rminus Rdiv Rinv Ropp IZR]. lra.
Qed.
Print Assumptions C31_rotation_refuted.

(** ** C55: the neo-Hookean material *)
(** Away from the eigenvalue routine's cut-off: with an exact helper the stress of every point is
    the neo-Hookean stress of its deformation gradient.  [resolved A] says that A is not within
    the cut-off of a multiple of a rotation unless it is one. *)
Definition resolved (A : mat3) : Prop := forall inv, meq (mmul A inv) mone -> let N := mmul (mT inv) inv in
  2 / 10 ^ 30 * (mtrace N / 3 * (mtrace N / 3)) < msumsq (mdev N) \/ meq (mdev N) mzero.
Lemma neo_exact m junk F s : 0 < mdet (full F) -> resolved (full F) -> forall g, 0 < g -> g * g * g * (mdet (full F) * mdet (full F)) = 1 ->
  exists s', neohookean_stress_with exact_helper m junk F s = Ok s' /\
    meq (sym s') (neo_hooke (bulk_modulus_ m) (shear_modulus_ m) (mdet (full F)) g (full F)) /\ forall k, (6 <= k)%nat -> s' k = s k.
Proof.
  intros Hd Hres g Hg Hg3.
  destruct (@polar_main exact_helper junk F junk junk exact_helper_good Hd) as (V & Rt & HP & _ & _ & _ & HX).
  destruct (invert_full_ok junk Hd) as (inv & _ & Hr & _).
  destruct (HX (full inv) Hr (Hres (full inv) Hr)) as [HR HVR].
  destruct (@polar_gives_B F V Rt HR HVR) as [HB HD].
  destruct (@neo_point exact_helper m junk F s V Rt g (mmul (full F) (mT (full F))) HP) as (s' & E & H & Hk); try assumption; rewrite ?HD; try assumption.
  rewrite HD in H. exists s'. auto.
Qed.
Theorem C55_neo_hookean_partial : forall m junk n F s0,
  (forall p, (p < n)%nat -> 0 < mdet (gradient_at F p) /\ resolved (gradient_at F p)) ->
  exists s, neohookean_get_stress_with exact_helper m junk n F s0 = Ok s /\
  (forall p, (p < n)%nat -> forall g, 0 < g -> g * g * g * (mdet (gradient_at F p) * mdet (gradient_at F p)) = 1 ->
     meq (stress_at s p) (neo_hooke (bulk_modulus_ m) (shear_modulus_ m) (mdet (gradient_at F p)) g (gradient_at F p))) /\
  forall k, (6 * n <= k)%nat -> s k = s0 k.
Proof.
  intros m junk n F s0 HF.
  destruct (@points_ok (neohookean_stress_with exact_helper m junk)
     (fun A a => forall g, 0 < g -> g * g * g * (mdet (full A) * mdet (full A)) = 1 -> meq (sym a) (neo_hooke (bulk_modulus_ m) (shear_modulus_ m) (mdet (full A)) g (full A))) n F s0) as (s & E & H1 & H2).
  - intros A B a H Hab g Hg Hg3. rewrite <- (H g Hg Hg3). apply sym_ext. intros k Hk. symmetry. now apply Hab.
  - intros p s Hp. destruct (HF p Hp) as [Hd Hres].
    destruct (cube_root_exists Hd) as (g & Hg & Hg3).
    destruct (@neo_exact m junk (window F (9 * p)) s Hd Hres g Hg Hg3) as (w & Ew & Hw & Hk).
    exists w. split; [exact Ew|]. split; [|exact Hk]. intros g' Hg' Hg3'.
    replace g' with g; [exact Hw|]. apply cube_inj; [assumption..|]. apply Rmult_eq_reg_r with (mdet (gradient_at F p) * mdet (gradient_at F p)); [etransitivity; [exact Hg3|symmetry; exact Hg3']|].
    apply Rgt_not_eq. now apply Rmult_lt_0_compat.
  - exists s. split; [exact E|]. split; [exact H1|exact H2].
Qed.
Print Assumptions C55_neo_hookean_partial.

(** Objectivity of that stress: rotating the deformation rotates the stress. *)
Lemma neo_hooke_rotates K mu J g F Q : meq (mmul Q (mT Q)) mone -> meq (mmul (mT Q) Q) mone ->
  meq (neo_hooke K mu J g (mmul Q F)) (mmul Q (mmul (neo_hooke K mu J g F) (mT Q))).
Proof.
  intros H1 H2. unfold neo_hooke.
  assert (EB : meq (mmul (mmul Q F) (mT (mmul Q F))) (mmul Q (mmul (mmul F (mT F)) (mT Q)))) by (rewrite mT_mul, !mmul_assoc; reflexivity).
  set (B := mmul F (mT F)) in *. clearbody B.
  assert (ET : mtrace (mmul Q (mmul B (mT Q))) = mtrace B).
  { transitivity (mtrace (mmul (mmul (mT Q) Q) B)); [cbv [mtrace mmul mT Rsum]; ring|].
    apply mtrace_proper. rewrite H2, mmul_1_l. reflexivity. }
  assert (ED : meq (mdev (mscale g (mmul (mmul Q F) (mT (mmul Q F))))) (mmul Q (mmul (mdev (mscale g B)) (mT Q)))).
  { assert (Et : mtrace (mscale g (mmul (mmul Q F) (mT (mmul Q F)))) = g * mtrace B).
    { rewrite <- ET, <- (mtrace_proper EB). cbv [mtrace mscale Rsum]. ring. }
    assert (Et' : mtrace (mscale g B) = g * mtrace B) by (cbv [mtrace mscale Rsum]; ring).
    apply meq_intro. intros i j Hi Hj. unfold mdev at 1, msub at 1. rewrite Et. unfold mscale at 1. rewrite (meq_elim EB) by assumption.
    transitivity (g * mmul Q (mmul B (mT Q)) i j - g * mtrace B / 3 * mmul Q (mT Q) i j).
    - f_equal. unfold mscale. rewrite (meq_elim H1) by assumption. reflexivity.
    - unfold mdev. rewrite Et'. idx3 i; idx3 j; cbv [mmul msub mscale mone mT Rsum Nat.eqb]; field. }
  rewrite ED.
  apply meq_intro. intros i j Hi Hj.
  transitivity (K / 2 * (J - / J) * mmul Q (mT Q) i j + mu / J * mmul Q (mmul (mdev (mscale g B)) (mT Q)) i j).
  - unfold madd, mscale at 1 2. rewrite (meq_elim H1) by assumption. reflexivity.
  - set (D := mdev (mscale g B)). idx3 i; idx3 j; cbv [mmul madd mscale mone mT Rsum Nat.eqb]; ring.
Qed.
Theorem C55_objective_partial : forall m junk n F F' s s' o o' Q, rotation_matrix Q ->
  neohookean_get_stress_with exact_helper m junk n F o = Ok s -> neohookean_get_stress_with exact_helper m junk n F' o' = Ok s' ->
  (forall p, (p < n)%nat -> 0 < mdet (gradient_at F p) /\ resolved (gradient_at F p) /\ resolved (gradient_at F' p) /\
     meq (gradient_at F' p) (mmul Q (gradient_at F p))) ->
  forall p, (p < n)%nat -> meq (stress_at s' p) (mmul Q (mmul (stress_at s p) (mT Q))).
Proof.
  intros m junk n F F' s s' o o' Q HQ E E' H p Hp.
  assert (HQ' : meq (mmul (mT Q) Q) mone) by (apply right_inverse_left; apply HQ).
  assert (Dp : forall q, (q < n)%nat -> mdet (gradient_at F' q) = mdet (gradient_at F q)).
  { intros q Hq. destruct (H q Hq) as (_ & _ & _ & X). rewrite (mdet_proper X), mdet_mul, (proj2 HQ). ring. }
  destruct (@C55_neo_hookean_partial m junk n F o) as (s1 & E1 & H1 & _); [intros q Hq; destruct (H q Hq) as (A & B & _); auto|].
  destruct (@C55_neo_hookean_partial m junk n F' o') as (s2 & E2 & H2 & _); [intros q Hq; rewrite Dp by assumption; destruct (H q Hq) as (A & _ & B & _); auto|].
  rewrite E in E1. injection E1 as <-. rewrite E' in E2. injection E2 as <-.
  destruct (H p Hp) as (A & _ & _ & X). destruct (cube_root_exists A) as (g & Hg & Hg3).
  rewrite (H1 p Hp g Hg Hg3). rewrite (H2 p Hp g Hg); [|rewrite Dp by assumption; exact Hg3].
  rewrite Dp by assumption. rewrite <- neo_hooke_rotates; [|apply HQ|exact HQ'].
  unfold neo_hooke, mdev. 
  assert (Y : meq (mmul (gradient_at F' p) (mT (gradient_at F' p))) (mmul (mmul Q (gradient_at F p)) (mT (mmul Q (gradient_at F p))))) by (rewrite X; reflexivity).
  assert (Z : meq (mscale g (mmul (gradient_at F' p) (mT (gradient_at F' p)))) (mscale g (mmul (mmul Q (gradient_at F p)) (mT (mmul Q (gradient_at F p)))))) by (rewrite Y; reflexivity).
  rewrite (mtrace_proper Z), Z. reflexivity.
Qed.
Print Assumptions C55_objective_partial.

(** For the code as it is (its rational approximation included): a dilated rotation F = a Q gives
    the pressure K/2 (a^3 - 1/a^3) and no shear; in particular rigid rotations give no stress. *)
Theorem C55_dilated_rotation : forall m junk F s0 a Q, 0 < a -> rotation_matrix Q -> meq (full F) (mscale a Q) ->
  exists s, neohookean_stress m junk F s0 = Ok s /\
    meq (sym s) (mscale (bulk_modulus_ m / 2 * (a * a * a - / (a * a * a))) mone) /\ (forall k, (6 <= k)%nat -> s k = s0 k).
Proof.
  intros m junk F s0 a Q Ha HQ HF.
  destruct (@polar_scaled cos_of_acos_divided_by_3 junk F junk junk a Q Ha HQ HF) as (V & Rt & HP & HV).
  assert (P2 : 0 < a * a) by (apply Rmult_lt_0_compat; assumption). assert (P3 : 0 < a * a * a) by (apply Rmult_lt_0_compat; assumption).
  assert (DV : mdet (sym V) = a * a * a) by (rewrite (mdet_proper HV), mdet_scale, mdet_one; ring).
  destruct (@neo_point cos_of_acos_divided_by_3 m junk F s0 V Rt (/ (a * a)) (mscale (a * a) mone) HP) as (s & E & H & Hk).
  - rewrite DV. exact P3.
  - rewrite HV, mmul_scale_l, mmul_1_l. apply meq_intro. intros i j _ _. unfold mscale. ring.
  - now apply Rinv_0_lt_compat.
  - rewrite DV. field. lra.
  - exists s. split; [exact E|]. split; [|exact Hk]. rewrite H, DV. apply meq_intro. intros i j Hi Hj.
    unfold madd, mscale, mdev, msub, mtrace, mscale. cbn [Rsum]. idx3 i; idx3 j; cbv [mone Nat.eqb]; field; lra.
Qed.
Print Assumptions C55_dilated_rotation.
Theorem C55_rigid_rotation : forall m junk F s0, rotation_matrix (full F) ->
  exists s, neohookean_stress m junk F s0 = Ok s /\ meq (sym s) mzero.
Proof.
  intros m junk F s0 HF. destruct (@C55_dilated_rotation m junk F s0 1 (full F)) as (s & E & H & _); [lra|exact HF| |].
  - apply meq_intro. intros i j _ _. unfold mscale. ring.
  - exists s. split; [exact E|]. rewrite H. apply meq_intro. intros i j _ _. unfold mscale, mzero. field.
Qed.
Print Assumptions C55_rigid_rotation.
(** An inverted deformation stops the program. *)
Theorem C55_inverted_aborts : forall m junk F s0, mdet (full F) < 0 -> neohookean_stress m junk F s0 = Abort.
Proof.
  intros m junk F s0 H. unfold neohookean_stress, neohookean_stress_with.
  assert (E : polar_decomp_with cos_of_acos_divided_by_3 junk F junk junk = Abort) by (apply C53_polar_rejects_inverted; exact H).
  rewrite E. reflexivity.
Qed.
Print Assumptions C55_inverted_aborts.

(** Non-vacuity: a stretch by 2 along x is resolved, and so is the identity. *)
Example C55_example : 0 < mdet (fun i j => if (i =? j)%nat then if (i =? 0)%nat then 2 else 1 else 0) /\ resolved (fun i j => if (i =? j)%nat then if (i =? 0)%nat then 2 else 1 else 0) /\ resolved mone.
Proof.
  split; [cbv [mdet Nat.eqb]; lra|]. split.
  - intros inv Hi N. left. pose proof (meq_elim Hi) as He.
    assert (I00 : inv 0%nat 0%nat = / 2) by (pose proof (He 0%nat 0%nat ltac:(lia) ltac:(lia)) as X; cbv [mmul Rsum mone Nat.eqb] in X; lra).
    assert (I01 : inv 0%nat 1%nat = 0) by (pose proof (He 0%nat 1%nat ltac:(lia) ltac:(lia)) as X; cbv [mmul Rsum mone Nat.eqb] in X; lra).
    assert (I02 : inv 0%nat 2%nat = 0) by (pose proof (He 0%nat 2%nat ltac:(lia) ltac:(lia)) as X; cbv [mmul Rsum mone Nat.eqb] in X; lra).
    assert (I10 : inv 1%nat 0%nat = 0) by (pose proof (He 1%nat 0%nat ltac:(lia) ltac:(lia)) as X; cbv [mmul Rsum mone Nat.eqb] in X; lra).
    assert (I11 : inv 1%nat 1%nat = 1) by (pose proof (He 1%nat 1%nat ltac:(lia) ltac:(lia)) as X; cbv [mmul Rsum mone Nat.eqb] in X; lra).
    assert (I12 : inv 1%nat 2%nat = 0) by (pose proof (He 1%nat 2%nat ltac:(lia) ltac:(lia)) as X; cbv [mmul Rsum mone Nat.eqb] in X; lra).
    assert (I20 : inv 2%nat 0%nat = 0) by (pose proof (He 2%nat 0%nat ltac:(lia) ltac:(lia)) as X; cbv [mmul Rsum mone Nat.eqb] in X; lra).
    assert (I21 : inv 2%nat 1%nat = 0) by (pose proof (He 2%nat 1%nat ltac:(lia) ltac:(lia)) as X; cbv [mmul Rsum mone Nat.eqb] in X; lra).
    assert (I22 : inv 2%nat 2%nat = 1) by (pose proof (He 2%nat 2%nat ltac:(lia) ltac:(lia)) as X; cbv [mmul Rsum mone Nat.eqb] in X; lra).
    unfold N. cbv [mtrace msumsq mdev msub mscale mmul mT mone Rsum Nat.eqb]. rewrite I00, I01, I02, I10, I11, I12, I20, I21, I22. lra.
  - intros inv Hi N. right.
    assert (E : meq N mone) by (unfold N; rewrite mmul_1_l in Hi; rewrite Hi, mmul_1_r; apply meq_intro; intros i j _ _; unfold mT, mone; rewrite (Nat.eqb_sym j i); reflexivity).
    apply meq_intro. intros i j Hi' Hj. unfold mdev, msub. rewrite (mtrace_proper E), (meq_elim E) by assumption. cbv [mtrace mscale mzero Rsum]. 
    unfold mone at 2 3 4. cbn [Nat.eqb]. field.
Qed.
