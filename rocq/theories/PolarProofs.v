(** Proofs about Polar_Decomp. *)
From Verif Require Import Base Loops TensorModel TensorSpec TensorProofs EigenProofs EigenProofs2.
From Coq Require Import Reals Lra Psatz Setoid Morphisms.
Set Implicit Arguments.
Local Open Scope R_scope.

Definition madj (A : mat3) : mat3 := fun i j =>
  let i1 := ((i + 1) mod 3)%nat in let i2 := ((i + 2) mod 3)%nat in
  let j1 := ((j + 1) mod 3)%nat in let j2 := ((j + 2) mod 3)%nat in
  A j1 i1 * A j2 i2 - A j1 i2 * A j2 i1.
Lemma madj_l A : meq (mmul (madj A) A) (mscale (mdet A) mone).
Proof. intros i j Hi Hj. idx3 i; idx3 j; cbv [mmul madj mscale mone mdet Rsum Nat.eqb Nat.add Nat.modulo Nat.divmod fst snd Nat.sub]; ring. Qed.

Opaque meq.
Lemma mmul_scale_l c A B : meq (mmul (mscale c A) B) (mscale c (mmul A B)).
Proof. Transparent meq. intros i j _ _. cbv [mmul mscale Rsum]. ring. Qed.
Lemma mmul_scale_r c A B : meq (mmul A (mscale c B)) (mscale c (mmul A B)).
Proof. intros i j _ _. cbv [mmul mscale Rsum]. ring. Qed.
Lemma mT_mul A B : meq (mT (mmul A B)) (mmul (mT B) (mT A)).
Proof. intros i j _ _. cbv [mmul mT Rsum]. ring. Qed.
Lemma mT_T A : meq (mT (mT A)) A.
Proof. intros i j _ _. reflexivity. Qed.
Lemma mdet_one : mdet mone = 1.
Proof. cbv [mdet mone Nat.eqb]. ring. Qed.
Opaque meq.

Lemma right_inverse_left A B : meq (mmul A B) mone -> meq (mmul B A) mone.
Proof.
  intros H.
  assert (Hd : mdet A * mdet B = 1) by (rewrite <- mdet_mul, (mdet_proper H); apply mdet_one).
  assert (Ha : mdet A <> 0) by (intro E; rewrite E in Hd; lra).
  assert (E : meq (mscale (mdet A) B) (madj A)).
  { rewrite <- (mmul_1_r (madj A)), <- H, mmul_assoc, madj_l, mmul_scale_l, mmul_1_l. reflexivity. }
  assert (E2 : meq (mscale (mdet A) (mmul B A)) (mscale (mdet A) mone)).
  { rewrite <- madj_l, <- E, mmul_scale_l. reflexivity. }
  Transparent meq. intros i j Hi Hj. specialize (E2 i j Hi Hj). unfold mscale in E2. nra.
Qed.
Opaque meq.

(** diagonal matrices *)
Definition mdiag (d : nat -> R) : mat3 := fun i j => if (i =? j)%nat then d i else 0.
Lemma mdiag_mul d e : meq (mmul (mdiag d) (mdiag e)) (mdiag (fun i => d i * e i)).
Proof. Transparent meq. intros i j Hi Hj. idx3 i; idx3 j; cbv [mmul mdiag Rsum Nat.eqb]; ring. Qed.
Opaque meq.

(** ** three orthogonal eigenvectors *)
Section Spectral.
  Variables (M : mat3) (v : nat -> arr) (lam : nat -> R).
  Hypothesis Horth : forall i j, (i < 3)%nat -> (j < 3)%nat -> i <> j -> dot3 (v i) (v j) = 0.
  Hypothesis Hne : forall i, (i < 3)%nat -> dot3 (v i) (v i) <> 0.
  Hypothesis Heig : forall i, (i < 3)%nat -> forall n, (n < 3)%nat -> mvec M (v i) n = lam i * v i n.
  Let W : mat3 := fun n i => v i n.
  Let len i := dot3 (v i) (v i).

  Lemma WtW : meq (mmul (mT W) W) (mdiag len).
  Proof.
    Transparent meq. intros i j Hi Hj. unfold mdiag. destruct (Nat.eqb_spec i j) as [<-|N].
    - reflexivity.
    - rewrite <- (Horth Hi Hj N). reflexivity.
  Qed.
  Lemma MW : meq (mmul M W) (mmul W (mdiag lam)).
  Proof.
    intros n i Hn Hi. transitivity (lam i * v i n); [rewrite <- (Heig Hi Hn); reflexivity|].
    unfold W. idx3 i; cbv [mmul mdiag Rsum Nat.eqb]; ring.
  Qed.
  Opaque meq.
  Lemma complete : meq (mmul W (mmul (mdiag (fun i => / len i)) (mT W))) mone.
  Proof.
    apply right_inverse_left. rewrite <- mmul_assoc, WtW, mdiag_mul.
    Transparent meq. intros i j Hi Hj. unfold mdiag, mone. destruct (i =? j)%nat; [|reflexivity].
    unfold len. field. apply Hne; exact Hi.
  Qed.
  Opaque meq.

  Hypothesis Hpos : forall i, (i < 3)%nat -> 0 < lam i.
  Let x i := / (sqrt (lam i) * len i).
  Let V := mmul W (mmul (mdiag x) (mT W)).
  Lemma VMV : meq (mmul V (mmul M V)) mone.
  Proof.
    unfold V.
    rewrite (mmul_assoc M W), MW.
    rewrite <- (mmul_assoc W (mdiag lam)), (mmul_assoc (mdiag lam)), mdiag_mul.
    rewrite <- (mmul_assoc W), <- (mmul_assoc (mdiag x) (mT W)), (mmul_assoc (mT W) W), WtW.
    rewrite (mmul_assoc (mdiag len)), mdiag_mul, (mmul_assoc (mdiag x)), mdiag_mul.
    rewrite <- complete.
    apply mmul_proper; [reflexivity|]. apply mmul_proper; [|reflexivity].
    Transparent meq. intros i j Hi Hj. unfold mdiag. destruct (i =? j)%nat; [|reflexivity].
    unfold x, len. pose proof (Hpos Hi). assert (S : sqrt (lam i) * sqrt (lam i) = lam i) by (apply sqrt_sqrt; lra).
    assert (0 < sqrt (lam i)) by (apply sqrt_lt_R0; assumption).
    pose proof (Hne Hi). rewrite <- S at 2. field. split; [assumption|lra].
  Qed.
  Opaque meq.
  Lemma V_quad (z : arr) : dot3 z (mvec V z) = x 0%nat * (dot3 (v 0%nat) z * dot3 (v 0%nat) z) + x 1%nat * (dot3 (v 1%nat) z * dot3 (v 1%nat) z) + x 2%nat * (dot3 (v 2%nat) z * dot3 (v 2%nat) z).
  Proof. unfold V, W. rewrite !dot3_explicit, !mvec_explicit. cbv [mmul mdiag mT Rsum Nat.eqb]. ring. Qed.
  Lemma x_pos i : (i < 3)%nat -> 0 < x i.
  Proof.
    intros Hi. unfold x. apply Rinv_0_lt_compat. apply Rmult_lt_0_compat; [apply sqrt_lt_R0; apply Hpos; exact Hi|].
    unfold len. pose proof (dot3_nonneg (v i)). pose proof (Hne Hi). lra.
  Qed.
  Lemma V_pos (z : arr) : (exists n, (n < 3)%nat /\ z n <> 0) -> 0 < dot3 z (mvec V z).
  Proof.
    intros (n & Hn & Hz). rewrite V_quad.
    pose proof (@x_pos 0%nat ltac:(lia)). pose proof (@x_pos 1%nat ltac:(lia)). pose proof (@x_pos 2%nat ltac:(lia)).
    set (a := dot3 (v 0%nat) z). set (b := dot3 (v 1%nat) z). set (c := dot3 (v 2%nat) z).
    destruct (Req_dec (a * a + b * b + c * c) 0) as [E|N].
    - exfalso. assert (a = 0) by nra. assert (b = 0) by nra. assert (c = 0) by nra.
      apply Hz. (* z = W L^-1 W^T z *)
      assert (G : mvec mone z n = 0).
      { pose proof complete as Hc. Transparent meq.
        rewrite mvec_explicit. rewrite <- !Hc by lia.
        transitivity (W n 0%nat * / len 0%nat * a + W n 1%nat * / len 1%nat * b + W n 2%nat * / len 2%nat * c).
        - unfold a, b, c. rewrite !dot3_explicit. unfold W. cbv [mmul mdiag mT Rsum Nat.eqb]. ring.
        - rewrite H2, H3, H4. ring. }
      rewrite mvec_explicit in G. idx3 n; cbv [mone Nat.eqb] in G; lra.
    - assert (Ka : 0 <= x 0%nat * (a * a)) by nra. assert (Kb : 0 <= x 1%nat * (b * b)) by nra. assert (Kc : 0 <= x 2%nat * (c * c)) by nra.
      destruct (Req_dec a 0) as [Ea|Na]; [destruct (Req_dec b 0) as [Eb|Nb]; [destruct (Req_dec c 0) as [Ec|Nc]|]|].
      + exfalso. apply N. rewrite Ea, Eb, Ec. ring.
      + assert (0 < c * c) by nra. assert (0 < x 2%nat * (c * c)) by (apply Rmult_lt_0_compat; assumption). lra.
      + assert (0 < b * b) by nra. assert (0 < x 1%nat * (b * b)) by (apply Rmult_lt_0_compat; assumption). lra.
      + assert (0 < a * a) by nra. assert (0 < x 0%nat * (a * a)) by (apply Rmult_lt_0_compat; assumption). lra.
  Qed.
  Opaque meq.
End Spectral.
Transparent meq.

(** ** Polar_Decomp *)
Lemma polar_unfold cos3 junk m ls0 r0 inv : invert_full33 m junk = Ok (inv, mdet (full m)) ->
  let M := square_full33T_full33 inv junk in
  let z := upd (upd (upd junk 0%nat 0) 1 0) 2 0 in
  let e := eigen_sym33_with cos3 junk M z z z in
  let lam i := match i with O => eval0 e | 1%nat => eval1 e | _ => eval2 e end in
  let v i := match i with O => evec0 e | 1%nat => evec1 e | _ => evec2 e end in
  exists V Rt, polar_decomp_with cos3 junk m ls0 r0 = Ok (V, Rt) /\
   meq (full Rt) (mT (mmul (full inv) (sym V))) /\
   ((forall i, (i < 3)%nat -> 0 <= lam i) ->
   meq (sym V) (mmul (fun n i => v i n) (mmul (mdiag (fun i => / (sqrt (lam i) * dot3 (v i) (v i)))) (mT (fun n i => v i n))))).
Proof.
  intros Hinv M z e lam v. unfold polar_decomp_with. rewrite Hinv. cbn [obind fst]. fold M z. fold e.
  eexists _, _. split; [reflexivity|].
  split.
  - intros i j Hi Hj. match goal with |- context [mult_full33_sym33_returnT ?a ?b ?c] => set (V := b) end. clearbody V.
    idx3 i; idx3 j; tred; ring.
  - intros Hl i j Hi Hj.
    pose proof (Hl 0%nat ltac:(lia)) as L0. pose proof (Hl 1%nat ltac:(lia)) as L1. pose proof (Hl 2%nat ltac:(lia)) as L2.
    cbn [lam] in L0, L1, L2. unfold lam, v. clear lam v Hl. destruct e as [l0 l1 l2 v0 v1 v2]; cbn [eval0 eval1 eval2 evec0 evec1 evec2] in *.
    cbv zeta. unfold upd. cbn [Nat.eqb].
    destruct (Rlt_dec l0 0); [lra|]. destruct (Rlt_dec l1 0); [lra|]. destruct (Rlt_dec l2 0); [lra|].
    unfold K_X, K_Y, K_Z. rewrite <- !dot3_explicit.
    idx3 i; idx3 j; cbv [sym sym_index K_S_XX K_S_YY K_S_ZZ K_S_XY K_S_YZ K_S_ZX Nat.eqb mmul mT mdiag Rsum]; unfold Rdiv; ring.
Qed.

Lemma square_pos (B : mat3) z : (exists n, (n < 3)%nat /\ z n <> 0) -> (exists A, meq (mmul A B) mone) ->
  0 < dot3 z (mvec (mmul (mT B) B) z).
Proof.
  intros Hz (A & HA).
  assert (E : dot3 z (mvec (mmul (mT B) B) z) = dot3 (mvec B z) (mvec B z)).
  { rewrite !dot3_explicit, !mvec_explicit. cbv [mmul mT Rsum]. ring. }
  rewrite E. pose proof (dot3_nonneg (mvec B z)) as [H|H]; [exact H|]. exfalso.
  symmetry in H. pose proof (@dot3_zero _ H) as Z.
  destruct Hz as (n & Hn & Hz). apply Hz.
  assert (G : mvec mone z n = 0).
  { rewrite mvec_explicit, <- !HA by lia.
    transitivity (A n 0%nat * mvec B z 0%nat + A n 1%nat * mvec B z 1%nat + A n 2%nat * mvec B z 2%nat).
    - rewrite !mvec_explicit. cbv [mmul Rsum]. ring.
    - rewrite !Z by lia. ring. }
  rewrite mvec_explicit in G. idx3 n; cbv [mone Nat.eqb] in G; lra.
Qed.

Lemma meq_intro A B : (forall i j, (i < 3)%nat -> (j < 3)%nat -> A i j = B i j) -> meq A B.
Proof. exact (fun H => H). Qed.
Lemma meq_elim A B : meq A B -> forall i j, (i < 3)%nat -> (j < 3)%nat -> A i j = B i j.
Proof. exact (fun H => H). Qed.
Lemma mean_trace t : mean t = mtrace (sym t) / 3.
Proof. cbv [mean mtrace Rsum sym sym_index]. field. Qed.
Lemma msumsq_proper A B : meq A B -> msumsq A = msumsq B.
Proof. intros H. unfold msumsq. apply Rsum_ext. intros i Hi. apply Rsum_ext. intros j Hj. rewrite H by assumption. reflexivity. Qed.
Lemma dev_mdev t : meq (dev t) (mdev (sym t)).
Proof. unfold dev, mdev. rewrite mean_trace. reflexivity. Qed.

Lemma sym_T V : meq (mT (sym V)) (sym V).
Proof. intros i j Hi Hj. idx3 i; idx3 j; reflexivity. Qed.
Lemma mtrace_proper A B : meq A B -> mtrace A = mtrace B.
Proof. intros H. unfold mtrace. apply Rsum_ext. intros i Hi. apply H; assumption. Qed.
Lemma msumsq_nonneg A : 0 <= msumsq A.
Proof. cbv [msumsq Rsum]. nra. Qed.
Lemma msumsq_zero A : msumsq A = 0 -> meq A mzero.
Proof.
  intros H. cbv [msumsq Rsum] in H. intros i j Hi Hj. unfold mzero.
  idx3 i; idx3 j; match goal with |- ?x = 0 => assert (x * x <= 0) by nra; nra end.
Qed.

Lemma nonzero_length v : (exists n, (n < 3)%nat /\ v n <> 0) -> dot3 v v <> 0.
Proof. intros (n & Hn & H) E. apply H. apply (@dot3_zero _ E). exact Hn. Qed.

Definition tol : R := 2 / 10 ^ 30.
Lemma tol_pos : 0 < tol.
Proof. unfold tol. apply Rmult_lt_0_compat; [lra|]. apply Rinv_0_lt_compat, pow_lt; lra. Qed.

Opaque meq.
Section Polar.
  Variables (cos3 : R -> R) (junk m ls0 r0 : arr).
  Hypothesis (Hcos : good_cos3 cos3) (Hdet : 0 < mdet (full m)).

  Lemma polar_main : exists V Rt, polar_decomp_with cos3 junk m ls0 r0 = Ok (V, Rt) /\
    positive_definite (sym V) /\ 0 < mdet (full Rt) /\
    (exists E, msumsq E <= tol /\ meq (mmul (sym V) (full Rt)) (mmul (madd mone E) (full m)) /\
               meq (mmul (full Rt) (mT (full Rt))) (madd mone E)) /\
    forall inv, meq (mmul (full m) inv) mone -> let N := mmul (mT inv) inv in
      (tol * (mtrace N / 3 * (mtrace N / 3)) < msumsq (mdev N) \/ meq (mdev N) mzero) ->
      rotation_matrix (full Rt) /\ meq (mmul (sym V) (full Rt)) (full m).
  Proof.
    destruct (invert_full_ok junk Hdet) as (inv & Hinv & Hr & Hl).
    destruct (@polar_unfold cos3 junk m ls0 r0 inv Hinv) as (V & Rt & HP & HR & HV).
    exists V, Rt. split; [exact HP|].
    set (M := square_full33T_full33 inv junk) in *.
    assert (HM : meq (sym M) (mmul (mT (full inv)) (full inv))) by (apply square_tf).
    set (z := upd (upd (upd junk 0%nat 0) 1 0) 2 0) in *.
    set (e := eigen_sym33_with cos3 junk M z z z) in *.
    pose proof (eigen_complete junk M z z z Hcos) as HC. cbv zeta in HC. fold e in HC.
    rewrite mean_trace, (msumsq_proper (dev_mdev M)) in HC. fold tol in HC.
    pose proof (eigen_orthogonal cos3 junk M z z z) as HO. cbv zeta in HO. fold e in HO. destruct HO as (O1 & O2 & O3).
    set (lam := fun i => match i with O => eval0 e | 1%nat => eval1 e | _ => eval2 e end) in *.
    set (v := fun i => match i with O => evec0 e | 1%nat => evec1 e | _ => evec2 e end) in *.
    assert (HV' : (forall i, (i < 3)%nat -> 0 <= lam i) -> meq (sym V) (mmul (fun n i => v i n) (mmul (mdiag (fun i => / (sqrt (lam i) * dot3 (v i) (v i)))) (mT (fun n i => v i n))))) by exact HV.
    clear HV. rename HV' into HV.
    assert (Mpos : positive_definite (sym M)).
    { intros x Hx.
      pose proof (@square_pos (full inv) x Hx (ex_intro _ (full m) Hr)) as P.
      replace (dot3 x (mvec (sym M) x)) with (dot3 x (mvec (mmul (mT (full inv)) (full inv)) x)); [exact P|].
      rewrite !dot3_explicit, !mvec_explicit. rewrite !(meq_elim HM) by lia. reflexivity. }
    assert (Finvdet : mdet (full inv) * mdet (full m) = 1) by (rewrite <- mdet_mul, (mdet_proper Hl); apply mdet_one).
    assert (Finvpos : 0 < mdet (full inv)) by nra.
    (* from V: everything about Rt *)
    assert (RRt : meq (mmul (full Rt) (mT (full Rt))) (mmul (sym V) (mmul (sym M) (sym V)))).
    { rewrite HR, mT_T, mT_mul.
      pose proof (sym_T V) as SV.
      rewrite SV, HM. rewrite !mmul_assoc. reflexivity. }
    assert (VR : forall E, meq (mmul (sym V) (mmul (sym M) (sym V))) (madd mone E) -> meq (mmul (sym V) (mmul (sym V) (sym M))) (madd mone E) ->
       meq (mmul (sym V) (full Rt)) (mmul (madd mone E) (full m))).
    { intros E _ H.
      pose proof (sym_T V) as SV.
      rewrite <- H, HR, mT_mul, SV, HM. rewrite <- !mmul_assoc. rewrite Hl, mmul_1_r. reflexivity. }
    destruct (Rle_lt_dec (msumsq (mdev (sym M))) (tol * (mtrace (sym M) / 3 * (mtrace (sym M) / 3)))) as [Hn|Hn].
    - (* near spherical *)
      destruct (proj2 HC Hn) as (L0 & L1 & L2 & LV). clear HC.
      set (c := mtrace (sym M) / 3) in *.
      assert (Hc : 0 < c).
      { assert (P : forall k, (k < 3)%nat -> 0 < sym M k k).
        { intros k Hk. assert (Nz : exists n, (n < 3)%nat /\ mone k n <> 0) by (exists k; split; [exact Hk|unfold mone; rewrite Nat.eqb_refl; exact R1_neq_R0]).
          pose proof (Mpos (mone k) Nz) as P.
          rewrite dot3_explicit, !mvec_explicit in P. idx3 k; cbv [mone Nat.eqb] in P; lra. }
        unfold c, mtrace. cbv [Rsum]. pose proof (P 0%nat ltac:(lia)). pose proof (P 1%nat ltac:(lia)). pose proof (P 2%nat ltac:(lia)). lra. }
      assert (S : sqrt c * sqrt c = c) by (apply sqrt_sqrt; lra). assert (Sp : 0 < sqrt c) by (apply sqrt_lt_R0; exact Hc).
      assert (HV2 : meq (sym V) (mscale (/ sqrt c) mone)).
      { rewrite HV.
        - apply meq_intro. intros i j Hi Hj. pose proof (LV 0%nat ltac:(lia)) as A0. pose proof (LV 1%nat ltac:(lia)) as A1. pose proof (LV 2%nat ltac:(lia)) as A2.
          destruct A0 as (A00 & A01 & A02), A1 as (A10 & A11 & A12), A2 as (A20 & A21 & A22).
          cbv [mone Nat.eqb] in *.
          idx3 i; idx3 j; cbv [mmul mdiag mT Rsum Nat.eqb mscale]; cbn [lam v]; rewrite !dot3_explicit, ?L0, ?L1, ?L2, ?A00, ?A01, ?A02, ?A10, ?A11, ?A12, ?A20, ?A21, ?A22; field; lra.
        - intros i Hi. unfold lam. destruct i as [|[|i]]; rewrite ?L0, ?L1, ?L2; lra. }
      set (E := mscale (/ c) (mdev (sym M))).
      assert (EM : meq (mscale (/ c) (sym M)) (madd mone E)).
      { apply meq_intro. intros i j Hi Hj. unfold E, madd, mscale, mdev, msub, mscale. fold c. field. lra. }
      assert (E1 : meq (mmul (sym V) (mmul (sym M) (sym V))) (madd mone E)).
      { rewrite <- EM, HV2, mmul_scale_r, mmul_1_r, mmul_scale_l, mmul_scale_r, mmul_1_l.
        apply meq_intro. intros i j Hi Hj. unfold mscale. rewrite <- S at 3. field. lra. }
      assert (E2 : meq (mmul (sym V) (mmul (sym V) (sym M))) (madd mone E)).
      { rewrite <- EM, HV2, !mmul_scale_l, !mmul_1_l.
        apply meq_intro. intros i j Hi Hj. unfold mscale. rewrite <- S at 3. field. lra. }
      assert (DV : 0 < mdet (sym V)).
      { rewrite (mdet_proper HV2). cbv [mdet mscale mone Nat.eqb].
        assert (0 < / sqrt c) by (apply Rinv_0_lt_compat; exact Sp).
        assert (0 < / sqrt c * / sqrt c * / sqrt c) by (apply Rmult_lt_0_compat; [apply Rmult_lt_0_compat|]; assumption). lra. }
      assert (DR : 0 < mdet (full Rt)).
      { rewrite (mdet_proper HR), mdet_T, mdet_mul. apply Rmult_lt_0_compat; assumption. }
      split.
      { intros x Hx. apply nonzero_length in Hx. pose proof (dot3_nonneg x).
        assert (X : dot3 x (mvec (sym V) x) = / sqrt c * dot3 x x).
        { rewrite !dot3_explicit, !mvec_explicit, !(meq_elim HV2) by lia. cbv [mscale mone Nat.eqb]. ring. }
        rewrite X. apply Rmult_lt_0_compat; [apply Rinv_0_lt_compat; exact Sp|lra]. }
      split; [exact DR|].
      split.
      { exists E. split; [|split; [exact (VR E E1 E2)|rewrite RRt; exact E1]].
        assert (X : msumsq E = msumsq (mdev (sym M)) / (c * c)) by (unfold E; generalize (mdev (sym M)); intro d; cbv [msumsq Rsum mscale]; field; lra).
        rewrite X. apply Rmult_le_reg_r with (c * c); [nra|]. unfold Rdiv. rewrite Rmult_assoc, Rinv_l by nra. rewrite Rmult_1_r. exact Hn. }
      intros inv' Hinv' N HN.
      assert (Ei : meq inv' (full inv)).
      { rewrite <- (mmul_1_l inv'), <- Hl, <- mmul_assoc, Hinv', mmul_1_r. reflexivity. }
      assert (EN : meq N (sym M)) by (unfold N; rewrite Ei, HM; reflexivity).
      assert (Et : mtrace N = mtrace (sym M)) by (apply mtrace_proper; exact EN).
      assert (Ed : meq (mdev N) (mdev (sym M))) by (unfold mdev; rewrite Et, EN; reflexivity).
      rewrite Et, (msumsq_proper Ed) in HN. fold c in HN. destruct HN as [HN|HN]; [exfalso; lra|].
      assert (Ez : meq (madd mone E) mone).
      { unfold E. rewrite <- Ed, HN. apply meq_intro. intros i j Hi Hj. unfold madd, mscale, mzero. ring. }
      split; [split|].
      + rewrite RRt, E1, Ez. reflexivity.
      + assert (D : mdet (full Rt) * mdet (full Rt) = 1).
        { rewrite <- (mdet_T (full Rt)) at 2. rewrite <- mdet_mul.
          assert (Q : meq (mmul (full Rt) (mT (full Rt))) mone) by (rewrite RRt, E1, Ez; reflexivity). rewrite (mdet_proper Q). apply mdet_one. }
        nra.
      + rewrite (VR E E1 E2), Ez, mmul_1_l. reflexivity.
    - (* generic *)
      destruct (proj1 HC Hn) as (P0 & P1 & P2). clear HC.
      assert (Hne : forall i, (i < 3)%nat -> dot3 (v i) (v i) <> 0).
      { intros i Hi. apply nonzero_length. idx3 i; cbn [v]; [apply P0|apply P1|apply P2]. }
      assert (Heig : forall i, (i < 3)%nat -> forall n, (n < 3)%nat -> mvec (sym M) (v i) n = lam i * v i n).
      { intros i Hi n Hn'. idx3 i; cbn [v lam]; [apply P0|apply P1|apply P2]; exact Hn'. }
      assert (Horth : forall i j, (i < 3)%nat -> (j < 3)%nat -> i <> j -> dot3 (v i) (v j) = 0).
      { intros i j Hi Hj N. idx3 i; idx3 j; try (exfalso; apply N; reflexivity); cbn [v]; first [assumption|rewrite dot3_comm; assumption]. }
      assert (Hpos : forall i, (i < 3)%nat -> 0 < lam i).
      { intros i Hi. assert (Hx : exists n, (n < 3)%nat /\ v i n <> 0) by (apply nonzero_of_length, Hne, Hi).
        pose proof (Mpos (v i) Hx) as Q.
        assert (X : dot3 (v i) (mvec (sym M) (v i)) = lam i * dot3 (v i) (v i)) by (apply dot_scaled; intros n Hn'; apply Heig; assumption).
        rewrite X in Q. pose proof (dot3_nonneg (v i)). nra. }
      assert (HV2 := HV (fun i Hi => Rlt_le _ _ (Hpos i Hi))). clear HV.
      assert (E1 : meq (mmul (sym V) (mmul (sym M) (sym V))) mone) by (rewrite HV2; apply VMV; assumption).
      assert (E2 : meq (mmul (sym V) (mmul (sym V) (sym M))) mone).
      { assert (Q := right_inverse_left E1). rewrite <- mmul_assoc in Q. apply right_inverse_left in Q.
        rewrite <- mmul_assoc in Q. exact Q. }
      assert (Z : forall A, meq A mone -> meq A (madd mone mzero)).
      { intros A HA. rewrite HA. apply meq_intro. intros i j Hi Hj. unfold madd, mzero. ring. }
      assert (VP : positive_definite (sym V)).
      { intros x Hx.
        assert (Q := @V_pos (sym M) v lam Horth Hne Heig Hpos x Hx).
        match type of Q with 0 < dot3 x (mvec ?B x) => set (B0 := B) in *; replace (dot3 x (mvec (sym V) x)) with (dot3 x (mvec B0 x)) end; [exact Q|].
        rewrite !dot3_explicit, !mvec_explicit, !(meq_elim HV2) by lia. reflexivity. }
      assert (DV : 0 < mdet (sym V)).
      { rewrite (mdet_proper HV2), !mdet_mul, mdet_T.
        set (W := mdet _). assert (HW : W <> 0).
        { intro H0. pose proof (@complete v Horth Hne) as Q. apply mdet_proper in Q. rewrite mdet_one, !mdet_mul, mdet_T in Q. fold W in Q. rewrite H0 in Q. lra. }
        assert (X : 0 < mdet (mdiag (fun i => / (sqrt (lam i) * dot3 (v i) (v i))))).
        { assert (Y : forall i, (i < 3)%nat -> 0 < / (sqrt (lam i) * dot3 (v i) (v i))) by (intros i Hi; exact (@x_pos v lam Hne Hpos i Hi)).
          pose proof (Y 0%nat ltac:(lia)) as Y0. pose proof (Y 1%nat ltac:(lia)) as Y1. pose proof (Y 2%nat ltac:(lia)) as Y2.
          cbv [mdet mdiag Nat.eqb]. set (y0 := / _) in Y0. set (y1 := / _) in Y1. set (y2 := / _) in Y2. fold y0 y1 y2.
          assert (0 < y0 * y1 * y2) by (apply Rmult_lt_0_compat; [apply Rmult_lt_0_compat|]; assumption). lra. }
        assert (0 < W * W) by nra. nra. }
      assert (DR : 0 < mdet (full Rt)).
      { rewrite (mdet_proper HR), mdet_T, mdet_mul. apply Rmult_lt_0_compat; assumption. }
      split; [exact VP|]. split; [exact DR|].
      split.
      { exists mzero. split; [|split].
        - replace (msumsq mzero) with 0 by (cbv [msumsq mzero Rsum]; ring). pose proof tol_pos. lra.
        - apply VR; apply Z; assumption.
        - rewrite RRt. apply Z. exact E1. }
      intros inv' Hinv' N HN. split; [split|].
      + rewrite RRt. exact E1.
      + assert (D : mdet (full Rt) * mdet (full Rt) = 1).
        { rewrite <- (mdet_T (full Rt)) at 2. rewrite <- mdet_mul.
          assert (Q : meq (mmul (full Rt) (mT (full Rt))) mone) by (rewrite RRt; exact E1). rewrite (mdet_proper Q). apply mdet_one. }
        nra.
      + rewrite (VR mzero (Z _ E1) (Z _ E2)). rewrite <- (Z mone (reflexivity _)), mmul_1_l. reflexivity.
  Qed.
End Polar.
Transparent meq.
