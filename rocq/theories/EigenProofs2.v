(** Eigen_Sym33_NonUnit: the largest eigenvalue, and the complete decomposition. *)
From Verif Require Import Base Loops TensorModel TensorSpec TensorProofs EigenProofs.
From Coq Require Import Reals Lra Psatz Ratan.
Set Implicit Arguments.
Local Open Scope R_scope.

Lemma cos_triple x : cos (3 * x) = 4 * (cos x * cos x * cos x) - 3 * cos x.
Proof.
  replace (3 * x) with (x + x + x) by ring. rewrite !cos_plus, sin_plus.
  pose proof (sin2_cos2 x) as H. unfold Rsqr in H.
  assert (Hs : sin x * sin x = 1 - cos x * cos x) by lra.
  transitivity (cos x * cos x * cos x - 3 * (sin x * sin x) * cos x); [ring|rewrite Hs; ring].
Qed.

Lemma exact_cos3 x : 0 <= x <= 1 -> let c := cos (acos x / 3) in
  4 * (c * c * c) - 3 * c = x /\ 0 < c /\ 3 / 4 <= c * c.
Proof.
  intros Hx c. split.
  - unfold c. rewrite <- cos_triple. replace (3 * (acos x / 3)) with (acos x) by field. apply cos_acos; lra.
  - assert (Hc : sqrt 3 / 2 <= c).
    { unfold c.
      assert (H0 : 0 <= acos x <= PI / 2).
      { pose proof (acos_bound x) as Hb. split; [apply Hb|]. destruct (Rle_lt_dec (acos x) (PI / 2)) as [H|H]; [exact H|].
        exfalso. assert (cos (acos x) < 0) by (apply cos_lt_0; pose proof PI_RGT_0; lra).
        rewrite cos_acos in * by lra. lra. }
      rewrite <- cos_PI6. pose proof PI_RGT_0. apply cos_decr_1; lra. }
    assert (0 < sqrt 3) by (apply sqrt_lt_R0; lra). assert (sqrt 3 * sqrt 3 = 3) by (apply sqrt_sqrt; lra).
    split; nra.
Qed.

Section Largest.
  Variables (cos3 : R -> R) (cxx cyy czz cxy cyz czx : R).
  Hypothesis Htr : cxx + cyy + czz = 0.
  Let c2 := eigen_c2 cxx cyy czz cxy cyz czx.
  Hypothesis Hc2 : c2 < 0.
  Let det := cxx * cyy * czz + 2 * (cxy * cyz * czx) - cxx * (cyz * cyz) - cyy * (czx * czx) - czz * (cxy * cxy).
  Let T := -3 / c2.
  Let s := sqrt T.
  Let rr := 1 / 2 * det * T * s.

  (** the discriminant of a symmetric matrix is not negative *)
  Lemma discriminant : 27 * (det * det) <= 4 * (- c2 * - c2 * - c2).
  Proof.
    set (A := - c2).
    assert (HA : 0 < A) by (unfold A; lra).
    set (y i j := 2 * A * (row cxx cyy czz cxy cyz czx 0 i 0%nat * row cxx cyy czz cxy cyz czx 0 0%nat j + row cxx cyy czz cxy cyz czx 0 i 1%nat * row cxx cyy czz cxy cyz czx 0 1%nat j
        + row cxx cyy czz cxy cyz czx 0 i 2%nat * row cxx cyy czz cxy cyz czx 0 2%nat j) - (4 * (A * A) / 3) * mone i j - 3 * det * row cxx cyy czz cxy cyz czx 0 i j).
    assert (E : (2 * A / 3) * (4 * (A * A * A) - 27 * (det * det)) =
      y 0%nat 0%nat * y 0%nat 0%nat + y 1%nat 1%nat * y 1%nat 1%nat + y 2%nat 2%nat * y 2%nat 2%nat
      + 2 * (y 0%nat 1%nat * y 0%nat 1%nat) + 2 * (y 0%nat 2%nat * y 0%nat 2%nat) + 2 * (y 1%nat 2%nat * y 1%nat 2%nat)).
    { unfold y, A, c2, eigen_c2, det. cbn [row mone Nat.eqb].
      replace czz with (- cxx - cyy) by lra. field. }
    assert (0 <= (2 * A / 3) * (4 * (A * A * A) - 27 * (det * det))).
    { rewrite E. pose proof (Rle_0_sqr (y 0%nat 0%nat)). pose proof (Rle_0_sqr (y 1%nat 1%nat)). pose proof (Rle_0_sqr (y 2%nat 2%nat)).
      pose proof (Rle_0_sqr (y 0%nat 1%nat)). pose proof (Rle_0_sqr (y 0%nat 2%nat)). pose proof (Rle_0_sqr (y 1%nat 2%nat)). unfold Rsqr in *. lra. }
    fold A. nra.
  Qed.

  Lemma s_facts : 0 < s /\ s * s = T /\ 0 < T /\ T * - c2 = 3.
  Proof.
    assert (HT : 0 < T) by (unfold T, Rdiv; assert (/ c2 < 0) by (apply Rinv_lt_0_compat; exact Hc2); nra).
    split; [apply sqrt_lt_R0; exact HT|]. split; [apply sqrt_sqrt; lra|]. split; [exact HT|]. unfold T. field. lra.
  Qed.

  Lemma rr_bound : Rabs rr <= 1.
  Proof.
    destruct s_facts as (Hs & Hss & HT & HTc).
    assert (H : rr * rr <= 1).
    { assert (E : rr * rr = 1 / 4 * (det * det) * (T * T * T)) by (unfold rr; rewrite <- Hss; field).
      rewrite E. pose proof discriminant as Hd.
      assert (HT3 : 0 < T * T * T) by (apply Rmult_lt_0_compat; [apply Rmult_lt_0_compat; exact HT|exact HT]).
      assert (H1 : (- c2 * - c2 * - c2) * (T * T * T) = 27).
      { replace (- c2 * - c2 * - c2 * (T * T * T)) with ((T * - c2) * (T * - c2) * (T * - c2)) by ring. rewrite HTc. ring. }
      assert (H2 : 27 * (det * det) * (T * T * T) <= 4 * (- c2 * - c2 * - c2) * (T * T * T)) by (apply Rmult_le_compat_r; lra).
      nra. }
    apply Rabs_le. split; nra.
  Qed.

  Let c := cos3 (Rabs rr).
  Lemma largest_value : let l := eigen_largest cos3 cxx cyy czz cxy cyz czx in
    exists sg, (sg = 1 \/ sg = -1) /\ sg * Rabs rr = rr /\ l = 2 * sg * c / s /\ (sg = if Rlt_dec rr 0 then -1 else 1).
  Proof.
    unfold eigen_largest. fold c2.
    replace (- (1 / 2) * (cxx * (cyz * cyz) + cyy * (czx * czx) - 2 * cxy * cyz * czx + czz * (cxy * cxy - cxx * cyy)) * (-3 / c2) * sqrt (-3 / c2))
      with rr by (unfold rr, det; fold T; fold s; ring).
    fold T; fold s.
    assert (Em : minimum (Rabs rr) 1 = Rabs rr).
    { unfold minimum. pose proof rr_bound. destruct (Rlt_dec _ _); lra. }
    rewrite Em. fold c. cbv zeta.
    destruct (sign_cases c rr) as [[H ->]|[H ->]].
    - exists 1. split; [left; reflexivity|]. split; [rewrite Rabs_right; lra|split; [unfold Rdiv; ring|destruct (Rlt_dec rr 0); lra]].
    - exists (-1). split; [right; reflexivity|]. split; [rewrite Rabs_left; lra|split; [unfold Rdiv; ring|destruct (Rlt_dec rr 0); lra]].
  Qed.

  (** residual of the characteristic equation *)
  Lemma largest_residual : let l := eigen_largest cos3 cxx cyy czz cxy cyz czx in
    exists sg, (sg = 1 \/ sg = -1) /\
    mdet (row cxx cyy czz cxy cyz czx l) = - (2 * sg * (4 * (c * c * c) - 3 * c - Rabs rr)) / (s * s * s) /\ l = 2 * sg * c / s.
  Proof.
    destruct largest_value as (sg & Hsg & Hrr & Hl & _). intro l. fold l in Hl. exists sg. split; [exact Hsg|].
    split; [|exact Hl].
    destruct s_facts as (Hs & Hss & HT & HTc).
    assert (E : mdet (row cxx cyy czz cxy cyz czx l) = - (l * l * l) - c2 * l + det).
    { unfold mdet, c2, eigen_c2, det. cbn [row]. replace czz with (- cxx - cyy) by lra. ring. }
    rewrite E, Hl.
    assert (Hd : det = 2 * (sg * Rabs rr) / (s * s * s)).
    { rewrite Hrr. unfold rr. rewrite <- Hss. field. lra. }
    assert (Hc : c2 = -3 / (s * s)).
    { rewrite Hss. unfold T. field. lra. }
    rewrite Hd, Hc. assert (Hg : sg * sg = 1) by (destruct Hsg; subst; ring).
    transitivity (- (sg * sg) * sg * 8 * (c * c * c) / (s * s * s) + 6 * sg * c / (s * s * s) + 2 * (sg * Rabs rr) / (s * s * s)).
    - field. lra.
    - rewrite Hg. field. lra.
  Qed.
End Largest.

Definition good_cos3 (cos3 : R -> R) : Prop := forall x, 0 <= x <= 1 ->
  4 * (cos3 x * cos3 x * cos3 x) - 3 * cos3 x = x /\ 0 < cos3 x /\ 3 / 4 <= cos3 x * cos3 x.

Lemma perm3_dot_cross (D : mat3) i j m : perm3 i j m -> mdet D = 0 -> symmetric D ->
  forall n, (n < 3)%nat -> dot3 (D n) (cross (D i) (D j)) = 0.
Proof.
  intros P Hd (S1 & S2 & S3) n Hn. unfold mdet in Hd.
  unfold perm3 in P. destruct P as [P|[P|[P|[P|[P|P]]]]]; injection P as -> -> ->; idx3 n; rewrite dot3_explicit; cbn [cross];
  first [ring | rewrite <- Hd; ring | rewrite <- Ropp_0, <- Hd; ring].
Qed.

Lemma off_cross k r n : (n < 3)%nat -> cross k (off k r) n = cross k r n.
Proof. intros Hn. idx3 n; cbn [cross]; unfold off; ring. Qed.

Lemma off_zero k r : dot3 (off k r) (off k r) = 0 -> forall n, (n < 3)%nat -> r n = (dot3 k r / dot3 k k) * k n.
Proof. intros H n Hn. pose proof (@dot3_zero _ H _ Hn) as E. unfold off in E. lra. Qed.

Lemma rank_one cxx cyy czz cxy cyz czx l i j m b g :
  let D := row cxx cyy czz cxy cyz czx l in
  perm3 i j m -> (forall n, (n < 3)%nat -> D j n = b * D i n) -> (forall n, (n < 3)%nat -> D m n = g * D i n) ->
  (cxx - l) * (cyy - l) + (cyy - l) * (czz - l) + (czz - l) * (cxx - l) - cxy * cxy - cyz * cyz - czx * czx = 0.
Proof.
  intros D P Hj Hm.
  pose proof (Hj 0%nat ltac:(lia)) as J0. pose proof (Hj 1%nat ltac:(lia)) as J1. pose proof (Hj 2%nat ltac:(lia)) as J2.
  pose proof (Hm 0%nat ltac:(lia)) as M0. pose proof (Hm 1%nat ltac:(lia)) as M1. pose proof (Hm 2%nat ltac:(lia)) as M2.
  clear Hj Hm. unfold perm3 in P. destruct P as [P|[P|[P|[P|[P|P]]]]]; injection P as -> -> ->; unfold D in *; cbn [row] in *; clear D;
  set (x := cxx - l) in *; set (y := cyy - l) in *; set (z := czz - l) in *; clearbody x y z.
  - rewrite J1, M2. rewrite J0, M0, M1. rewrite J0. ring.
  - rewrite J2, M1. rewrite M0, J0, J1. rewrite M0. ring.
  - rewrite J0, M2. rewrite M1, J1, M0. rewrite J1. ring.
  - rewrite J2, M0. rewrite J1, M1, J0. rewrite M1. ring.
  - rewrite J0, M1. rewrite J2, M2, M0. rewrite J2. ring.
  - rewrite J1, M0. rewrite J2, M2, J0. rewrite M2. ring.
Qed.

Lemma nonzero_of_length v : dot3 v v <> 0 -> exists n, (n < 3)%nat /\ v n <> 0.
Proof.
  intros H. rewrite dot3_explicit in H.
  destruct (Req_EM_T (v 0%nat) 0) as [E0|N0]; [|exists 0%nat; split; [lia|exact N0]].
  destruct (Req_EM_T (v 1%nat) 0) as [E1|N1]; [|exists 1%nat; split; [lia|exact N1]].
  destruct (Req_EM_T (v 2%nat) 0) as [E2|N2]; [|exists 2%nat; split; [lia|exact N2]].
  exfalso. apply H. rewrite E0, E1, E2. ring.
Qed.

Lemma eigenpair_ext M l v v' : (forall n, (n < 3)%nat -> v n = v' n) -> eigenpair M l v' -> eigenpair M l v.
Proof.
  intros E [(n & Hn & H) Hv]. split.
  - exists n. split; [exact Hn|rewrite E by exact Hn; exact H].
  - intros k Hk. rewrite mvec_explicit in *. rewrite !E by lia. specialize (Hv k Hk). rewrite mvec_explicit in Hv. exact Hv.
Qed.

Section Complete.
  Variables (cos3 : R -> R) (junk e0 e1 e2 : arr) (cxx cyy czz cxy cyz czx : R).
  Hypothesis (Hcos : good_cos3 cos3) (Htr : cxx + cyy + czz = 0).
  Hypothesis Hc2 : eigen_c2 cxx cyy czz cxy cyz czx < 0.
  Let C := row cxx cyy czz cxy cyz czx 0.
  Let l := eigen_largest cos3 cxx cyy czz cxy cyz czx.
  Let D := row cxx cyy czz cxy cyz czx l.

  Lemma D_det : mdet D = 0 /\ - eigen_c2 cxx cyy czz cxy cyz czx <= l * l.
  Proof.
    destruct (largest_residual cos3 Htr Hc2) as (sg & Hsg & Hd & Hl).
    fold l in Hd, Hl. fold D in Hd.
    destruct (s_facts Hc2) as (Hs & Hss & HT & HTc).
    pose proof (rr_bound Htr Hc2) as Hb.
    set (c := cos3 _) in *. set (s := sqrt _) in *. set (rr := Rabs _) in *.
    destruct (Hcos (conj (Rabs_pos _) Hb)) as (H1 & H2 & H3). fold rr in H1, H2, H3. fold c in H1, H2, H3.
    split.
    - rewrite Hd, H1. unfold Rdiv. ring.
    - set (c2 := eigen_c2 _ _ _ _ _ _) in *.
      assert (E : l * l = 4 * (c * c) * (sg * sg) / (s * s)) by (rewrite Hl; field; lra).
      rewrite Hss in E. assert (Hg : sg * sg = 1) by (destruct Hsg; subst sg; ring). rewrite Hg in E.
      assert (E2 : l * l = 4 * (c * c) * (- c2) / 3) by (rewrite E; field; lra).
      rewrite E2. nra.
  Qed.

  Lemma symD : symmetric D.
  Proof. unfold symmetric, D; cbn [row]; auto. Qed.
  Lemma symC : symmetric C.
  Proof. unfold symmetric, C; cbn [row]; auto. Qed.

  Lemma pivot_nonzero i j m : perm3 i j m -> dot3 (D j) (D j) <= dot3 (D i) (D i) -> dot3 (D m) (D m) <= dot3 (D i) (D i) -> dot3 (D i) (D i) <> 0.
  Proof.
    intros P Hj Hm H0.
    assert (Z : forall n k, (n < 3)%nat -> (k < 3)%nat -> D n k = 0).
    { intros n k Hn Hk. apply (@dot3_zero (D n)); [|exact Hk].
      pose proof (dot3_nonneg (D j)). pose proof (dot3_nonneg (D m)).
      unfold perm3 in P. destruct P as [P|[P|[P|[P|[P|P]]]]]; injection P as -> -> ->; idx3 n; lra. }
    pose proof (Z 0%nat 0%nat ltac:(lia) ltac:(lia)) as Z00. pose proof (Z 1%nat 1%nat ltac:(lia) ltac:(lia)) as Z11. pose proof (Z 2%nat 2%nat ltac:(lia) ltac:(lia)) as Z22.
    pose proof (Z 0%nat 1%nat ltac:(lia) ltac:(lia)) as Z01. pose proof (Z 0%nat 2%nat ltac:(lia) ltac:(lia)) as Z02. pose proof (Z 1%nat 2%nat ltac:(lia) ltac:(lia)) as Z12.
    unfold D in *; cbn [row] in *. unfold eigen_c2 in Hc2.
    assert (l = 0) by lra. replace cxx with 0 in Hc2 by lra. replace cyy with 0 in Hc2 by lra. replace czz with 0 in Hc2 by lra.
    rewrite Z01, Z02, Z12 in Hc2. lra.
  Qed.

  Lemma second_nonzero i j m : perm3 i j m -> dot3 (D i) (D i) <> 0 ->
    dot3 (off (D i) (D m)) (off (D i) (D m)) <= dot3 (off (D i) (D j)) (off (D i) (D j)) ->
    dot3 (off (D i) (D j)) (off (D i) (D j)) <> 0.
  Proof.
    intros P Hi Hle H0.
    assert (H1 : dot3 (off (D i) (D m)) (off (D i) (D m)) = 0) by (pose proof (dot3_nonneg (off (D i) (D m))); lra).
    pose proof (rank_one _ _ _ _ _ _ _ P (@off_zero _ _ H0) (@off_zero _ _ H1)) as E.
    destruct D_det as [_ Hl]. unfold eigen_c2 in Hc2, Hl.
    assert (E2 : cxx * cyy + cyy * czz + czz * cxx - cxy * cxy - cyz * cyz - czx * czx = - 3 * (l * l)).
    { replace czz with (- cxx - cyy) in * by lra. lra. }
    rewrite E2 in Hc2, Hl. nra.
  Qed.

  (** what the two selected rows give *)
  Lemma selected k a kk aa : forall r2 r3,
    eigen_pick junk cxx cyy czz cxy cyz czx l = (k, r2, r3, kk) -> eigen_orth junk k r2 r3 kk = (a, aa) ->
    dot3 k k <> 0 /\ dot3 a a <> 0 /\ dot3 k a = 0 /\ kk = / dot3 k k /\ aa = / dot3 a a /\
    forall n, (n < 3)%nat -> mvec C (cross k a) n = l * cross k a n.
  Proof.
    intros r2 r3 Ep Eo.
    pose proof (pick_spec junk cxx cyy czz cxy cyz czx l) as P. cbv zeta in P. fold D in P. rewrite Ep in P.
    destruct P as (i & j & m & P & Hk & H2 & H3 & Hkk & Hj & Hm).
    assert (Hi := pivot_nonzero P Hj Hm).
    assert (G : exists j' m', perm3 i j' m' /\ dot3 (off (D i) (D m')) (off (D i) (D m')) <= dot3 (off (D i) (D j')) (off (D i) (D j')) /\
      (forall n, (n < 3)%nat -> a n = off (D i) (D j') n) /\ aa = / dot3 (off (D i) (D j')) (off (D i) (D j'))).
    { destruct (orth_spec junk (k := D i) (D j) (D m) Hkk _ _ _ Hk H2 H3) as [(H & Ha & Haa)|(H & Ha & Haa)]; rewrite Eo in Ha, Haa; cbn [fst snd] in Ha, Haa.
      - exists m, j. split; [|split; [exact H|split; assumption]].
        clear - P. unfold perm3 in *. destruct P as [P|[P|[P|[P|[P|P]]]]]; injection P as -> -> ->; tauto.
      - exists j, m. split; [exact P|]. split; [exact H|split; assumption]. }
    clear j m P H2 H3 Hj Hm. destruct G as (j & m & P & Hle & Ha & Haa).
    assert (Hj := second_nonzero P Hi Hle).
    assert (Edkk : dot3 k k = dot3 (D i) (D i)) by (apply dot3_ext; exact Hk).
    assert (Edaa : dot3 a a = dot3 (off (D i) (D j)) (off (D i) (D j))) by (apply dot3_ext; exact Ha).
    rewrite Edkk, Edaa.
    split; [exact Hi|]. split; [exact Hj|].
    split; [rewrite (@dot3_ext _ _ _ _ Hk Ha); apply off_orth; exact Hi|].
    split; [exact Hkk|]. split; [exact Haa|].
    assert (Ex : forall n, (n < 3)%nat -> cross k a n = cross (D i) (D j) n).
    { intros n Hn. rewrite <- (off_cross (D i) (D j) Hn). idx3 n; cbn [cross]; rewrite !Hk, !Ha by lia; reflexivity. }
    intros n Hn. rewrite mvec_explicit, !Ex by lia.
    pose proof (@perm3_dot_cross D i j m P (proj1 D_det) symD n Hn) as Z. rewrite dot3_explicit in Z.
    assert (En : forall q, (q < 3)%nat -> C n q = D n q + l * mone n q).
    { intros q Hq. unfold C, D. idx3 n; idx3 q; cbn [row mone Nat.eqb]; ring. }
    rewrite !En by lia. unfold mone.
    idx3 n; cbn [Nat.eqb]; set (x := cross (D i) (D j)) in *; lra.
  Qed.

  (** the 2x2 problem and the two remaining vectors *)
  Lemma reduced_complete k a kk aa : dot3 k k <> 0 -> dot3 a a <> 0 -> dot3 k a = 0 -> kk = / dot3 k k -> aa = / dot3 a a ->
    (forall n, (n < 3)%nat -> mvec C (cross k a) n = l * cross k a n) ->
    let '(m0, m1, f1, f2, bz) := eigen_reduced cxx cyy czz cxy cyz czx k a kk aa in
    let v2 := eigen_vec2 k a e2 in
    let v0 := eigen_vec0 k a f1 f2 bz e0 in
    let v1 := eigen_vec1 v2 v0 e1 in
    eigenpair C m0 v0 /\ eigenpair C m1 v1 /\ eigenpair C l v2.
  Proof.
    intros Hk Ha Hka Hkk Haa HE.
    unfold eigen_reduced.
    set (p := (k 0%nat * (cxx * k 0%nat + cxy * k 1%nat + czx * k 2%nat) + k 1%nat * (cxy * k 0%nat + cyy * k 1%nat + cyz * k 2%nat) + k 2%nat * (czx * k 0%nat + cyz * k 1%nat + czz * k 2%nat)) * kk).
    set (r := (a 0%nat * (cxx * a 0%nat + cxy * a 1%nat + czx * a 2%nat) + a 1%nat * (cxy * a 0%nat + cyy * a 1%nat + cyz * a 2%nat) + a 2%nat * (czx * a 0%nat + cyz * a 1%nat + czz * a 2%nat)) * aa).
    set (q := k 0%nat * (cxx * a 0%nat + cxy * a 1%nat + czx * a 2%nat) + k 1%nat * (cxy * a 0%nat + cyy * a 1%nat + cyz * a 2%nat) + k 2%nat * (czx * a 0%nat + cyz * a 1%nat + czz * a 2%nat)).
    assert (Ep : p = dot3 k (mvec C k) / dot3 k k).
    { unfold p. rewrite Hkk, (dot3_explicit k (mvec C k)), !mvec_explicit. unfold C; cbn [row]. unfold Rdiv. ring. }
    assert (Er : r = dot3 a (mvec C a) / dot3 a a).
    { unfold r. rewrite Haa, (dot3_explicit a (mvec C a)), !mvec_explicit. unfold C; cbn [row]. unfold Rdiv. ring. }
    assert (Eq : q = dot3 k (mvec C a)).
    { unfold q. rewrite (dot3_explicit k (mvec C a)), !mvec_explicit. unfold C; cbn [row]. ring. }
    clearbody p r q.
    set (qq := q * q * aa * kk).
    set (b := 1 / 2 * (p - r)). set (sq := multiply_sign (sqrt (b * b + qq)) b). set (m0 := r + b - sq).
    assert (Kpos : 0 < dot3 k k) by (pose proof (dot3_nonneg k); lra).
    assert (Apos : 0 < dot3 a a) by (pose proof (dot3_nonneg a); lra).
    assert (Hqq : 0 <= qq).
    { unfold qq. rewrite Hkk, Haa. assert (0 < / dot3 k k) by (apply Rinv_0_lt_compat; exact Kpos).
      assert (0 < / dot3 a a) by (apply Rinv_0_lt_compat; exact Apos).
      apply Rmult_le_pos; [apply Rmult_le_pos; [apply Rle_0_sqr|lra]|lra]. }
    destruct (@reduced_spec p r 0 qq m0 b sq Hqq eq_refl eq_refl eq_refl) as (R1 & R2 & R3 & _).
    destruct (Rlt_dec ((p - m0) * (p - m0)) ((r - m0) * (r - m0))) as [Hx|_]; [contradiction|].
    (* the vector evec2 *)
    assert (V2 : forall n, (n < 3)%nat -> eigen_vec2 k a e2 n = cross k a n) by (intros n Hn; idx3 n; reflexivity).
    assert (P2 : eigenpair C l (eigen_vec2 k a e2)).
    { apply eigenpair_ext with (1 := V2). split; [|exact HE]. apply nonzero_of_length.
      rewrite cross_length, Hka. intro H. assert (dot3 k k * dot3 a a = 0) as H' by lra. apply Rmult_integral in H'. tauto. }
    set (v2 := eigen_vec2 k a e2) in *.
    assert (V1 : forall v0 n, (n < 3)%nat -> eigen_vec1 v2 v0 e1 n = cross v2 v0 n) by (intros v0 n Hn; idx3 n; reflexivity).
    assert (X1 : forall v0 v0', (forall n, (n < 3)%nat -> v0 n = v0' n) -> forall n, (n < 3)%nat -> eigen_vec1 v2 v0 e1 n = cross (cross k a) v0' n).
    { intros v0 v0' E n Hn. rewrite V1 by exact Hn. idx3 n; cbn [cross]; rewrite !V2, !E by lia; reflexivity. }
    assert (Hmu : (dot3 k (mvec C k) / dot3 k k - m0) * (dot3 a (mvec C a) / dot3 a a - m0) = dot3 k (mvec C a) * dot3 k (mvec C a) / (dot3 a a * dot3 k k)).
    { rewrite <- Ep, <- Er, <- Eq, R1. unfold qq. rewrite Hkk, Haa. field. split; assumption. }
    destruct (Req_EM_T ((p - m0) * (p - m0)) 0) as [Z1|Z1]; [destruct (Req_EM_T qq 0) as [Z2|Z2]|]; cbn [andb].
    - (* degenerate: evec0 is a *)
      destruct (R3 Z1 Z2) as [Zp Zr].
      assert (Zq : q = 0).
      { unfold qq in Z2. rewrite Hkk, Haa in Z2. assert (q * q = 0).
        { apply (Rmult_eq_reg_r (/ dot3 a a * / dot3 k k)); [lra|]. apply Rmult_integral_contrapositive_currified; apply Rinv_neq_0_compat; assumption. }
        nra. }
      assert (V0 : forall n, (n < 3)%nat -> eigen_vec0 k a (p - m0) (kk * q) true e0 n = a n) by (intros n Hn; idx3 n; reflexivity).
      assert (Ca0 : forall n, (n < 3)%nat -> mvec C a n = m0 * a n).
      { intros n Hn. rewrite (@Ca C k a l symC Hk Ha Hka HE n Hn), <- Eq, <- Er, Zq, Zr. unfold Rdiv. ring. }
      assert (Ck0 : forall n, (n < 3)%nat -> mvec C k n = m0 * k n).
      { intros n Hn. rewrite (@Ck C k a l symC Hk Ha Hka HE n Hn), <- Eq, <- Ep, Zq, Zp. unfold Rdiv. ring. }
      assert (Xk : forall n, (n < 3)%nat -> cross (cross k a) a n = - (dot3 a a) * k n).
      { intros n Hn. rewrite !dot3_explicit in *. idx3 n; cbn [cross].
        - transitivity (- (a 0%nat * a 0%nat + a 1%nat * a 1%nat + a 2%nat * a 2%nat) * k 0%nat + (k 0%nat * a 0%nat + k 1%nat * a 1%nat + k 2%nat * a 2%nat) * a 0%nat); [ring|rewrite Hka; ring].
        - transitivity (- (a 0%nat * a 0%nat + a 1%nat * a 1%nat + a 2%nat * a 2%nat) * k 1%nat + (k 0%nat * a 0%nat + k 1%nat * a 1%nat + k 2%nat * a 2%nat) * a 1%nat); [ring|rewrite Hka; ring].
        - transitivity (- (a 0%nat * a 0%nat + a 1%nat * a 1%nat + a 2%nat * a 2%nat) * k 2%nat + (k 0%nat * a 0%nat + k 1%nat * a 1%nat + k 2%nat * a 2%nat) * a 2%nat); [ring|rewrite Hka; ring]. }
      split; [|split; [|exact P2]].
      + apply eigenpair_ext with (1 := V0). split; [apply nonzero_of_length; exact Ha|exact Ca0].
      + apply eigenpair_ext with (1 := X1 _ _ V0). apply eigenpair_ext with (1 := Xk). split.
        * apply nonzero_of_length. intro H. apply Hk. rewrite dot3_explicit in H. rewrite !dot3_explicit in *.
          set (x := a 0%nat * a 0%nat + a 1%nat * a 1%nat + a 2%nat * a 2%nat) in *.
          assert (H' : (x * x) * (k 0%nat * k 0%nat + k 1%nat * k 1%nat + k 2%nat * k 2%nat) = 0) by lra.
          apply Rmult_integral in H'. destruct H' as [H'|H']; [|exact H']. exfalso. nra.
        * intros n Hn. pose proof (Ck0 n Hn) as E. rewrite mvec_explicit in *.
          transitivity (- dot3 a a * (m0 * k n)); [rewrite <- E; ring|]. rewrite Zp, Zr. ring.
    - exfalso. apply Z2. assert (E : p - m0 = 0) by nra. rewrite E in R1. lra.
    - (* the generic case *)
      assert (V0 : forall n, (n < 3)%nat -> eigen_vec0 k a (p - m0) (kk * q) false e0 n = (dot3 k (mvec C k) / dot3 k k - m0) * a n - dot3 k (mvec C a) / dot3 k k * k n).
      { intros n Hn. rewrite <- Ep, <- Eq. rewrite Hkk. unfold Rdiv. idx3 n; cbv [eigen_vec0 upd Nat.eqb]; ring. }
      split; [|split; [|exact P2]].
      + apply eigenpair_ext with (1 := V0). split.
        * apply nonzero_of_length. rewrite (@v_length C k a Hk Ha Hka m0). rewrite <- Ep, <- Eq.
          assert (Hp : p - m0 <> 0) by (intro E; apply Z1; rewrite E; ring).
          assert (0 < (p - m0) * (p - m0)) by nra.
          assert (0 <= q / dot3 k k * (q / dot3 k k)) by nra.
          assert (0 < (p - m0) * (p - m0) * dot3 a a) by (apply Rmult_lt_0_compat; assumption).
          nra.
        * intros n Hn. exact (@reduced_v C k a l symC Hk Ha Hka HE m0 Hmu n Hn).
      + apply eigenpair_ext with (1 := X1 _ _ V0). split.
        * apply nonzero_of_length. rewrite cross_length, cross_length, Hka, (@v_length C k a Hk Ha Hka m0).
          assert (Z : dot3 (cross k a) (fun n : nat => (dot3 k (mvec C k) / dot3 k k - m0) * a n - dot3 k (mvec C a) / dot3 k k * k n) = 0).
          { rewrite dot3_explicit. cbn [cross]. ring. }
          rewrite Z. rewrite <- Ep, <- Eq.
          assert (Hp : p - m0 <> 0) by (intro E; apply Z1; rewrite E; ring).
          assert (0 < (p - m0) * (p - m0)) by nra.
          assert (0 <= q / dot3 k k * (q / dot3 k k)) by nra.
          assert (0 < (p - m0) * (p - m0) * dot3 a a) by (apply Rmult_lt_0_compat; assumption).
          assert (0 <= q / dot3 k k * (q / dot3 k k) * dot3 k k) by nra.
          assert (0 < dot3 k k * dot3 a a) by (apply Rmult_lt_0_compat; assumption).
          nra.
        * intros n Hn. rewrite (@reduced_w C k a l symC Hk Ha Hka HE m0 Hmu n Hn). rewrite <- Ep, <- Er. reflexivity.
  Qed.
End Complete.

(** orthogonality needs nothing about the helper *)

Lemma finish_spec c1 c2 m0 m1 m2 v0 v1 v2 :
  let e := eigen_finish c1 c2 m0 m1 m2 v0 v1 v2 in
  (c2 < c1 * c1 * - / 10 ^ 30 /\ eval0 e = m0 + c1 /\ eval1 e = m1 + c1 /\ eval2 e = m2 + c1 /\
     (forall n, (n < 3)%nat -> evec0 e n = v0 n) /\ (forall n, (n < 3)%nat -> evec1 e n = v1 n) /\ (forall n, (n < 3)%nat -> evec2 e n = v2 n)) \/
  (c1 * c1 * - / 10 ^ 30 <= c2 /\ eval0 e = c1 /\ eval1 e = c1 /\ eval2 e = c1 /\
     (forall n, (n < 3)%nat -> evec0 e n = mone 0%nat n) /\ (forall n, (n < 3)%nat -> evec1 e n = mone 1%nat n) /\ (forall n, (n < 3)%nat -> evec2 e n = mone 2%nat n)).
Proof.
  unfold eigen_finish. destruct (Rlt_dec _ _) as [H|H]; [left|right]; cbn [eval0 eval1 eval2 evec0 evec1 evec2];
  (split; [lra|]); (split; [reflexivity|]); (split; [reflexivity|]); (split; [reflexivity|]); split; [|split| |split]; intros n Hn; idx3 n; reflexivity.
Qed.

Lemma eigen_orthogonal cos3 junk t e0 e1 e2 :
  let e := eigen_sym33_with cos3 junk t e0 e1 e2 in pairwise_orthogonal (evec0 e) (evec1 e) (evec2 e).
Proof.
  cbv zeta. unfold eigen_sym33_with.
  set (c1 := (t K_S_XX + t K_S_YY + t K_S_ZZ) / 3).
  set (cxx := t K_S_XX - c1). set (cyy := t K_S_YY - c1). set (czz := t K_S_ZZ - c1).
  set (l := eigen_largest _ _ _ _ _ _ _).
  destruct (eigen_pick _ _ _ _ _ _ _ _) as [[[k r2] r3] kk].
  destruct (eigen_orth _ _ _ _ _) as [a aa].
  destruct (eigen_reduced _ _ _ _ _ _ _ _ _ _) as [[[[m0 m1] f1] f2] bz].
  set (v0 := eigen_vec0 _ _ _ _ _ _). set (v2 := eigen_vec2 k a e2). set (v1 := eigen_vec1 _ _ _).
  pose proof (finish_spec c1 (eigen_c2 cxx cyy czz (t K_S_XY) (t K_S_YZ) (t K_S_ZX)) m0 m1 l v0 v1 v2) as F.
  destruct F as [(_ & _ & _ & _ & F0 & F1 & F2)|(_ & _ & _ & _ & F0 & F1 & F2)]; unfold pairwise_orthogonal;
    rewrite (@dot3_ext _ _ _ _ F0 F1), (@dot3_ext _ _ _ _ F0 F2), (@dot3_ext _ _ _ _ F1 F2).
  - rewrite !dot3_explicit. unfold v1, v0, v2. destruct bz; cbv [eigen_vec0 eigen_vec1 eigen_vec2 upd Nat.eqb K_X K_Y K_Z]; repeat split; ring.
  - rewrite !dot3_explicit. unfold mone. cbn [Nat.eqb]. repeat split; ring.
Qed.

(** the scalars of the tensor that decide between the two branches *)
Definition mean (t : arr) : R := (t 0%nat + t 1%nat + t 2%nat) / 3.
Definition dev (t : arr) : mat3 := msub (sym t) (mscale (mean t) mone).

Lemma dev_row t : let c1 := mean t in meq (dev t) (row (t 0%nat - c1) (t 1%nat - c1) (t 2%nat - c1) (t 3%nat) (t 4%nat) (t 5%nat) 0).
Proof. intros c1 i j Hi Hj. unfold dev, msub, mscale, sym, mone. fold c1. idx3 i; idx3 j; cbn [sym_index Nat.eqb row]; ring. Qed.

Lemma shift_pair t l v : let c1 := mean t in
  eigenpair (row (t 0%nat - c1) (t 1%nat - c1) (t 2%nat - c1) (t 3%nat) (t 4%nat) (t 5%nat) 0) l v -> eigenpair (sym t) (l + c1) v.
Proof.
  intros c1 [H1 H2]. split; [exact H1|]. intros n Hn. specialize (H2 n Hn). rewrite mvec_explicit in *. unfold sym.
  idx3 n; cbn [row sym_index] in *; lra.
Qed.


Lemma eigen_complete cos3 junk t e0 e1 e2 : good_cos3 cos3 ->
  let e := eigen_sym33_with cos3 junk t e0 e1 e2 in
  (2 / 10 ^ 30 * (mean t * mean t) < msumsq (dev t) ->
    eigenpair (sym t) (eval0 e) (evec0 e) /\ eigenpair (sym t) (eval1 e) (evec1 e) /\ eigenpair (sym t) (eval2 e) (evec2 e)) /\
  (msumsq (dev t) <= 2 / 10 ^ 30 * (mean t * mean t) ->
    eval0 e = mean t /\ eval1 e = mean t /\ eval2 e = mean t /\
    forall n, (n < 3)%nat -> evec0 e n = mone 0%nat n /\ evec1 e n = mone 1%nat n /\ evec2 e n = mone 2%nat n).
Proof.
  intros Hcos. cbv zeta. unfold eigen_sym33_with.
  change ((t K_S_XX + t K_S_YY + t K_S_ZZ) / 3) with (mean t).
  set (c1 := mean t).
  set (cxx := t K_S_XX - c1). set (cyy := t K_S_YY - c1). set (czz := t K_S_ZZ - c1).
  change (t K_S_XY) with (t 3%nat). change (t K_S_YZ) with (t 4%nat). change (t K_S_ZX) with (t 5%nat).
  set (cxy := t 3%nat). set (cyz := t 4%nat). set (czx := t 5%nat).
  set (c2 := eigen_c2 _ _ _ _ _ _).
  assert (Htr : cxx + cyy + czz = 0) by (unfold cxx, cyy, czz, c1, mean, K_S_XX, K_S_YY, K_S_ZZ; field).
  assert (Hs : msumsq (dev t) = - 2 * c2).
  { transitivity (cxx * cxx + cyy * cyy + czz * czz + 2 * (cxy * cxy) + 2 * (cyz * cyz) + 2 * (czx * czx)).
    - unfold msumsq. pose proof (dev_row t) as Hd. cbv zeta in Hd. cbv [Rsum]. rewrite !Hd by lia. cbn [row].
      unfold cxx, cyy, czz, cxy, cyz, czx, c1, K_S_XX, K_S_YY, K_S_ZZ. ring.
    - unfold c2, eigen_c2. replace czz with (- cxx - cyy) by lra. ring. }
  set (l := eigen_largest _ _ _ _ _ _ _).
  destruct (eigen_pick _ _ _ _ _ _ _ _) as [[[k r2] r3] kk] eqn:Epick.
  destruct (eigen_orth _ _ _ _ _) as [a aa] eqn:Eorth.
  destruct (eigen_reduced _ _ _ _ _ _ _ _ _ _) as [[[[m0 m1] f1] f2] bz] eqn:Ered.
  set (v0 := eigen_vec0 _ _ _ _ _ _). set (v2 := eigen_vec2 k a e2). set (v1 := eigen_vec1 _ _ _).
  destruct (finish_spec c1 c2 m0 m1 l v0 v1 v2) as [(H & E0 & E1 & E2 & F0 & F1 & F2)|(H & E0 & E1 & E2 & F0 & F1 & F2)].
  - split; [|intro H'; exfalso; lra]. intros _. rewrite E0, E1, E2.
    assert (Hc2 : c2 < 0).
    { assert (0 < / 10 ^ 30) by (apply Rinv_0_lt_compat, pow_lt; lra). assert (0 <= c1 * c1) by nra. nra. }
    destruct (@selected cos3 junk cxx cyy czz cxy cyz czx Hcos Htr Hc2 k a kk aa r2 r3 Epick Eorth) as (S1 & S2 & S3 & S4 & S5 & S6).
    pose proof (@reduced_complete cos3 e0 e1 e2 cxx cyy czz cxy cyz czx k a kk aa S1 S2 S3 S4 S5 S6) as P.
    rewrite Ered in P. fold v2 v0 v1 l in P. destruct P as (P0 & P1 & P2).
    split; [|split].
    + apply eigenpair_ext with (1 := F0). apply shift_pair. exact P0.
    + apply eigenpair_ext with (1 := F1). apply shift_pair. exact P1.
    + apply eigenpair_ext with (1 := F2). apply shift_pair. exact P2.
  - split; [intro H'; exfalso; lra|]. intros _. rewrite E0, E1, E2. repeat (split; [reflexivity|]).
    intros n Hn. rewrite F0, F1, F2 by exact Hn. auto.
Qed.
