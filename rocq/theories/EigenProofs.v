(** Proofs about Eigen_Sym33_NonUnit. *)
From Verif Require Import Base Loops TensorModel TensorSpec TensorProofs.
From Coq Require Import Reals Lra Psatz Ratan.
Set Implicit Arguments.
Local Open Scope R_scope.


(** ** The pivoting step *)
Definition row (cxx cyy czz cxy cyz czx l : R) (i : nat) : arr := fun n =>
  match i, n with
  | 0, 0 => (cxx - l)%R | 0, 1 => cxy | 0, 2 => czx
  | 1, 0 => cxy | 1, 1 => (cyy - l)%R | 1, 2 => cyz
  | 2, 0 => czx | 2, 1 => cyz | 2, 2 => (czz - l)%R
  | _, _ => 0%R
  end%nat.

Definition perm3 (i j l : nat) : Prop :=
  (i, j, l) = (0, 1, 2)%nat \/ (i, j, l) = (0, 2, 1)%nat \/ (i, j, l) = (1, 0, 2)%nat \/
  (i, j, l) = (1, 2, 0)%nat \/ (i, j, l) = (2, 0, 1)%nat \/ (i, j, l) = (2, 1, 0)%nat.

Definition off (k r : arr) : arr := fun n => r n - (dot3 k r / dot3 k k) * k n.

Lemma dot3_ext u u' v v' : (forall n, (n < 3)%nat -> u n = u' n) -> (forall n, (n < 3)%nat -> v n = v' n) -> dot3 u v = dot3 u' v'.
Proof. intros H1 H2. unfold dot3. apply Rsum_ext. intros k Hk. rewrite H1, H2 by lia. reflexivity. Qed.

Lemma dot3_explicit u v : dot3 u v = u 0%nat * v 0%nat + u 1%nat * v 1%nat + u 2%nat * v 2%nat.
Proof. cbv [dot3 Rsum]. ring. Qed.

Lemma dot3_nonneg u : 0 <= dot3 u u.
Proof. rewrite dot3_explicit. nra. Qed.

Lemma dot3_zero u : dot3 u u = 0 -> forall n, (n < 3)%nat -> u n = 0.
Proof.
  rewrite dot3_explicit. intros H.
  assert (u 0%nat = 0) by nra. assert (u 1%nat = 0) by nra. assert (u 2%nat = 0) by nra.
  intros n Hn; idx3 n; assumption.
Qed.


Lemma orth_spec junk k (r2 r3 : arr) kk :
  kk = / dot3 k k ->
  forall k_row1 row2 row3, (forall n, (n < 3)%nat -> k_row1 n = k n) ->
  (forall n, (n < 3)%nat -> row2 n = r2 n) -> (forall n, (n < 3)%nat -> row3 n = r3 n) ->
  let p := eigen_orth junk k_row1 row2 row3 kk in
  ((dot3 (off k r2) (off k r2) <= dot3 (off k r3) (off k r3) /\
    (forall n, (n < 3)%nat -> fst p n = off k r3 n) /\ snd p = / dot3 (off k r3) (off k r3)) \/
   (dot3 (off k r3) (off k r3) <= dot3 (off k r2) (off k r2) /\
    (forall n, (n < 3)%nat -> fst p n = off k r2 n) /\ snd p = / dot3 (off k r2) (off k r2))).
Proof.
  intros Hkk k_row1 row2 row3 Hk H2 H3 p.
  assert (Ho : forall r rr, (forall n, (n < 3)%nat -> rr n = r n) -> forall n, (n < 3)%nat ->
    rr n - kk * (k_row1 0%nat * rr 0%nat + k_row1 1%nat * rr 1%nat + k_row1 2%nat * rr 2%nat) * k_row1 n = off k r n).
  { intros r rr Hr n Hn. unfold off. rewrite !Hr, !Hk by lia. rewrite (dot3_explicit k r), Hkk. unfold Rdiv. ring. }
  unfold p, eigen_orth. cbv zeta. cbn [fst snd]. unfold upd. cbn [Nat.eqb].
  rewrite !(Ho _ _ H2) by lia. rewrite !(Ho _ _ H3) by lia.
  rewrite <- !dot3_explicit.
  destruct (Rle_dec _ _) as [Hle|Hle].
  - left. split; [exact Hle|split].
    + intros n Hn; idx3 n; reflexivity.
    + unfold Rdiv; ring.
  - right. split; [lra|split].
    + intros n Hn; idx3 n; reflexivity.
    + unfold Rdiv; ring.
Qed.

Lemma pick_spec junk cxx cyy czz cxy cyz czx l :
  let D := row cxx cyy czz cxy cyz czx l in
  let '(k, r2, r3, kk) := eigen_pick junk cxx cyy czz cxy cyz czx l in
  exists i j m, perm3 i j m /\
      (forall n, (n < 3)%nat -> k n = D i n) /\
      (forall n, (n < 3)%nat -> r2 n = D j n) /\
      (forall n, (n < 3)%nat -> r3 n = D m n) /\
      kk = / dot3 (D i) (D i) /\
      dot3 (D j) (D j) <= dot3 (D i) (D i) /\ dot3 (D m) (D m) <= dot3 (D i) (D i).
Proof.
  intro D. unfold eigen_pick, upd. cbn [Nat.eqb].
  set (k0 := (cxx - l) * (cxx - l) + cxy * cxy + czx * czx).
  set (k1 := cxy * cxy + (cyy - l) * (cyy - l) + cyz * cyz).
  set (k2 := czx * czx + cyz * cyz + (czz - l) * (czz - l)).
  assert (E0 : dot3 (D 0%nat) (D 0%nat) = k0) by (rewrite dot3_explicit; unfold k0; cbn [D row]; ring).
  assert (E1 : dot3 (D 1%nat) (D 1%nat) = k1) by (rewrite dot3_explicit; unfold k1; cbn [D row]; ring).
  assert (E2 : dot3 (D 2%nat) (D 2%nat) = k2) by (rewrite dot3_explicit; unfold k2; cbn [D row]; ring).
  clearbody k0 k1 k2.
  assert (T : forall i j m kk, perm3 i j m -> kk = / dot3 (D i) (D i) ->
     dot3 (D j) (D j) <= dot3 (D i) (D i) -> dot3 (D m) (D m) <= dot3 (D i) (D i) ->
     forall k r2 r3, (forall n, (n < 3)%nat -> k n = D i n) ->
      (forall n, (n < 3)%nat -> r2 n = D j n) ->
      (forall n, (n < 3)%nat -> r3 n = D m n) ->
     exists i j m, perm3 i j m /\
      (forall n, (n < 3)%nat -> k n = D i n) /\
      (forall n, (n < 3)%nat -> r2 n = D j n) /\
      (forall n, (n < 3)%nat -> r3 n = D m n) /\
      kk = / dot3 (D i) (D i) /\
      dot3 (D j) (D j) <= dot3 (D i) (D i) /\ dot3 (D m) (D m) <= dot3 (D i) (D i)).
  { intros i j m kk ? ? ? ? k r2 r3 ? ? ?. exists i, j, m. tauto. }
  Ltac fin D := first
    [ unfold perm3; tauto
    | intros n Hn; idx3 n; unfold D; cbn [row Nat.eqb]; ring
    | unfold Rdiv; rewrite Rmult_1_l; f_equal; lra
    | lra ].
  destruct (Rle_dec k1 k0) as [H1|H1]; [destruct (Rle_dec k2 k0) as [H2|H2]|]; cbn [andb negb orb].
  - rewrite ?andb_false_r; cbn [andb negb orb]. apply T with (i := 0%nat) (j := 1%nat) (m := 2%nat); rewrite ?E0, ?E1, ?E2; fin D.
  - rewrite ?andb_false_r; cbn [andb negb orb]. apply T with (i := 2%nat) (j := 0%nat) (m := 1%nat); rewrite ?E0, ?E1, ?E2; fin D.
  - destruct (Rle_dec k2 k1) as [H3|H3]; cbn [andb negb orb].
    + apply T with (i := 1%nat) (j := 0%nat) (m := 2%nat); rewrite ?E0, ?E1, ?E2; fin D.
    + apply T with (i := 2%nat) (j := 0%nat) (m := 1%nat); rewrite ?E0, ?E1, ?E2; fin D.
Qed.

(** ** Vector algebra *)
Definition cross (u v : arr) : arr := fun n =>
  match n with
  | 0%nat => u 1%nat * v 2%nat - u 2%nat * v 1%nat
  | 1%nat => u 2%nat * v 0%nat - u 0%nat * v 2%nat
  | 2%nat => u 0%nat * v 1%nat - u 1%nat * v 0%nat
  | _ => 0
  end.
Ltac vec := rewrite ?dot3_explicit in *; cbn [cross] in *.

Lemma cross_orth_l u v : dot3 u (cross u v) = 0.
Proof. vec. ring. Qed.
Lemma cross_orth_r u v : dot3 v (cross u v) = 0.
Proof. vec. ring. Qed.
Lemma dot3_comm u v : dot3 u v = dot3 v u.
Proof. vec. ring. Qed.
Lemma cross_length u v : dot3 (cross u v) (cross u v) = dot3 u u * dot3 v v - dot3 u v * dot3 u v.
Proof. vec. ring. Qed.

Lemma off_orth k r : dot3 k k <> 0 -> dot3 k (off k r) = 0.
Proof.
  intros H. unfold off. rewrite dot3_explicit.
  replace (k 0%nat * (r 0%nat - dot3 k r / dot3 k k * k 0%nat) + k 1%nat * (r 1%nat - dot3 k r / dot3 k k * k 1%nat) + k 2%nat * (r 2%nat - dot3 k r / dot3 k k * k 2%nat))
    with (dot3 k r - dot3 k r / dot3 k k * dot3 k k) by (rewrite !(dot3_explicit k); ring).
  field. exact H.
Qed.

(** decomposition of a vector orthogonal to k x a on the orthogonal pair k, a *)
Lemma in_span k a v : dot3 k k <> 0 -> dot3 a a <> 0 -> dot3 k a = 0 -> dot3 v (cross k a) = 0 ->
  forall n, (n < 3)%nat -> v n = dot3 v k / dot3 k k * k n + dot3 v a / dot3 a a * a n.
Proof.
  intros Hk Ha Hka Hv.
  assert (G : forall n, (n < 3)%nat -> v n * (dot3 k k * dot3 a a) = dot3 v k * dot3 a a * k n + dot3 v a * dot3 k k * a n).
  { intros n Hn. rewrite !dot3_explicit in *. cbn [cross] in Hv.
    set (k0 := k 0%nat) in *. set (k1 := k 1%nat) in *. set (k2 := k 2%nat) in *.
    set (a0 := a 0%nat) in *. set (a1 := a 1%nat) in *. set (a2 := a 2%nat) in *.
    set (v0 := v 0%nat) in *. set (v1 := v 1%nat) in *. set (v2 := v 2%nat) in *.
    set (e0 := k1 * a2 - k2 * a1) in *. set (e1 := k2 * a0 - k0 * a2) in *. set (e2 := k0 * a1 - k1 * a0) in *.
    idx3 n; fold k0 k1 k2 a0 a1 a2 v0 v1 v2.
    - transitivity ((v0 * k0 + v1 * k1 + v2 * k2) * (a0 * a0 + a1 * a1 + a2 * a2) * k0 + (v0 * a0 + v1 * a1 + v2 * a2) * (k0 * k0 + k1 * k1 + k2 * k2) * a0
        + (v0 * e0 + v1 * e1 + v2 * e2) * e0 - (k0 * a0 + k1 * a1 + k2 * a2) * ((v0 * k0 + v1 * k1 + v2 * k2) * a0 + (v0 * a0 + v1 * a1 + v2 * a2) * k0 - v0 * (k0 * a0 + k1 * a1 + k2 * a2))).
      + unfold e0, e1, e2. ring.
      + rewrite Hv, Hka. ring.
    - transitivity ((v0 * k0 + v1 * k1 + v2 * k2) * (a0 * a0 + a1 * a1 + a2 * a2) * k1 + (v0 * a0 + v1 * a1 + v2 * a2) * (k0 * k0 + k1 * k1 + k2 * k2) * a1
        + (v0 * e0 + v1 * e1 + v2 * e2) * e1 - (k0 * a0 + k1 * a1 + k2 * a2) * ((v0 * k0 + v1 * k1 + v2 * k2) * a1 + (v0 * a0 + v1 * a1 + v2 * a2) * k1 - v1 * (k0 * a0 + k1 * a1 + k2 * a2))).
      + unfold e0, e1, e2. ring.
      + rewrite Hv, Hka. ring.
    - transitivity ((v0 * k0 + v1 * k1 + v2 * k2) * (a0 * a0 + a1 * a1 + a2 * a2) * k2 + (v0 * a0 + v1 * a1 + v2 * a2) * (k0 * k0 + k1 * k1 + k2 * k2) * a2
        + (v0 * e0 + v1 * e1 + v2 * e2) * e2 - (k0 * a0 + k1 * a1 + k2 * a2) * ((v0 * k0 + v1 * k1 + v2 * k2) * a2 + (v0 * a0 + v1 * a1 + v2 * a2) * k2 - v2 * (k0 * a0 + k1 * a1 + k2 * a2))).
      + unfold e0, e1, e2. ring.
      + rewrite Hv, Hka. ring. }
  intros n Hn. specialize (G n Hn).
  apply (Rmult_eq_reg_r (dot3 k k * dot3 a a)); [|apply Rmult_integral_contrapositive_currified; assumption].
  rewrite G. field. split; assumption.
Qed.

Lemma mvec_explicit A v n : mvec A v n = A n 0%nat * v 0%nat + A n 1%nat * v 1%nat + A n 2%nat * v 2%nat.
Proof. cbv [mvec Rsum]. ring. Qed.

Definition symmetric (C : mat3) : Prop := C 0%nat 1%nat = C 1%nat 0%nat /\ C 0%nat 2%nat = C 2%nat 0%nat /\ C 1%nat 2%nat = C 2%nat 1%nat.

Lemma mvec_sym C u v : symmetric C -> dot3 u (mvec C v) = dot3 (mvec C u) v.
Proof. intros (H1 & H2 & H3). rewrite !dot3_explicit, !mvec_explicit, H1, H2, H3. ring. Qed.

(** ** The 2x2 problem *)
Section Reduced.
  Variables (C : mat3) (k a : arr) (lam : R).
  Hypothesis (HC : symmetric C) (Hk : dot3 k k <> 0) (Ha : dot3 a a <> 0) (Hka : dot3 k a = 0).
  Hypothesis HE : forall n, (n < 3)%nat -> mvec C (cross k a) n = lam * cross k a n.
  Let kk := dot3 k k.
  Let aa := dot3 a a.
  Let p := dot3 k (mvec C k) / kk.
  Let r := dot3 a (mvec C a) / aa.
  Let q := dot3 k (mvec C a).

  Lemma dot_scaled u v c : (forall n, (n < 3)%nat -> v n = c * u n) -> forall w, dot3 w v = c * dot3 w u.
  Proof. intros H w. rewrite !dot3_explicit, !H by lia. ring. Qed.

  Lemma Ck n : (n < 3)%nat -> mvec C k n = p * k n + q / aa * a n.
  Proof.
    intros Hn. rewrite (@in_span k a (mvec C k) Hk Ha Hka); [|  |exact Hn].
    - unfold p, q. rewrite (dot3_comm (mvec C k) k), <- (mvec_sym k a HC). reflexivity.
    - rewrite <- (mvec_sym _ _ HC), (@dot_scaled _ _ _ HE), cross_orth_l. ring.
  Qed.
  Lemma Ca n : (n < 3)%nat -> mvec C a n = q / kk * k n + r * a n.
  Proof.
    intros Hn. rewrite (@in_span k a (mvec C a) Hk Ha Hka); [|  |exact Hn].
    - unfold r, q. rewrite (dot3_comm (mvec C a) k), (dot3_comm (mvec C a) a). reflexivity.
    - rewrite <- (mvec_sym _ _ HC), (@dot_scaled _ _ _ HE), cross_orth_r. ring.
  Qed.

  Variables (mu : R) (Hmu : (p - mu) * (r - mu) = q * q / (aa * kk)).
  Let al := p - mu.
  Let be := q / kk.
  Let v : arr := fun n => al * a n - be * k n.

  Lemma mvec_comb x y f g n : mvec C (fun n => x * f n + y * g n) n = x * mvec C f n + y * mvec C g n.
  Proof. rewrite !mvec_explicit. ring. Qed.

  Lemma reduced_v n : (n < 3)%nat -> mvec C v n = mu * v n.
  Proof.
    intros Hn. unfold v. replace (mvec C (fun n0 : nat => al * a n0 - be * k n0) n) with (mvec C (fun n0 => al * a n0 + (- be) * k n0) n)
      by (rewrite !mvec_explicit; ring).
    rewrite mvec_comb, Ck, Ca by exact Hn. unfold be, al.
    transitivity ((p - mu) * r * a n - mu * (q / kk) * k n - q * q / (aa * kk) * a n).
    - field. split; assumption.
    - rewrite <- Hmu. ring.
  Qed.

  Lemma cross_Ev n : (n < 3)%nat -> cross (cross k a) v n = - (al * aa) * k n + - (be * kk) * a n.
  Proof.
    intros Hn. unfold v, kk, aa. rewrite !dot3_explicit in *.
    assert (H0 : k 0%nat * a 0%nat = - (k 1%nat * a 1%nat) - k 2%nat * a 2%nat) by lra.
    idx3 n; cbn [cross].
    all: set (k0 := k 0%nat) in *; set (k1 := k 1%nat) in *; set (k2 := k 2%nat) in *;
         set (a0 := a 0%nat) in *; set (a1 := a 1%nat) in *; set (a2 := a 2%nat) in *.
    - transitivity (- (al * (a0 * a0 + a1 * a1 + a2 * a2)) * k0 + - (be * (k0 * k0 + k1 * k1 + k2 * k2)) * a0 + (k0 * a0 + k1 * a1 + k2 * a2) * (al * a0 + be * k0)); [ring|rewrite Hka; ring].
    - transitivity (- (al * (a0 * a0 + a1 * a1 + a2 * a2)) * k1 + - (be * (k0 * k0 + k1 * k1 + k2 * k2)) * a1 + (k0 * a0 + k1 * a1 + k2 * a2) * (al * a1 + be * k1)); [ring|rewrite Hka; ring].
    - transitivity (- (al * (a0 * a0 + a1 * a1 + a2 * a2)) * k2 + - (be * (k0 * k0 + k1 * k1 + k2 * k2)) * a2 + (k0 * a0 + k1 * a1 + k2 * a2) * (al * a2 + be * k2)); [ring|rewrite Hka; ring].
  Qed.

  Lemma reduced_w n : (n < 3)%nat -> mvec C (cross (cross k a) v) n = (p + r - mu) * cross (cross k a) v n.
  Proof.
    intros Hn. rewrite cross_Ev by exact Hn.
    assert (E : mvec C (cross (cross k a) v) n = mvec C (fun n => - (al * aa) * k n + - (be * kk) * a n) n).
    { rewrite !mvec_explicit, !cross_Ev by lia. reflexivity. }
    rewrite E, mvec_comb, Ck, Ca by exact Hn. unfold be, al.
    assert (Hq : q * q = (p - mu) * (r - mu) * (aa * kk)) by (rewrite Hmu; field; split; assumption).
    transitivity ((- ((p - mu) * aa) * p - q * q / kk) * k n + (- (p - mu) * q - q * r) * a n).
    - field. split; assumption.
    - rewrite Hq. field. assumption.
  Qed.

  Lemma v_length : dot3 v v = al * al * aa + be * be * kk.
  Proof.
    unfold v, kk, aa. rewrite !dot3_explicit in *.
    transitivity (al * al * (a 0%nat * a 0%nat + a 1%nat * a 1%nat + a 2%nat * a 2%nat) + be * be * (k 0%nat * k 0%nat + k 1%nat * k 1%nat + k 2%nat * k 2%nat) - 2 * al * be * (k 0%nat * a 0%nat + k 1%nat * a 1%nat + k 2%nat * a 2%nat)); [ring|rewrite Hka; ring].
  Qed.
End Reduced.

Lemma sign_cases x y : (0 <= y /\ multiply_sign x y = x) \/ (y < 0 /\ multiply_sign x y = - x).
Proof. unfold multiply_sign. destruct (Rlt_dec y 0); [right|left]; split; lra. Qed.

(** ** eval0, eval1 and the factors of evec0, as functions of the entries of the 2x2 matrix *)
Lemma reduced_spec p r q qq e0 b sq :
  0 <= qq ->
  b = 1 / 2 * (p - r) -> sq = multiply_sign (sqrt (b * b + qq)) b -> e0 = r + b - sq ->
  (p - e0) * (r - e0) = qq /\ ~ (p - e0) * (p - e0) < (r - e0) * (r - e0) /\
  ((p - e0) * (p - e0) = 0 -> qq = 0 -> p = e0 /\ r = e0) /\ (q * q = qq -> p - e0 = 0 -> qq = 0).
Proof.
  intros Hq Hb Hs He.
  set (s := sqrt (b * b + qq)) in *.
  assert (Hss : s * s = b * b + qq) by (apply sqrt_sqrt; nra).
  assert (Hs0 : 0 <= s) by apply sqrt_pos.
  assert (Hp : p - e0 = b + sq) by lra. assert (Hr : r - e0 = - b + sq) by lra.
  assert (Hsb : 0 <= sq * b /\ sq * sq = s * s) by (destruct (sign_cases s b) as [[? ->]|[? ->]] in Hs; subst sq; split; nra).
  destruct Hsb as [Hsb Hsq].
  rewrite Hp, Hr. split; [nra|]. split; [nra|]. split.
  - intros H _. assert (b + sq = 0) by nra. assert (sq * b <= 0) by nra. assert (b = 0) by nra. split; lra.
  - intros _ H. assert (sq * b <= 0) by nra. assert (b = 0) by nra. nra.
Qed.
