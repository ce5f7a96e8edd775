(** Proofs about logarithms of rotations. *)
From Verif Require Import Base Loops TensorModel TensorSpec TensorProofs.
From Coq Require Import Reals Lra Psatz.
Set Implicit Arguments.
Local Open Scope R_scope.

Ltac rred := cbv [rodrigues cross_matrix]; tred.

Lemma rodrigues_trace n th : dot3 n n = 1 ->
  rodrigues n th 0%nat 0%nat + rodrigues n th 1%nat 1%nat + rodrigues n th 2%nat 2%nat = 1 + 2 * cos th.
Proof.
  intros H. cbv [dot3 Rsum] in H. rred.
  transitivity (3 + (1 - cos th) * (-2) * (0 + n 0%nat * n 0%nat + n 1%nat * n 1%nat + n 2%nat * n 2%nat)); [ring|].
  rewrite H. ring.
Qed.
Lemma rodrigues_skew n th : meq (mscale (1 / 2) (msub (rodrigues n th) (mT (rodrigues n th)))) (mscale (sin th) (cross_matrix n)).
Proof. intros i j Hi Hj. idx3 i; idx3 j; rred; field. Qed.
(** Rodrigues' formula really is a rotation *)
Lemma rodrigues_rotation n th : dot3 n n = 1 -> rotation_matrix (rodrigues n th).
Proof.
  intros H. cbv [dot3 Rsum] in H.
  assert (Hc : sin th * sin th = 1 - cos th * cos th).
  { pose proof (sin2_cos2 th) as K. unfold Rsqr in K. lra. }
  assert (Hn : n 2%nat * n 2%nat = 1 - n 0%nat * n 0%nat - n 1%nat * n 1%nat) by lra.
  set (s := sin th) in *. set (c := cos th) in *.
  split.
  - intros i j Hi Hj. idx3 i; idx3 j; rred; fold s c; ring [Hc Hn].
  - rred. fold s c. ring [Hc Hn].
Qed.

Lemma log_rotation_ok junk r l n th :
  dot3 n n = 1 -> meq (full r) (rodrigues n th) -> 0 <= th <= PI -> 10 * machine_epsilon <= cos th + 1 ->
  meq (full (log_rotation junk r l)) (mscale th (cross_matrix n)).
Proof.
  intros Hn Hr Hth Heps. unfold log_rotation.
  assert (Etr : 1 / 2 * (r K_F_XX + r K_F_YY + r K_F_ZZ - 1) = cos th).
  { change (r K_F_XX) with (full r 0%nat 0%nat). change (r K_F_YY) with (full r 1%nat 1%nat).
    change (r K_F_ZZ) with (full r 2%nat 2%nat). rewrite !Hr by lia. rewrite (rodrigues_trace th Hn). field. }
  rewrite Etr. pose proof (COS_bound th) as [B1 B2].
  destruct (Rlt_dec (cos th) (-1)); [lra|]. destruct (Rlt_dec 1 (cos th)); [lra|].
  rewrite acos_cos by lra.
  destruct (Req_EM_T th 0) as [-> | Hne].
  { intros i j Hi Hj. rewrite zero_f by auto. cbv [mzero mscale]. ring. }
  assert (Heps0 : 0 < machine_epsilon) by (unfold machine_epsilon; apply Rinv_0_lt_compat, pow_lt; lra).
  destruct (Rlt_dec (Rabs (cos th + 1)) (10 * machine_epsilon)) as [Hlt|_].
  { rewrite Rabs_pos_eq in Hlt by lra. lra. }
  assert (Hpi : th <> PI). { intros ->. rewrite cos_PI in Heps. lra. }
  assert (Hs : 0 < sin th) by (apply sin_gt_0; lra).
  intros i j Hi Hj. rewrite scale_f by auto. unfold mscale at 1. rewrite skew_part_f by auto.
  assert (E : mscale (1 / 2) (msub (full r) (mT (full r))) i j = mscale (sin th) (cross_matrix n) i j).
  { rewrite <- (rodrigues_skew n th) by auto. unfold mscale, msub, mT. rewrite !Hr by auto. reflexivity. }
  rewrite E. unfold mscale. field. lra.
Qed.

Lemma log_rotation_unset junk r l n th :
  dot3 n n = 1 -> meq (full r) (rodrigues n th) -> 0 < th <= PI -> cos th + 1 < 10 * machine_epsilon ->
  log_rotation junk r l = l.
Proof.
  intros Hn Hr Hth Heps. unfold log_rotation.
  assert (Etr : 1 / 2 * (r K_F_XX + r K_F_YY + r K_F_ZZ - 1) = cos th).
  { change (r K_F_XX) with (full r 0%nat 0%nat). change (r K_F_YY) with (full r 1%nat 1%nat).
    change (r K_F_ZZ) with (full r 2%nat 2%nat). rewrite !Hr by lia. rewrite (rodrigues_trace th Hn). field. }
  rewrite Etr. pose proof (COS_bound th) as [B1 B2].
  destruct (Rlt_dec (cos th) (-1)); [lra|]. destruct (Rlt_dec 1 (cos th)); [lra|].
  rewrite acos_cos by lra.
  destruct (Req_EM_T th 0); [lra|].
  destruct (Rlt_dec (Rabs (cos th + 1)) (10 * machine_epsilon)) as [Hlt|Hge]; auto.
  rewrite Rabs_pos_eq in Hge by lra. lra.
Qed.

(** ** Half turns *)
Lemma vec_norm_scaled (v n : arr) c : dot3 n n = 1 -> (forall k, (k < 3)%nat -> v k = c * n k) -> vec_norm v = Rabs c.
Proof.
  intros Hn Hv. unfold vec_norm. rewrite !Hv by lia. cbv [dot3 Rsum] in Hn.
  replace (c * n 0%nat * (c * n 0%nat) + c * n 1%nat * (c * n 1%nat) + c * n 2%nat * (c * n 2%nat)) with (c * c).
  2:{ transitivity (c * c * (0 + n 0%nat * n 0%nat + n 1%nat * n 1%nat + n 2%nat * n 2%nat)); [rewrite Hn|]; ring. }
  replace (c * c) with (Rsqr c) by reflexivity.
  destruct (Rlt_dec 0 (Rsqr c)) as [_|H]; [apply sqrt_Rsqr_abs|].
  pose proof (Rle_0_sqr c). assert (E : Rsqr c = 0) by lra. apply Rsqr_eq_0 in E. subst. rewrite Rabs_R0. unfold Rsqr. ring.
Qed.

Lemma acos_m1 : acos (-1) = PI.
Proof. rewrite <- cos_PI. apply acos_cos. pose proof PI_RGT_0. lra. Qed.

Lemma log_rotation_pi_cases junk r l n :
  dot3 n n = 1 -> meq (full r) (rodrigues n PI) ->
  forall l', log_rotation_pi junk r l = Ok l' ->
  exists s, (s = 1 \/ s = -1) /\ meq (full l') (mscale (s * PI) (cross_matrix n)).
Proof.
  intros Hn Hr l' E.
  assert (Hval : forall i j, (i < 3)%nat -> (j < 3)%nat -> full r i j = (if (i =? j)%nat then -1 else 0) + 2 * n i * n j).
  { intros i j Hi Hj. rewrite Hr by auto. cbv [dot3 Rsum] in Hn.
    assert (H2 : n 2%nat * n 2%nat = 1 - n 0%nat * n 0%nat - n 1%nat * n 1%nat) by lra.
    idx3 i; idx3 j; rred; rewrite sin_PI, cos_PI; ring [H2]. }
  assert (V : r K_F_XX = -1 + 2 * n 0%nat * n 0%nat /\ r K_F_XY = 2 * n 0%nat * n 1%nat /\ r K_F_XZ = 2 * n 0%nat * n 2%nat /\
              r K_F_YX = 2 * n 1%nat * n 0%nat /\ r K_F_YY = -1 + 2 * n 1%nat * n 1%nat /\ r K_F_YZ = 2 * n 1%nat * n 2%nat /\
              r K_F_ZX = 2 * n 2%nat * n 0%nat /\ r K_F_ZY = 2 * n 2%nat * n 1%nat /\ r K_F_ZZ = -1 + 2 * n 2%nat * n 2%nat).
  { pose proof (Hval 0 0)%nat as A. pose proof (Hval 0 1)%nat as B. pose proof (Hval 0 2)%nat as C.
    pose proof (Hval 1 0)%nat as D. pose proof (Hval 1 1)%nat as F. pose proof (Hval 1 2)%nat as G.
    pose proof (Hval 2 0)%nat as I. pose proof (Hval 2 1)%nat as J. pose proof (Hval 2 2)%nat as K.
    cbv [full full_index Nat.eqb] in *. cbv [K_F_XX K_F_YY K_F_ZZ K_F_XY K_F_YZ K_F_ZX K_F_YX K_F_ZY K_F_XZ].
    repeat split; first [rewrite A|rewrite B|rewrite C|rewrite D|rewrite F|rewrite G|rewrite I|rewrite J|rewrite K]; try lia; ring. }
  destruct V as (V1 & V2 & V3 & V4 & V5 & V6 & V7 & V8 & V9).
  assert (H2 : n 2%nat * n 2%nat = 1 - n 0%nat * n 0%nat - n 1%nat * n 1%nat) by (cbv [dot3 Rsum] in Hn; lra).
  assert (Heps : 0 < machine_epsilon) by (unfold machine_epsilon; apply Rinv_0_lt_compat, pow_lt; lra).
  unfold log_rotation_pi in E. cbv zeta in E.
  (* the final assignments, from a normal that is c * n with c <> 0 *)
  assert (Fin : forall normal c, c <> 0 -> (forall k, (k < 3)%nat -> normal k = c * n k) -> vec_norm normal = Rabs c ->
     let normal := upd normal 0%nat (normal 0%nat / Rabs c) in
     let normal := upd normal 1%nat (normal 1%nat / Rabs c) in
     let normal := upd normal 2%nat (normal 2%nat / Rabs c) in
     exists s, (s = 1 \/ s = -1) /\ forall k, (k < 3)%nat -> normal k = s * n k).
  { intros normal c Hc Hk _. cbv zeta. exists (c / Rabs c). split.
    - destruct (Rcase_abs c) as [Hneg|Hpos].
      + right. rewrite Rabs_left by auto. field. lra.
      + left. rewrite Rabs_right by auto. field. lra.
    - intros k Hlt. assert (Rabs c <> 0) by now apply Rabs_no_R0.
      idx3 k; cbv [upd Nat.eqb]; rewrite Hk by lia; field; auto. }
  assert (Out : forall (normal : arr) s, (s = 1 \/ s = -1) -> (forall k, (k < 3)%nat -> normal k = s * n k) ->
     meq (full (let pi := acos (-1) in
       upd (upd (upd (upd (upd (upd (upd (upd (upd l K_F_XX 0) K_F_XY (- normal 2%nat * pi)) K_F_XZ (normal 1%nat * pi))
        K_F_YX (normal 2%nat * pi)) K_F_YY 0) K_F_YZ (- normal 0%nat * pi)) K_F_ZX (- normal 1%nat * pi))
        K_F_ZY (normal 0%nat * pi)) K_F_ZZ 0)) (mscale (s * PI) (cross_matrix n))).
  { intros normal s Hs Hk. cbv zeta. rewrite acos_m1. intros i j Hi Hj.
    idx3 i; idx3 j; cbv [cross_matrix]; tred; rewrite ?Hk by lia; ring. }
  match type of E with context [vec_norm (cross_product ?u ?v junk)] =>
    assert (C1 : forall k, (k < 3)%nat -> cross_product u v junk k = (4 * n 2%nat) * n k) end.
  { intros k Hk. cbv [cross_product upd Nat.eqb K_F_XX K_F_YY K_F_ZZ K_F_XY K_F_YZ K_F_ZX K_F_YX K_F_ZY K_F_XZ] in *.
    idx3 k; rewrite ?V1, ?V2, ?V3, ?V4, ?V5, ?V6; ring [H2]. }
  rewrite (@vec_norm_scaled _ n _ Hn C1) in E.
  set (N1 := cross_product _ _ junk) in *.
  destruct (Rlt_dec (Rabs (4 * n 2%nat)) machine_epsilon) as [Hsmall|Hbig].
  - match type of E with context [vec_norm (cross_product ?u ?v N1)] =>
      assert (C2 : forall k, (k < 3)%nat -> cross_product u v N1 k = (- (4 * n 1%nat)) * n k) end.
    { intros k Hk. clear C1. clearbody N1.
      cbv [cross_product upd Nat.eqb K_F_XX K_F_YY K_F_ZZ K_F_XY K_F_YZ K_F_ZX K_F_YX K_F_ZY K_F_XZ] in *.
      idx3 k; rewrite ?V1, ?V2, ?V3, ?V7, ?V8, ?V9; ring [H2]. }
    rewrite (@vec_norm_scaled _ n _ Hn C2) in E. set (N2 := cross_product _ _ N1) in *.
    destruct (Rle_dec machine_epsilon (Rabs (- (4 * n 1%nat)))) as [Hok|]; [|discriminate].
    cbn [obind fst snd] in E. injection E as <-.
    assert (Hz : (- (4 * n 1%nat)) <> 0).
    { intros Hz. rewrite Hz, Rabs_R0 in Hok. lra. }
    pose proof (@Fin N2 (- (4 * n 1%nat)) Hz C2 (@vec_norm_scaled _ n _ Hn C2)) as F. cbv zeta in F.
    destruct F as (s & Hs & Hk). exists s. split; [exact Hs|]. exact (Out _ s Hs Hk).
  - cbn [obind fst snd] in E. injection E as <-.
    assert (Hz : (4 * n 2%nat) <> 0).
    { intros Hz. rewrite Hz, Rabs_R0 in Hbig. lra. }
    pose proof (@Fin N1 (4 * n 2%nat) Hz C1 (@vec_norm_scaled _ n _ Hn C1)) as F. cbv zeta in F.
    destruct F as (s & Hs & Hk). exists s. split; [exact Hs|]. exact (Out _ s Hs Hk).
Qed.

(** A half turn about the x axis aborts. *)
Definition half_turn_x : arr := fun k => match k with 0%nat => 1 | 1%nat => -1 | 2%nat => -1 | _ => 0 end.
Lemma half_turn_x_is_rotation : meq (full half_turn_x) (rodrigues (fun k => if (k =? 0)%nat then 1 else 0) PI).
Proof.
  intros i j Hi Hj. idx3 i; idx3 j; rred; cbv [half_turn_x]; rewrite sin_PI, cos_PI; ring.
Qed.
Lemma log_rotation_pi_x junk l : log_rotation_pi junk half_turn_x l = Abort.
Proof.
  assert (Heps : 0 < machine_epsilon) by (unfold machine_epsilon; apply Rinv_0_lt_compat, pow_lt; lra).
  unfold log_rotation_pi. cbv zeta.
  assert (Z : forall v : arr, (forall k, (k < 3)%nat -> v k = 0) -> vec_norm v = 0).
  { intros v H. unfold vec_norm. rewrite !H by lia. destruct (Rlt_dec 0 (0 * 0 + 0 * 0 + 0 * 0)); [lra|ring]. }
  rewrite Z.
  2:{ intros k Hk. cbv [cross_product upd Nat.eqb K_F_XX K_F_YY K_F_ZZ K_F_XY K_F_YZ K_F_ZX K_F_YX K_F_ZY K_F_XZ half_turn_x].
      idx3 k; ring. }
  destruct (Rlt_dec 0 machine_epsilon); [|lra]. rewrite Z.
  2:{ intros k Hk. cbv [cross_product upd Nat.eqb K_F_XX K_F_YY K_F_ZZ K_F_XY K_F_YZ K_F_ZX K_F_YX K_F_ZY K_F_XZ half_turn_x].
      idx3 k; ring. }
  destruct (Rle_dec machine_epsilon 0); [lra|]. reflexivity.
Qed.
