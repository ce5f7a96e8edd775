(** Characteristic length and critical time step. *)
From Verif Require Import Base Loops ListLemmas TensorModel TensorSpec TensorProofs PolarProofs ElementModel ElementSpec ElementProofs ElementProofs2 ElementProofs3 ElementProofs4 ElementProofs5 BlockModel BlockProofs BlockProofs2 ElementProofs6.
From Coq Require Import Reals Lra Psatz.
Set Implicit Arguments.
Local Open Scope R_scope.

Lemma spread_unique x i v w : spread x i v -> spread x i w -> v = w.
Proof. intros [(n & m & Hn & Hm & ->) H1] [(n' & m' & Hn' & Hm' & ->) H2]. pose proof (H1 n' m' Hn' Hm'). pose proof (H2 n m Hn Hm). lra. Qed.
Lemma least_size_unique x L L' : least_size x L -> least_size x L' -> L = L'.
Proof.
  intros (A1 & A2 & A3) (B1 & B2 & B3).
  assert (L' <= L). { destruct A3 as [(n & m & Hn & Hm & Hne & ->)|(i & Hi & Hs)]; [now apply B1|now apply (B2 i)]. }
  assert (L <= L'). { destruct B3 as [(n & m & Hn & Hm & Hne & ->)|(i & Hi & Hs)]; [now apply A1|now apply (A2 i)]. }
  lra.
Qed.
Lemma dsq_sym x n m : dsq x n m = dsq x m n.
Proof. unfold dsq. ring. Qed.
Lemma dsq_ext x y n m : (n < 8)%nat -> (m < 8)%nat -> (forall n i, (n < 8)%nat -> (i < 3)%nat -> x n i = y n i) -> dsq x n m = dsq y n m.
Proof. intros Hn Hm H. unfold dsq. rewrite !H by lia. reflexivity. Qed.
Lemma spread_ext x y i w : (i < 3)%nat -> (forall n i, (n < 8)%nat -> (i < 3)%nat -> x n i = y n i) -> spread x i w -> spread y i w.
Proof.
  intros Hi H [(n & m & Hn & Hm & E) H1]. split.
  - exists n, m. rewrite <- !H by assumption. auto.
  - intros n' m' Hn' Hm'. rewrite <- !H by assumption. now apply H1.
Qed.
Lemma least_size_ext x y L : (forall n i, (n < 8)%nat -> (i < 3)%nat -> x n i = y n i) -> least_size x L -> least_size y L.
Proof.
  intros H (A1 & A2 & A3). assert (H' : forall n i, (n < 8)%nat -> (i < 3)%nat -> y n i = x n i) by (intros; symmetry; now apply H).
  split; [|split].
  - intros n m Hn Hm Hne. rewrite <- (@dsq_ext x y n m) by assumption. now apply A1.
  - intros i w Hi Hs. apply (A2 i); [assumption|]. now apply (@spread_ext y x).
  - destruct A3 as [(n & m & Hn & Hm & Hne & E)|(i & Hi & Hs)].
    + left. exists n, m. rewrite <- (@dsq_ext x y n m) by assumption. auto.
    + right. exists i. split; [assumption|]. now apply (@spread_ext x y).
Qed.
Lemma moved_back x t n i : moved x t n i + - t i = x n i.
Proof. unfold moved. ring. Qed.
Lemma spread_moved x t i w : spread x i w -> spread (moved x t) i w.
Proof.
  intros [(n & m & Hn & Hm & E) H1]. unfold moved. split.
  - exists n, m. split; [assumption|]. split; [assumption|]. lra.
  - intros n' m' Hn' Hm'. pose proof (H1 n' m' Hn' Hm'). lra.
Qed.
Lemma least_size_moved x t L : least_size x L -> least_size (moved x t) L.
Proof.
  intros (A1 & A2 & A3).
  assert (D : forall n m, dsq (moved x t) n m = dsq x n m) by (intros; unfold dsq, moved; ring).
  split; [|split].
  - intros. rewrite D. now apply A1.
  - intros i w Hi Hs. apply (A2 i); [assumption|].
    apply (@spread_ext (moved (moved x t) (fun k => - t k)) x); [assumption|intros; unfold moved; ring|]. now apply spread_moved.
  - destruct A3 as [(n & m & Hn & Hm & Hne & E)|(i & Hi & Hs)].
    + left. exists n, m. rewrite D. auto.
    + right. exists i. split; [assumption|]. now apply spread_moved.
Qed.
Lemma charlen_least big c : (forall n i, (n < 8)%nat -> (i < 3)%nat -> 0 <= nodes c n i <= big) ->
  (forall n m, (n < 8)%nat -> (m < 8)%nat -> dsq (nodes c) n m <= big) ->
  least_size (nodes c) (compute_characteristic_length big c).
Proof.
  intros Hx Hd. destruct (charlen_parts big c) as (E & C1 & C2 & C3). rewrite E. clear E.
  assert (B : forall i, (i < 3)%nat -> spread (nodes c) i (box big c i)).
  { intros i Hi. apply box_spread; [assumption|]. intros n Hn. now apply Hx. }
  assert (C3' : exists n m, (n < m)%nat /\ (m < 8)%nat /\ closest big c = dsq (nodes c) n m).
  { destruct C3 as [E|E]; [|exact E]. exists 0%nat, 1%nat. split; [lia|]. split; [lia|].
    pose proof (C2 0%nat 1%nat ltac:(lia) ltac:(lia)). pose proof (Hd 0%nat 1%nat ltac:(lia) ltac:(lia)). lra. }
  split; [|split].
  - intros n m Hn Hm Hne. eapply Rle_trans; [apply Rmin_r|]. apply sqrt_le_1_alt.
    destruct (Nat.lt_ge_cases n m); [now apply C2|]. rewrite dsq_sym. apply C2; lia.
  - intros i w Hi Hs. rewrite (spread_unique Hs (B i Hi)).
    eapply Rle_trans; [apply Rmin_l|]. idx3 i; [eapply Rle_trans; [apply Rmin_r|apply Rmin_r]|eapply Rle_trans; [apply Rmin_r|apply Rmin_l]|apply Rmin_l].
  - assert (RM : forall a b, Rmin a b = a \/ Rmin a b = b) by (intros a b; unfold Rmin; destruct (Rle_dec a b); auto).
    destruct (RM (Rmin (box big c 2) (Rmin (box big c 1) (box big c 0))) (sqrt (closest big c))) as [-> | ->].
    + right. destruct (RM (box big c 2) (Rmin (box big c 1) (box big c 0))) as [-> | ->].
      * exists 2%nat. split; [lia|]. apply B. lia.
      * destruct (RM (box big c 1) (box big c 0)) as [-> | ->]; [exists 1%nat|exists 0%nat]; (split; [lia|apply B; lia]).
    + left. destruct C3' as (n & m & Hn & Hm & E). exists n, m. rewrite E. repeat split; lia.
Qed.
(** without any restriction on the coordinates the computed length is never below the least size *)
Lemma charlen_pos big c : 0 < big -> well_shaped (nodes c) -> (forall n i, (n < 8)%nat -> (i < 3)%nat -> nodes c n i < big) ->
  (forall n m, (n < 8)%nat -> (m < 8)%nat -> n <> m -> exists i, (i < 3)%nat /\ nodes c n i <> nodes c m i) ->
  0 < compute_characteristic_length big c.
Proof.
  intros Hb Hw Hx Hne. destruct (charlen_parts big c) as (E & C1 & C2 & C3). rewrite E. clear E.
  assert (B : forall i, (i < 3)%nat -> 0 < box big c i).
  { intros i Hi.
    destruct (Rlt_le_dec 0 (box big c i)) as [H|H]; [exact H|exfalso].
    assert (Eq : forall n m, (n < 8)%nat -> (m < 8)%nat -> nodes c n i = nodes c m i).
    { intros n m Hn Hm. pose proof (@box_ge big c i n m Hn Hm). pose proof (@box_ge big c i m n Hm Hn). lra. }
    pose proof (Hw 0%nat ltac:(lia)) as Hd. 
    assert (J : forall j, (j < 3)%nat -> jac (nodes c) 0 i j = 0).
    { intros j Hj. unfold jac. transitivity (Rsum 8 (fun n => nodes c 0%nat i * dshape n j (gauss 0))).
      - apply Rsum_ext. intros n Hn. now rewrite (Eq n 0%nat) by lia.
      - rewrite Rsum_scal, dshape_sum by assumption. ring. }
    revert Hd J. generalize (jac (nodes c) 0). intros M Hd J. pose proof (J 0%nat ltac:(lia)) as J0. pose proof (J 1%nat ltac:(lia)) as J1. pose proof (J 2%nat ltac:(lia)) as J2.
    clear -Hd J0 J1 J2 Hi. unfold mdet in Hd. idx3 i; rewrite J0, J1, J2 in Hd; ring_simplify in Hd; lra. }
  assert (0 < closest big c).
  { destruct C3 as [->|(n & m & Hn & Hm & ->)]; [exact Hb|].
    destruct (Hne n m ltac:(lia) ltac:(lia) ltac:(lia)) as (i & Hi & Hd). unfold dsq.
    assert (S : forall a, 0 <= a * a) by (intros; nra).
    pose proof (S (nodes c n 0%nat - nodes c m 0%nat)). pose proof (S (nodes c n 1%nat - nodes c m 1%nat)). pose proof (S (nodes c n 2%nat - nodes c m 2%nat)).
    assert (0 < (nodes c n i - nodes c m i) * (nodes c n i - nodes c m i)) by (assert (nodes c n i - nodes c m i <> 0) by lra; nra).
    idx3 i; lra. }
  assert (M : forall a b, 0 < a -> 0 < b -> 0 < Rmin a b) by (intros; now apply Rmin_glb_lt).
  apply M; [apply M; [|apply M]; apply B; lia|]. now apply sqrt_lt_R0.
Qed.

(** ** Assembled forces *)
Lemma Rsum_triple N (g : arr) : Rsum (3 * N) g = Rsum N (fun n => Rsum 3 (fun i => g (3 * n + i)%nat)).
Proof.
  induction N as [|M IH]; [reflexivity|]. replace (3 * S M)%nat with (3 * M + 3)%nat by lia. rewrite Rsum_split, IH. reflexivity.
Qed.
Lemma divmod3 n i : (i < 3)%nat -> ((3 * n + i) / 3 = n /\ (3 * n + i) mod 3 = i)%nat.
Proof. intros Hc. split; [symmetry; apply (Nat.div_unique _ 3 n i); lia|symmetry; apply (Nat.mod_unique _ 3 n i); lia]. Qed.
Lemma block_work gs ref disp order conn junk f0 f N V : block_internal_force gs ref disp order conn junk f0 = Ok f ->
  (forall e n, In e order -> (n < 8)%nat -> (conn (e * 8 + n) < N)%nat) ->
  exists force, (forall e, In e order -> element_force gs ref disp conn junk e = Ok (force e)) /\
   Rsum (3 * N) (fun k => V k * f k) = Rsum (3 * N) (fun k => V k * f0 k) +
     lsum order (fun e => Rsum 8 (fun n => Rsum 3 (fun i => enodes conn V e n i * nodes (force e) n i))).
Proof.
  intros E Hc. destruct (@block_force_ok _ _ _ _ _ _ _ _ E) as (force & Hf & Hk). exists force. split; [exact Hf|].
  transitivity (Rsum (3 * N) (fun k => V k * f0 k) + Rsum (3 * N) (fun k => lsum order (fun e => V k * contribution conn e (force e) k))).
  - rewrite <- Rsum_plus. apply Rsum_ext. intros k Hk'. rewrite Hk, <- lsum_scal. ring.
  - f_equal. rewrite (lsum_Rsum order (3 * N) (fun e k => V k * contribution conn e (force e) k)). apply lsum_ext. intros e He.
    apply contribution_work. intros n Hn. now apply Hc.
Qed.
Lemma lsum_zero l f : (forall e, In e l -> f e = 0) -> lsum l f = 0.
Proof. induction l as [|e l IH]; intros H; simpl; [reflexivity|]. rewrite H, IH; [ring| |now left]. intros; apply H; now right. Qed.
Lemma block_affine_work gs ref disp order conn junk f0 f N V A b :
  block_internal_force gs ref disp order conn junk f0 = Ok f ->
  (forall e n, In e order -> (n < 8)%nat -> (conn (e * 8 + n) < N)%nat) ->
  (forall s q, contract (stress_at s q) A = 0) ->
  (forall n i, (i < 3)%nat -> V (3 * n + i)%nat = b i + mvec A (fun c => ref (3 * n + c)%nat + disp (3 * n + c)%nat) i) ->
  Rsum N (fun n => Rsum 3 (fun i => V (3 * n + i)%nat * f (3 * n + i)%nat)) = Rsum N (fun n => Rsum 3 (fun i => V (3 * n + i)%nat * f0 (3 * n + i)%nat)).
Proof.
  intros E Hc HA HV. destruct (@block_work _ _ _ _ _ _ _ _ N V E Hc) as (force & Hf & Hw).
  rewrite lsum_zero in Hw.
  - rewrite !Rsum_triple, Rplus_0_r in Hw. exact Hw.
  - intros e He. destruct (@element_force_work _ _ _ _ _ _ _ (Hf e He)) as (_ & _ & F & s & _ & _ & H).
    rewrite (H _ (fun _ => A)).
    + rewrite Rsum_zero; [ring|]. intros q Hq. rewrite HA. ring.
    + apply affine_gradient with (b := b). intros n i Hn Hi. unfold enodes at 1. rewrite HV by assumption. reflexivity.
Qed.
