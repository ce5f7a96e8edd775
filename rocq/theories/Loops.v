(** For loops and array updates (vocabulary only). *)
From Verif Require Import Base.
From Coq Require Import Reals.
Local Open Scope nat_scope.

(** for (int k = a; k < b; ++k) s = f k s *)
Definition floop {S : Type} (a b : nat) (f : nat -> S -> S) (s : S) : S :=
  fold_left (fun s k => f k s) (seq a (b - a)) s.

(** the same with a body that can fail *)
Definition oloop {S : Type} (a b : nat) (f : nat -> S -> outcome S) (s : S) : outcome S :=
  ofold (fun s k => f k s) (seq a (b - a)) s.

(** a[i] = v for an array seen as a function *)
Definition upd {T} (a : nat -> T) (i : nat) (v : T) : nat -> T :=
  fun k => if k =? i then v else a k.
(** m(i, j) = v *)
Definition upd2 {T} (m : nat -> nat -> T) (i j : nat) (v : T) : nat -> nat -> T :=
  fun a b => if (a =? i) && (b =? j) then v else m a b.

(** sum of f k for k < n *)
Fixpoint Rsum (n : nat) (f : nat -> R) : R :=
  match n with 0 => 0%R | S n => (Rsum n f + f n)%R end.

Lemma floop_ind {S} (P : nat -> S -> Prop) a b (f : nat -> S -> S) s : a <= b -> P a s ->
  (forall k s, a <= k < b -> P k s -> P (1 + k) (f k s)) -> P b (floop a b f s).
Proof.
  intros Hab H0 Hs. unfold floop.
  assert (G : forall n a s, a + n = b -> P a s ->
     (forall k s, a <= k < b -> P k s -> P (1 + k) (f k s)) ->
     P b (fold_left (fun s k => f k s) (seq a n) s)).
  { induction n as [|n IH]; intros a0 s0 E H Hk; simpl.
    - rewrite Nat.add_0_r in E. now subst.
    - apply IH; [lia| |].
      + apply Hk; [lia|auto].
      + intros k s1 Hk1 Hp. apply Hk; [lia|auto]. }
  apply G; auto. lia.
Qed.

Lemma oloop_ind {S} (P : nat -> S -> Prop) a b (f : nat -> S -> outcome S) s : a <= b -> P a s ->
  (forall k s, a <= k < b -> P k s -> exists s', f k s = Ok s' /\ P (1 + k) s') ->
  exists s', oloop a b f s = Ok s' /\ P b s'.
Proof.
  intros Hab H0 Hs. unfold oloop.
  assert (G : forall n a s, a + n = b -> P a s ->
     (forall k s, a <= k < b -> P k s -> exists s', f k s = Ok s' /\ P (1 + k) s') ->
     exists s', ofold (fun s k => f k s) (seq a n) s = Ok s' /\ P b s').
  { induction n as [|n IH]; intros a0 s0 E H Hk; simpl.
    - rewrite Nat.add_0_r in E. subst. eauto.
    - destruct (Hk a0 s0) as (s1 & E1 & H1); [lia|auto|]. rewrite E1. simpl.
      apply IH; [lia|auto|]. intros k s2 Hk2 Hp. apply Hk; [lia|auto]. }
  apply G; auto. lia.
Qed.

(** Partial correctness: any Ok result satisfies the invariant. *)
Lemma oloop_inv {S} (P : nat -> S -> Prop) a b (f : nat -> S -> outcome S) s s' : a <= b -> P a s ->
  (forall k s s', a <= k < b -> P k s -> f k s = Ok s' -> P (1 + k) s') ->
  oloop a b f s = Ok s' -> P b s'.
Proof.
  intros Hab H0 Hs. unfold oloop.
  assert (G : forall n a s, a + n = b -> P a s ->
     (forall k s s', a <= k < b -> P k s -> f k s = Ok s' -> P (1 + k) s') ->
     ofold (fun s k => f k s) (seq a n) s = Ok s' -> P b s').
  { induction n as [|n IH]; intros a0 s0 E H Hk; simpl.
    - rewrite Nat.add_0_r in E. subst. congruence.
    - destruct (f a0 s0) as [s1| | |] eqn:E1; try discriminate. simpl. intros Ho.
      apply (IH (1 + a0) s1); auto; [lia| |].
      + eapply Hk; eauto. lia.
      + intros k s2 s3 Hk2 Hp. apply Hk; [lia|auto]. }
  apply G; auto. lia.
Qed.

Lemma upd_same {T} (a : nat -> T) i v : upd a i v i = v.
Proof. unfold upd. now rewrite Nat.eqb_refl. Qed.
Lemma upd_other {T} (a : nat -> T) i v k : k <> i -> upd a i v k = a k.
Proof. unfold upd. intros H. apply Nat.eqb_neq in H. now rewrite H. Qed.
Lemma upd2_same {T} (m : nat -> nat -> T) i j v : upd2 m i j v i j = v.
Proof. unfold upd2. now rewrite !Nat.eqb_refl. Qed.
Lemma upd2_other {T} (m : nat -> nat -> T) i j v a b : a <> i \/ b <> j -> upd2 m i j v a b = m a b.
Proof.
  unfold upd2. intros H. destruct (Nat.eqb_spec a i), (Nat.eqb_spec b j); simpl; auto. lia.
Qed.

Lemma Rsum_ext n f g : (forall k, k < n -> f k = g k) -> Rsum n f = Rsum n g.
Proof. induction n as [|n IH]; intros H; simpl; auto. rewrite IH, H; auto. Qed.
Lemma Rsum_plus n f g : Rsum n (fun k => (f k + g k)%R) = (Rsum n f + Rsum n g)%R.
Proof. induction n as [|n IH]; simpl; [ring|]. rewrite IH. ring. Qed.
Lemma Rsum_scal n c f : Rsum n (fun k => (c * f k)%R) = (c * Rsum n f)%R.
Proof. induction n as [|n IH]; simpl; [ring|]. rewrite IH. ring. Qed.
Lemma Rsum_zero n f : (forall k, k < n -> f k = 0%R) -> Rsum n f = 0%R.
Proof. induction n as [|n IH]; intros H; simpl; auto. rewrite IH, H by auto. ring. Qed.
Lemma Rsum_minus n f g : Rsum n (fun k => (f k - g k)%R) = (Rsum n f - Rsum n g)%R.
Proof. induction n as [|n IH]; simpl; [ring|]. rewrite IH. ring. Qed.
Lemma Rsum_swap n m f : Rsum n (fun i => Rsum m (fun j => f i j)) = Rsum m (fun j => Rsum n (fun i => f i j)).
Proof.
  induction n as [|n IH]; simpl.
  - symmetry. now apply Rsum_zero.
  - rewrite IH, <- Rsum_plus. reflexivity.
Qed.
Lemma Rsum_single n f i : i < n -> (forall k, k < n -> k <> i -> f k = 0%R) -> Rsum n f = f i.
Proof.
  induction n as [|n IH]; intros Hi H; [lia|]. simpl. destruct (Nat.eq_dec i n) as [->|Hne].
  - rewrite Rsum_zero; [ring|]. intros; apply H; lia.
  - rewrite IH, (H n) by (auto; lia). ring.
Qed.
Lemma Rsum_split a b f : Rsum (a + b) f = (Rsum a f + Rsum b (fun k => f (a + k)%nat))%R.
Proof. induction b as [|b IH]; [rewrite Nat.add_0_r; simpl; ring|]. rewrite Nat.add_succ_r. simpl. rewrite IH. ring. Qed.
Lemma Rsum_le n f g : (forall k, k < n -> (f k <= g k)%R) -> (Rsum n f <= Rsum n g)%R.
Proof. induction n as [|n IH]; intros H; simpl; [apply Rle_refl|]. apply Rplus_le_compat; auto. Qed.
Lemma Rsum_nonneg n f : (forall k, k < n -> (0 <= f k)%R) -> (0 <= Rsum n f)%R.
Proof. intros H. rewrite <- (Rsum_zero n (fun _ => 0%R)); auto. now apply Rsum_le. Qed.

(** accumulation loops *)
Lemma floop_acc a b g s : a <= b -> floop a b (fun k s => (s + g k)%R) s = (s + Rsum (b - a) (fun k => g (a + k)%nat))%R.
Proof.
  intros H. pose (P := fun k t => t = (s + Rsum (k - a) (fun k => g (a + k)%nat))%R).
  change (P b (floop a b (fun k s => (s + g k)%R) s)). apply floop_ind; auto.
  - unfold P. rewrite Nat.sub_diag. simpl. ring.
  - unfold P. intros k t Hk ->. replace (1 + k - a) with (S (k - a)) by lia. simpl.
    replace (a + (k - a)) with k by lia. ring.
Qed.
Lemma floop_sub a b g s : a <= b -> floop a b (fun k s => (s - g k)%R) s = (s - Rsum (b - a) (fun k => g (a + k)%nat))%R.
Proof.
  intros H. pose (P := fun k t => t = (s - Rsum (k - a) (fun k => g (a + k)%nat))%R).
  change (P b (floop a b (fun k s => (s - g k)%R) s)). apply floop_ind; auto.
  - unfold P. rewrite Nat.sub_diag. simpl. ring.
  - unfold P. intros k t Hk ->. replace (1 + k - a) with (S (k - a)) by lia. simpl.
    replace (a + (k - a)) with k by lia. ring.
Qed.
