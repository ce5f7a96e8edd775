(** Proofs about the hexahedron: forces and tangent (virtual work identities). *)
From Verif Require Import Base Loops TensorModel TensorSpec TensorProofs PolarProofs ElementModel ElementSpec ElementProofs ElementProofs2.
From Coq Require Import Reals Lra Psatz.
Set Implicit Arguments.
Local Open Scope R_scope.

Lemma Rsum_mul_l n c f : c * Rsum n f = Rsum n (fun k => c * f k).
Proof. symmetry. apply Rsum_scal. Qed.
Lemma Rsum_mul_r n c f : Rsum n f * c = Rsum n (fun k => f k * c).
Proof. rewrite Rmult_comm, Rsum_mul_l. apply Rsum_ext. intros; ring. Qed.
Lemma Rsum_opp n f : - Rsum n f = Rsum n (fun k => - f k).
Proof. replace (- Rsum n f) with ((-1) * Rsum n f) by ring. rewrite Rsum_mul_l. apply Rsum_ext. intros; ring. Qed.

(** ** Nested accumulation loops *)
Lemma acc_point m (t : nat -> nat -> R) i j g a b :
  floop 0 m (fun k t => upd2 t i j (t i j + g k)) t a b = if ((a =? i)%nat && (b =? j)%nat)%bool then t a b + Rsum m g else t a b.
Proof.
  pose (P := fun k (s : nat -> nat -> R) => forall a b, s a b = if ((a =? i)%nat && (b =? j)%nat)%bool then t a b + Rsum k g else t a b).
  enough (H : P m (floop 0 m (fun k t => upd2 t i j (t i j + g k)) t)) by apply H.
  apply floop_ind; [lia| |].
  - intros a' b'. simpl. destruct (_ && _)%bool; ring.
  - intros k s Hk IH a' b'. unfold upd2. simpl Rsum. rewrite !IH. rewrite !Nat.eqb_refl. cbn [andb].
    destruct (Nat.eqb_spec a' i), (Nat.eqb_spec b' j); cbn [andb]; subst; ring.
Qed.
Lemma acc_row m J (t : nat -> nat -> R) i g a b :
  floop 0 J (fun j t => floop 0 m (fun k t => upd2 t i j (t i j + g j k)) t) t a b =
  if ((a =? i)%nat && (b <? J)%nat)%bool then t a b + Rsum m (g b) else t a b.
Proof.
  pose (P := fun J (s : nat -> nat -> R) => forall a b, s a b = if ((a =? i)%nat && (b <? J)%nat)%bool then t a b + Rsum m (g b) else t a b).
  enough (H : P J (floop 0 J (fun j t => floop 0 m (fun k t => upd2 t i j (t i j + g j k)) t) t)) by apply H.
  apply floop_ind; [lia| |].
  - intros a' b'. cbn [Nat.ltb Nat.leb]. now rewrite Bool.andb_false_r.
  - intros k s Hk IH a' b'. rewrite acc_point, !IH.
    destruct (Nat.eqb_spec a' i), (Nat.eqb_spec b' k), (Nat.ltb_spec b' k), (Nat.ltb_spec b' (1 + k)); cbn [andb]; try lia; subst; ring.
Qed.
Lemma acc_all m I J (t : nat -> nat -> R) g a b : (a < I)%nat -> (b < J)%nat ->
  floop 0 I (fun i t => floop 0 J (fun j t => floop 0 m (fun k t => upd2 t i j (t i j + g i j k)) t) t) t a b =
  t a b + Rsum m (g a b).
Proof.
  intros Ha Hb.
  pose (P := fun I (s : nat -> nat -> R) => forall a b, (b < J)%nat -> s a b = if (a <? I)%nat then t a b + Rsum m (g a b) else t a b).
  enough (H : P I (floop 0 I (fun i t => floop 0 J (fun j t => floop 0 m (fun k t => upd2 t i j (t i j + g i j k)) t) t) t)).
  { rewrite H by assumption. destruct (Nat.ltb_spec a I); [reflexivity|lia]. }
  apply floop_ind; [lia|intros a' b' _; reflexivity|].
  intros k s Hk IH a' b' Hb'. rewrite acc_row, !IH by assumption.
  destruct (Nat.eqb_spec a' k), (Nat.ltb_spec b' J), (Nat.ltb_spec a' k), (Nat.ltb_spec a' (1 + k)); cbn [andb]; try lia; subst; ring.
Qed.
(** the same on a flat array with row length J *)
Lemma flat_inj J i j a b : (j < J)%nat -> (b < J)%nat -> (i * J + j = a * J + b)%nat -> i = a /\ j = b.
Proof. intros. assert (i = a) by nia. subst. lia. Qed.
Lemma flat_all m I J (t : arr) g a b : (a < I)%nat -> (b < J)%nat ->
  floop 0 I (fun i t => floop 0 J (fun j t => floop 0 m (fun k t => upd t (i * J + j)%nat (t (i * J + j)%nat + g i j k)) t) t) t (a * J + b)%nat =
  t (a * J + b)%nat + Rsum m (g a b).
Proof.
  intros Ha Hb.
  pose (P := fun I (s : arr) => forall a b, (b < J)%nat -> s (a * J + b)%nat = if (a <? I)%nat then t (a * J + b)%nat + Rsum m (g a b) else t (a * J + b)%nat).
  match goal with |- ?X _ = _ => enough (H : P I X) end.
  { rewrite H by assumption. destruct (Nat.ltb_spec a I); [reflexivity|lia]. }
  apply floop_ind; [lia|intros a' b' _; reflexivity|].
  intros k s Hk IH a' b' Hb'. clear a Ha b Hb.
  pose (Q := fun J' (w : arr) => forall a b, (b < J)%nat -> w (a * J + b)%nat = if ((a =? k)%nat && (b <? J')%nat)%bool then s (a * J + b)%nat + Rsum m (g a b) else s (a * J + b)%nat).
  match goal with |- ?X _ = _ => assert (H : Q J X) end.
  { unfold Q. match goal with |- forall a b, _ -> ?X _ = _ => change (Q J X) end.
    apply floop_ind; [lia| |].
    - intros a b Hb. cbn [Nat.ltb Nat.leb]. now rewrite Bool.andb_false_r.
    - intros j w Hj IHj a b Hb.
      pose (Z := fun m' (z : arr) => forall a b, (b < J)%nat -> z (a * J + b)%nat = if ((a =? k)%nat && (b =? j)%nat)%bool then w (a * J + b)%nat + Rsum m' (g a b) else w (a * J + b)%nat).
      match goal with |- ?X _ = _ => assert (H : Z m X) end.
      { unfold Z. match goal with |- forall a b, _ -> ?X _ = _ => change (Z m X) end. apply floop_ind; [lia| |].
        - intros c d Hd. simpl. destruct (_ && _)%bool; ring.
        - intros k0 z Hk0 IHz c d Hd. unfold upd.
          destruct (Nat.eqb_spec (c * J + d) (k * J + j)) as [E|E].
          + apply flat_inj in E; [|assumption|lia]. destruct E; subst. rewrite IHz by lia. rewrite !Nat.eqb_refl. simpl. ring.
          + rewrite IHz by assumption. destruct (Nat.eqb_spec c k), (Nat.eqb_spec d j); cbn [andb]; subst; try reflexivity. exfalso; apply E; reflexivity. }
      rewrite H by assumption. rewrite !IHj by assumption.
      destruct (Nat.eqb_spec a k), (Nat.eqb_spec b j), (Nat.ltb_spec b j), (Nat.ltb_spec b (1 + j)); cbn [andb]; try lia; subst; ring. }
  rewrite H by assumption. rewrite !IH by assumption.
  destruct (Nat.eqb_spec a' k), (Nat.ltb_spec b' J), (Nat.ltb_spec a' k), (Nat.ltb_spec a' (1 + k)); cbn [andb]; try lia; subst; ring.
Qed.
Lemma flat_zero I J (t : arr) a b : (a < I)%nat -> (b < J)%nat ->
  floop 0 I (fun i t => floop 0 J (fun j t => upd t (i * J + j)%nat 0) t) t (a * J + b)%nat = 0.
Proof.
  intros Ha Hb.
  pose (P := fun I (s : arr) => forall a b, (a < I)%nat -> (b < J)%nat -> s (a * J + b)%nat = 0).
  match goal with |- ?X _ = _ => enough (H : P I X) by (apply H; assumption) end.
  apply floop_ind; [lia|intros ? ? ?; lia|]. clear a b Ha Hb.
  intros k s Hk IH a b Ha Hb.
  pose (Q := fun J' (w : arr) => forall a b, (b < J)%nat -> (a < k)%nat \/ a = k /\ (b < J')%nat -> w (a * J + b)%nat = 0).
  match goal with |- ?X _ = _ => enough (H : Q J X) by (apply H; [assumption|]; lia) end.
  apply floop_ind; [lia| |].
  - intros c d Hd [Hc|[_ Hc]]; [apply IH; assumption|lia].
  - intros j w Hj IHj c d Hd Hc. unfold upd. destruct (Nat.eqb_spec (c * J + d) (k * J + j)) as [E|E]; [reflexivity|].
    apply IHj; [assumption|]. destruct Hc as [Hc|[-> Hc]]; [now left|right]. split; [reflexivity|].
    assert (d <> j) by (intros ->; now apply E). lia.
Qed.

(** ** Forces *)
Definition force_term (x : nat -> nat -> R) (s : arr) (q n j : nat) : R :=
  mdet (jac x q) * Rsum 3 (fun i => gradN x q n i * stress_at s q i j).

Lemma grad_expand x q n i inv : (q < 8)%nat -> (n < 8)%nat -> (i < 3)%nat -> meq inv (minv (jac x q)) ->
  shape_fcn_deriv (24 * q + 3 * n)%nat * at2 inv 0 i + shape_fcn_deriv (24 * q + 3 * n + 1)%nat * at2 inv 1 i
  + shape_fcn_deriv (24 * q + 3 * n + 2)%nat * at2 inv 2 i = gradN x q n i.
Proof.
  intros Hq Hn Hi Hinv. unfold gradN, at2. cbn [Rsum]. rewrite !(meq_elim Hinv) by lia.
  rewrite <- (Nat.add_0_r (24 * q + 3 * n)) at 1. rewrite !deriv_at by lia. ring.
Qed.

Lemma forces_ok coords s f0 : let x := nodes coords in well_shaped x ->
  exists f, compute_nodal_forces coords s f0 = Ok f /\
    (forall n j, (n < 8)%nat -> (j < 3)%nat -> f (3 * n + j)%nat = - Rsum 8 (fun q => force_term x s q n j)) /\
    forall k, (24 <= k)%nat -> f k = f0 k.
Proof.
  intros x Hw. unfold compute_nodal_forces.
  match goal with |- context [oloop 0 8 ?f1 ?s1] =>
    destruct (@oloop_ind _ (fun m (st : (nat -> nat -> R) * (nat -> nat -> R)) =>
       forall n j, (n < 8)%nat -> (j < 3)%nat -> snd st n j = - Rsum m (fun q => force_term x s q n j)) 0%nat 8%nat f1 s1) as (s' & E & H1) end; [lia| | |].
  - intros n j Hn Hj. cbn. unfold zero3. ring.
  - intros q [a_inv force] Hq IH. cbn [snd] in IH. cbv zeta beta.
    match goal with |- context [invert3x3 (jacobian_loop ?y q) _] =>
      assert (HJ : meq (jacobian_loop y q) (jac x q)) by (apply jacobian_loop_jac; [lia|intros; unfold x, nodes; ring]) end.
    destruct (invert_jac a_inv HJ (Hw q ltac:(lia))) as (inv & E & Hinv). rewrite E. cbn [obind fst snd]. clear E.
    eexists. split; [reflexivity|]. cbn [snd].
    pose (P := fun m (fo : nat -> nat -> R) => forall n j, (n < 8)%nat -> (j < 3)%nat -> fo n j = if (n <? m)%nat then force n j - force_term x s q n j else force n j).
    match goal with |- forall n j, _ -> _ -> ?X _ _ = _ => enough (H : P 8%nat X) end.
    { intros n j Hn Hj. rewrite H by assumption. destruct (Nat.ltb_spec n 8); [|lia]. rewrite IH by assumption.
      cbn [Nat.add]. change (Rsum (S q) (fun q => force_term x s q n j)) with (Rsum q (fun q => force_term x s q n j) + force_term x s q n j). ring. }
    apply floop_ind; [lia|intros n j _ _; reflexivity|].
    intros m fo Hm IHm n j Hn Hj. replace (q * 24)%nat with (24 * q)%nat by lia.
    (rewrite (@grad_expand x q m 0 inv) by (auto; lia); rewrite (@grad_expand x q m 1 inv) by (auto; lia); rewrite (@grad_expand x q m 2 inv) by (auto; lia)).
    unfold int_wts, at2, upd2.
    destruct (Nat.eqb_spec n m) as [->|Hne].
    + pose proof (IHm m 0%nat ltac:(lia) ltac:(lia)) as I0. pose proof (IHm m 1%nat ltac:(lia) ltac:(lia)) as I1. pose proof (IHm m 2%nat ltac:(lia) ltac:(lia)) as I2.
      rewrite Nat.ltb_irrefl in I0, I1, I2. destruct (Nat.ltb_spec m (1 + m)); [|lia].
      unfold force_term, stress_at. cbn [Rsum].
      idx3 j; cbn [andb Nat.eqb]; rewrite ?Nat.eqb_refl; cbn [andb];
        rewrite ?I0, ?I1, ?I2; cbv [sym sym_index K_S_XX K_S_YY K_S_ZZ K_S_XY K_S_YZ K_S_ZX K_S_YX K_S_ZY K_S_XZ]; ring.
    + cbn [andb]. rewrite IHm by assumption.
      destruct (Nat.ltb_spec n m), (Nat.ltb_spec n (1 + m)); try lia; reflexivity.
  - rewrite E. cbn [obind]. eexists. split; [reflexivity|].
    pose (P := fun m (fo : arr) => (forall n j, (n < m)%nat -> (j < 3)%nat -> fo (3 * n + j)%nat = snd s' n j) /\ forall k, (3 * m <= k)%nat -> fo k = f0 k).
    match goal with |- (forall n j, _ -> _ -> ?X _ = _) /\ _ => enough (H : P 8%nat X) end.
    { destruct H as [H H']. split; [|exact H']. intros n j Hn Hj. rewrite H by assumption. apply H1; assumption. }
    apply floop_ind; [lia|split; [intros; lia|reflexivity]|].
    intros m fo Hm [IHm IHk]. split.
    + intros n j Hn Hj. unfold upd.
      destruct (Nat.eq_dec n m) as [->|Hne].
      * idx3 j; repeat match goal with |- context [Nat.eqb ?a ?b] => destruct (Nat.eqb_spec a b) as [E'|_]; [exfalso; lia|] || (replace (Nat.eqb a b) with true by (symmetry; apply Nat.eqb_eq; lia)) end; reflexivity.
      * repeat match goal with |- context [Nat.eqb ?a ?b] => destruct (Nat.eqb_spec a b) as [E'|_]; [exfalso; lia|] end. apply IHm; lia.
    + intros k Hk. unfold upd. repeat match goal with |- context [Nat.eqb ?a ?b] => destruct (Nat.eqb_spec a b) as [E'|_]; [exfalso; lia|] end. apply IHk. lia.
Qed.

Lemma stress_sym s q i j : (i < 3)%nat -> (j < 3)%nat -> stress_at s q i j = stress_at s q j i.
Proof. intros Hi Hj. idx3 i; idx3 j; reflexivity. Qed.

Lemma virtual_work x s f v G : well_shaped x -> gradient_of x v G ->
  (forall n j, (n < 8)%nat -> (j < 3)%nat -> f (3 * n + j)%nat = - Rsum 8 (fun q => force_term x s q n j)) ->
  Rsum 8 (fun n => Rsum 3 (fun j => v n j * nodes f n j)) = - Rsum 8 (fun q => mdet (jac x q) * contract (stress_at s q) (G q)).
Proof.
  intros Hw HG Hf.
  transitivity (Rsum 8 (fun n => Rsum 8 (fun q => - (mdet (jac x q) * Rsum 3 (fun j => v n j * Rsum 3 (fun i => gradN x q n i * stress_at s q i j)))))).
  - apply Rsum_ext. intros n Hn.
    transitivity (Rsum 3 (fun j => Rsum 8 (fun q => - (v n j * force_term x s q n j)))).
    + apply Rsum_ext. intros j Hj. unfold nodes. rewrite Hf by assumption. rewrite Rsum_opp, Rsum_mul_l. apply Rsum_ext. intros; ring.
    + rewrite Rsum_swap. apply Rsum_ext. intros q Hq. rewrite Rsum_mul_l, Rsum_opp. apply Rsum_ext. intros j Hj. unfold force_term. ring.
  - rewrite Rsum_swap, Rsum_opp. apply Rsum_ext. intros q Hq. rewrite <- Rsum_opp, <- Rsum_mul_l. f_equal. f_equal.
    transitivity (Rsum 3 (fun j => Rsum 3 (fun i => stress_at s q i j * Rsum 8 (fun n => v n j * gradN x q n i)))).
    + generalize (stress_at s q) as S. intros S. generalize (gradN x q) as g. intros g. cbv [Rsum]. ring.
    + unfold contract. apply Rsum_ext. intros j Hj. apply Rsum_ext. intros i Hi.
      rewrite (@gradN_field x v G q j i) by (auto). rewrite (stress_sym s q Hi Hj). reflexivity.
Qed.
Lemma forces_abort coords s f0 : ~ well_shaped (nodes coords) -> compute_nodal_forces coords s f0 = Abort.
Proof.
  intros Hw. destruct (shaped_dec (nodes coords)) as [Hs|(q & Hq & Hd)]; [contradiction|].
  unfold compute_nodal_forces. rewrite (@oloop_abort_at _ 8 q); auto.
  - intros k [b fo] Hk. cbv zeta.
    match goal with |- context [invert3x3 ?a ?r] => destruct (Rlt_dec 0 (mdet a)) as [Hp|Hn] end.
    + left. match goal with |- context [invert3x3 ?a ?r] => destruct (@invert3_ok a r Hp) as (inv & E & _) end. rewrite E. cbn [obind]. eexists; reflexivity.
    + right. rewrite invert3_fail by lra. reflexivity.
  - intros [b fo]. cbv zeta. rewrite invert_jac_fail with (J := jac (nodes coords) q); [reflexivity| |exact Hd].
    apply jacobian_loop_jac; [exact Hq|]. intros; unfold nodes; ring.
Qed.
