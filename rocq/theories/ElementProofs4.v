(** Proofs about the hexahedron: tangent stiffness, masses, volume averages, characteristic length. *)
From Verif Require Import Base Loops TensorModel TensorSpec TensorProofs PolarProofs ElementModel ElementSpec ElementProofs ElementProofs2 ElementProofs3.
From Coq Require Import Reals Lra Psatz.
Set Implicit Arguments.
Local Open Scope R_scope.

(** ** Tangent *)
(** entry of the strain-displacement matrix: row k, component c of a node with shape gradient g *)
Definition bcoef (k c : nat) (g : nat -> R) : R :=
  match k, c with
  | 0%nat, 0%nat => g 0%nat | 1%nat, 1%nat => g 1%nat | 2%nat, 2%nat => g 2%nat
  | 3%nat, 0%nat => g 1%nat | 3%nat, 1%nat => g 0%nat
  | 4%nat, 1%nat => g 2%nat | 4%nat, 2%nat => g 1%nat
  | 5%nat, 0%nat => g 2%nat | 5%nat, 2%nat => g 0%nat
  | _, _ => 0
  end.
Definition unwritten_zero (B : nat -> nat -> R) : Prop :=
  forall k n c, (k < 6)%nat -> (n < 8)%nat -> (c < 3)%nat -> (forall g, bcoef k c g = 0) -> B k (3 * n + c)%nat = 0.
Ltac idx6 i := destruct i as [|[|[|[|[|[|i]]]]]]; [| | | | | |exfalso; lia].
Lemma col_eqb n c m d : (c < 3)%nat -> (d < 3)%nat -> (3 * n + c =? 3 * m + d)%nat = ((n =? m) && (c =? d))%nat.
Proof.
  intros Hc Hd. destruct (Nat.eqb_spec (3 * n + c) (3 * m + d)), (Nat.eqb_spec n m), (Nat.eqb_spec c d); cbn [andb]; auto; exfalso; lia.
Qed.
Lemma tangent_B_spec x q inv B : (q < 8)%nat -> meq inv (minv (jac x q)) -> unwritten_zero B ->
  forall k n c, (k < 6)%nat -> (n < 8)%nat -> (c < 3)%nat -> tangent_B q inv B k (3 * n + c)%nat = bcoef k c (gradN x q n).
Proof.
  intros Hq Hinv HB.
  pose (P := fun m (B' : nat -> nat -> R) => forall k n c, (k < 6)%nat -> (n < 8)%nat -> (c < 3)%nat ->
     B' k (3 * n + c)%nat = if (n <? m)%nat then bcoef k c (gradN x q n) else B k (3 * n + c)%nat).
  enough (H : P 8%nat (tangent_B q inv B)).
  { intros k n c Hk Hn Hc. rewrite H by assumption. destruct (Nat.ltb_spec n 8); [reflexivity|lia]. }
  unfold tangent_B. apply floop_ind; [lia|intros ? ? ? _ _ _; reflexivity|].
  intros m B' Hm IH k n c Hk Hn Hc. cbv zeta.
  rewrite (@grad_expand x q m 0 inv), (@grad_expand x q m 1 inv), (@grad_expand x q m 2 inv) by (auto; lia).
  unfold upd2. replace (3 * m)%nat with (3 * m + 0)%nat by lia. rewrite <- !Nat.add_assoc. change (0 + 1)%nat with 1%nat. change (0 + 2)%nat with 2%nat. rewrite !col_eqb by lia.
  specialize (IH k n c Hk Hn Hc).
  destruct (Nat.eqb_spec n m) as [->|Hne].
  - rewrite Nat.ltb_irrefl in IH. destruct (Nat.ltb_spec m (1 + m)) as [_|]; [|lia]. cbn [andb].
    pose proof (HB k m c Hk Hn Hc) as Hz.
    idx6 k; idx3 c; cbn [Nat.eqb andb bcoef]; try reflexivity; rewrite IH; apply Hz; reflexivity.
  - cbn [andb]. rewrite !Bool.andb_false_r. rewrite IH.
    destruct (Nat.ltb_spec n m), (Nat.ltb_spec n (1 + m)); try lia; reflexivity.
Qed.

Lemma tangent_temp_spec q C B i j : (i < 6)%nat -> (j < 24)%nat ->
  tangent_temp q C B i j = Rsum 6 (fun k => C (36 * q + 6 * i + k)%nat * B k j).
Proof.
  intros Hi Hj. unfold tangent_temp.
  rewrite (@acc_all 6 6 24 zero3 (fun i j k => C (36 * q + 6 * i + k)%nat * B k j) i j Hi Hj). unfold zero3. ring.
Qed.
Lemma tangent_add_spec q d B T t i j : (i < 24)%nat -> (j < 24)%nat ->
  tangent_add q d B T t (i * 24 + j)%nat = t (i * 24 + j)%nat + Rsum 6 (fun k => B k i * T k j * d).
Proof.
  intros Hi Hj. unfold tangent_add.
  rewrite (@flat_all 6 24 24 t (fun i j k => B k i * T k j * int_wts q * d) i j Hi Hj). f_equal.
  apply Rsum_ext. intros. unfold int_wts. ring.
Qed.
Definition bmat (x : nat -> nat -> R) (q k col : nat) : R := bcoef k (col mod 3) (gradN x q (col / 3)).

Lemma tangent_ok coords C t0 : let x := nodes coords in well_shaped x ->
  exists K, compute_tangent coords C t0 = Ok K /\
    forall i j, (i < 24)%nat -> (j < 24)%nat ->
      K (i * 24 + j)%nat = Rsum 8 (fun q => Rsum 6 (fun k => bmat x q k i * Rsum 6 (fun l => cmat C q k l * bmat x q l j) * mdet (jac x q))).
Proof.
  intros x Hw. unfold compute_tangent. cbv zeta.
  match goal with |- context [oloop 0 8 ?f1 (zero3, ?t1)] =>
    destruct (@oloop_ind _ (fun m (st : (nat -> nat -> R) * arr) =>
       unwritten_zero (fst st) /\
       forall i j, (i < 24)%nat -> (j < 24)%nat -> snd st (i * 24 + j)%nat =
         Rsum m (fun q => Rsum 6 (fun k => bmat x q k i * Rsum 6 (fun l => cmat C q k l * bmat x q l j) * mdet (jac x q)))) 0%nat 8%nat f1 (zero3, t1)) as (s' & E & _ & H1) end; [lia| | |].
  - split; [intros ? ? ? _ _ _ _; reflexivity|]. intros i j Hi Hj. cbn [snd Rsum]. now rewrite flat_zero.
  - intros q [B t] Hq [IHB IHt]. cbn [fst snd] in IHB, IHt.
    match goal with |- context [invert3x3 (jacobian_loop ?y q) _] =>
      assert (HJ : meq (jacobian_loop y q) (jac x q)) by (apply jacobian_loop_jac; [lia|reflexivity]) end.
    destruct (invert_jac zero3 HJ (Hw q ltac:(lia))) as (inv & E & Hinv). rewrite E. cbn [obind fst snd]. clear E.
    eexists. split; [reflexivity|]. cbn [fst snd].
    pose proof (@tangent_B_spec x q inv B ltac:(lia) Hinv IHB) as HB'.
    set (B' := tangent_B q inv B) in *. clearbody B'. split.
    + intros k n c Hk Hn Hc Hz. rewrite HB' by assumption. apply Hz.
    + assert (Hb : forall k j, (k < 6)%nat -> (j < 24)%nat -> B' k j = bmat x q k j).
      { intros k j Hk Hj. unfold bmat. rewrite (Nat.div_mod j 3) at 1 by lia. apply HB'; [assumption| |].
        - apply Nat.div_lt_upper_bound; lia.
        - apply Nat.mod_upper_bound. lia. }
      intros i j Hi Hj. rewrite tangent_add_spec, IHt by assumption. cbn [Nat.add].
      match goal with |- _ = Rsum (S q) ?f => change (Rsum (S q) f) with (Rsum q f + f q) end. f_equal.
      apply Rsum_ext. intros k Hk. rewrite tangent_temp_spec, Hb by assumption. f_equal. f_equal.
      apply Rsum_ext. intros l Hl. unfold cmat. now rewrite Hb.
  - rewrite E. cbn [obind]. exists (snd s'). split; [reflexivity|exact H1].
Qed.

Lemma Rsum_24 f : Rsum 24 f = Rsum 8 (fun n => Rsum 3 (fun c => f (3 * n + c)%nat)).
Proof. cbv [Rsum Nat.mul Nat.add]. ring. Qed.
Lemma bmat_strain x u G q k : (q < 8)%nat -> 0 < mdet (jac x q) -> meq (mmul (G q) (jac x q)) (jac (nodes u) q) -> (k < 6)%nat ->
  Rsum 24 (fun i => bmat x q k i * u i) = eng_strain (G q) k.
Proof.
  intros Hq Hd HG Hk. rewrite Rsum_24.
  pose proof (@gradN_field x (nodes u) G q) as F.
  assert (D : forall n c, (c < 3)%nat -> ((3 * n + c) / 3 = n /\ (3 * n + c) mod 3 = c)%nat).
  { intros n c Hc. split; [symmetry; apply (Nat.div_unique _ 3 n c); lia|symmetry; apply (Nat.mod_unique _ 3 n c); lia]. }
  transitivity (Rsum 8 (fun n => Rsum 3 (fun c => bcoef k c (gradN x q n) * nodes u n c))).
  { apply Rsum_ext. intros n Hn. apply Rsum_ext. intros c Hc. unfold bmat. destruct (D n c Hc) as [-> ->]. reflexivity. }
  set (w := nodes u) in *. generalize dependent (gradN x q). intros g F. clear D.
  assert (F' : forall i j, (i < 3)%nat -> (j < 3)%nat -> Rsum 8 (fun n => w n i * g n j) = G q i j) by (intros; apply F; auto).
  idx6 k; cbn [eng_strain bcoef]; rewrite <- ?F' by lia; cbv [Rsum]; ring.
Qed.
Lemma quad_form x C K u v Gu Gv : well_shaped x -> gradient_of x (nodes u) Gu -> gradient_of x (nodes v) Gv ->
  (forall i j, (i < 24)%nat -> (j < 24)%nat ->
      K (i * 24 + j)%nat = Rsum 8 (fun q => Rsum 6 (fun k => bmat x q k i * Rsum 6 (fun l => cmat C q k l * bmat x q l j) * mdet (jac x q)))) ->
  quad 24 K u v = Rsum 8 (fun q => mdet (jac x q) * Rsum 6 (fun k => Rsum 6 (fun l => eng_strain (Gu q) k * cmat C q k l * eng_strain (Gv q) l))).
Proof.
  intros Hw Hu Hv HK. unfold quad.
  transitivity (Rsum 24 (fun i => Rsum 24 (fun j => Rsum 8 (fun q => Rsum 6 (fun k => Rsum 6 (fun l =>
     mdet (jac x q) * ((bmat x q k i * u i) * cmat C q k l * (bmat x q l j * v j)))))))).
  { apply Rsum_ext. intros i Hi. apply Rsum_ext. intros j Hj. rewrite HK by assumption.
    rewrite Rsum_mul_l, Rsum_mul_r. apply Rsum_ext. intros q Hq.
    rewrite Rsum_mul_l, Rsum_mul_r. apply Rsum_ext. intros k Hk.
    rewrite Rsum_mul_l, Rsum_mul_r, Rsum_mul_l, Rsum_mul_r. apply Rsum_ext. intros l Hl. ring. }
  transitivity (Rsum 8 (fun q => Rsum 6 (fun k => Rsum 6 (fun l => Rsum 24 (fun i => Rsum 24 (fun j =>
     mdet (jac x q) * ((bmat x q k i * u i) * cmat C q k l * (bmat x q l j * v j)))))))).
  { etransitivity; [apply Rsum_ext; intros i Hi; apply Rsum_swap|]. rewrite Rsum_swap. apply Rsum_ext. intros q Hq.
    etransitivity; [apply Rsum_ext; intros i Hi; apply Rsum_swap|]. rewrite Rsum_swap. apply Rsum_ext. intros k Hk.
    etransitivity; [apply Rsum_ext; intros i Hi; apply Rsum_swap|]. rewrite Rsum_swap. reflexivity. }
  apply Rsum_ext. intros q Hq. rewrite Rsum_mul_l. apply Rsum_ext. intros k Hk. rewrite Rsum_mul_l. apply Rsum_ext. intros l Hl.
  rewrite <- (@bmat_strain x u Gu q k Hq (Hw q Hq) (Hu q Hq) Hk), <- (@bmat_strain x v Gv q l Hq (Hw q Hq) (Hv q Hq) Hl).
  rewrite !Rsum_mul_r, !Rsum_mul_l. apply Rsum_ext. intros i Hi. rewrite !Rsum_mul_l. apply Rsum_ext. intros j Hj. ring.
Qed.
Lemma tangent_abort coords C t0 : ~ well_shaped (nodes coords) -> compute_tangent coords C t0 = Abort.
Proof.
  intros Hw. destruct (shaped_dec (nodes coords)) as [Hs|(q & Hq & Hd)]; [contradiction|].
  unfold compute_tangent. cbv zeta. rewrite (@oloop_abort_at _ 8 q); auto.
  - intros k [b fo] Hk.
    match goal with |- context [invert3x3 ?a ?r] => destruct (Rlt_dec 0 (mdet a)) as [Hp|Hn] end.
    + left. match goal with |- context [invert3x3 ?a ?r] => destruct (@invert3_ok a r Hp) as (inv & E & _) end. rewrite E. cbn [obind]. eexists; reflexivity.
    + right. rewrite invert3_fail by lra. reflexivity.
  - intros [b fo]. rewrite invert_jac_fail with (J := jac (nodes coords) q); [reflexivity| |exact Hd].
    apply jacobian_loop_jac; [exact Hq|reflexivity].
Qed.

(** ** Masses *)
Lemma reset_acc m (t : nat -> nat -> R) i j g a b :
  floop 0 m (fun k t => upd2 t i j (t i j + g k)) (upd2 t i j 0) a b = if ((a =? i)%nat && (b =? j)%nat)%bool then Rsum m g else t a b.
Proof.
  rewrite acc_point. unfold upd2. destruct (_ && _)%bool; ring.
Qed.
Lemma mass_ok rho coords : let x := nodes coords in well_shaped x ->
  exists M, compute_consistent_mass rho (fun n i => coords (3 * n + i)%nat) zero3 = Ok M /\
    forall i j, (i < 8)%nat -> (j < 8)%nat -> M i j = Rsum 8 (fun q => rho * shape i (gauss q) * shape j (gauss q) * mdet (jac x q)).
Proof.
  intros x Hw. unfold compute_consistent_mass. cbv zeta.
  match goal with |- context [oloop 0 8 ?f1 ?t1] =>
    destruct (@oloop_ind _ (fun m (d : nat -> R) => forall q, (q < m)%nat -> d q = mdet (jac x q)) 0%nat 8%nat f1 t1) as (d & E & H1) end; [lia| | |].
  - intros; lia.
  - intros q d Hq IH.
    match goal with |- context [invert3x3 (jacobian_loop ?y q) _] =>
      assert (HJ : meq (jacobian_loop y q) (jac x q)) by (apply jacobian_loop_jac; [lia|reflexivity]) end.
    destruct (invert_jac zero3 HJ (Hw q ltac:(lia))) as (inv & E & Hinv). rewrite E. cbn [obind fst snd].
    eexists. split; [reflexivity|]. intros q' Hq'. unfold upd. destruct (Nat.eqb_spec q' q) as [->|]; [reflexivity|apply IH; lia].
  - rewrite E. cbn [obind]. eexists. split; [reflexivity|].
    pose (g := fun i j q => int_wts q * rho * shape_fcn_vals (q * 8 + i)%nat * shape_fcn_vals (q * 8 + j)%nat * d q).
    pose (P := fun I (M : nat -> nat -> R) => forall i j, (i < I)%nat -> (j < 8)%nat -> M i j = Rsum 8 (g i j)).
    match goal with |- forall i j, _ -> _ -> ?X _ _ = _ => enough (H : P 8%nat X) end.
    { intros i j Hi Hj. rewrite H by assumption. apply Rsum_ext. intros q Hq. unfold g, int_wts.
      replace (q * 8)%nat with (8 * q)%nat by lia. rewrite !value_at, H1 by lia. ring. }
    apply floop_ind; [lia|intros ? ? ?; lia|]. intros i M Hi IH.
    pose (Q := fun J (M' : nat -> nat -> R) => forall a b, (b < 8)%nat -> M' a b = if ((a =? i)%nat && (b <? J)%nat)%bool then Rsum 8 (g a b) else M a b).
    match goal with |- P _ ?X => enough (H : Q 8%nat X) end.
    { intros a b Ha Hb. rewrite H by assumption. destruct (Nat.eqb_spec a i), (Nat.ltb_spec b 8); cbn [andb]; try lia; auto. apply IH; lia. }
    apply floop_ind; [lia| |].
    + intros a b _. cbn [Nat.ltb Nat.leb]. now rewrite Bool.andb_false_r.
    + intros j M' Hj IHj a b Hb. rewrite (reset_acc 8 M' i j (g i j)), IHj by assumption.
      destruct (Nat.eqb_spec a i), (Nat.eqb_spec b j), (Nat.ltb_spec b j), (Nat.ltb_spec b (1 + j)); cbn [andb]; try lia; subst; reflexivity.
Qed.
Lemma lumped_ok rho coords l0 : let x := nodes coords in well_shaped x ->
  exists l, compute_lumped_mass rho coords l0 = Ok l /\
    (forall i, (i < 8)%nat -> l i = rho * Rsum 8 (fun q => shape i (gauss q) * mdet (jac x q))) /\
    forall k, (8 <= k)%nat -> l k = l0 k.
Proof.
  intros x Hw. unfold compute_lumped_mass. destruct (@mass_ok rho coords Hw) as (M & E & HM). rewrite E. cbn [obind].
  eexists. split; [reflexivity|].
  pose (P := fun I (l : arr) => (forall i, (i < I)%nat -> l i = Rsum 8 (M i)) /\ forall k, (I <= k)%nat -> l k = l0 k).
  match goal with |- (forall i, _ -> ?X _ = _) /\ _ => enough (H : P 8%nat X) end.
  { destruct H as [H H']. split; [|exact H']. intros i Hi. rewrite H by assumption.
    transitivity (Rsum 8 (fun q => rho * shape i (gauss q) * mdet (jac x q) * Rsum 8 (fun j => shape j (gauss q)))).
    - transitivity (Rsum 8 (fun j => Rsum 8 (fun q => rho * shape i (gauss q) * shape j (gauss q) * mdet (jac x q)))).
      + apply Rsum_ext. intros j Hj. now apply HM.
      + rewrite Rsum_swap. apply Rsum_ext. intros q Hq. rewrite Rsum_mul_l. apply Rsum_ext. intros; ring.
    - rewrite Rsum_mul_l. apply Rsum_ext. intros q Hq. rewrite shape_sum. ring. }
  apply floop_ind; [lia|split; [intros; lia|reflexivity]|]. intros i l Hi [IH IHk]. cbv zeta.
  pose (Q := fun J (l' : arr) => forall k, l' k = if (k =? i)%nat then Rsum J (M i) else l k).
  match goal with |- P _ ?X => enough (H : Q 8%nat X) end.
  { split; intros k Hk; rewrite H; destruct (Nat.eqb_spec k i) as [->|]; auto; try lia; [apply IH|apply IHk]; lia. }
  apply floop_ind; [lia| |].
  - intros k. unfold upd. destruct (k =? i)%nat; reflexivity.
  - intros j l' Hj IHj k. unfold upd. rewrite !IHj, Nat.eqb_refl. cbn [Nat.add].
    destruct (k =? i)%nat; [|reflexivity]. simpl. ring.
Qed.
Lemma lumped_abort rho coords l0 : ~ well_shaped (nodes coords) -> compute_lumped_mass rho coords l0 = Abort.
Proof.
  intros Hw. destruct (shaped_dec (nodes coords)) as [Hs|(q & Hq & Hd)]; [contradiction|].
  unfold compute_lumped_mass, compute_consistent_mass. rewrite (@oloop_abort_at _ 8 q); auto.
  - intros k d Hk. cbv zeta.
    match goal with |- context [invert3x3 ?a ?r] => destruct (Rlt_dec 0 (mdet a)) as [Hp|Hn] end.
    + left. match goal with |- context [invert3x3 ?a ?r] => destruct (@invert3_ok a r Hp) as (inv & E & _) end. rewrite E. cbn [obind]. eexists; reflexivity.
    + right. rewrite invert3_fail by lra. reflexivity.
  - intros d. cbv zeta. rewrite invert_jac_fail with (J := jac (nodes coords) q); [reflexivity| |exact Hd].
    apply jacobian_loop_jac; [exact Hq|reflexivity].
Qed.
Lemma hat_gauss_pos n q k : (k < 3)%nat -> 0 < hat n (gauss q) k.
Proof.
  intros Hk. unfold hat, gauss.
  assert (C : forall a, corner a k = 1 \/ corner a k = -1) by (intros a; unfold corner; destruct (existsb _ _); auto).
  destruct (C n) as [-> | ->], (C q) as [-> | ->]; lra.
Qed.
Lemma shape_gauss_pos n q : 0 < shape n (gauss q).
Proof.
  unfold shape. pose proof (@hat_gauss_pos n q 0 ltac:(lia)). pose proof (@hat_gauss_pos n q 1 ltac:(lia)). pose proof (@hat_gauss_pos n q 2 ltac:(lia)).
  apply Rmult_lt_0_compat; [lra|]. apply Rmult_lt_0_compat; [|assumption]. now apply Rmult_lt_0_compat.
Qed.
