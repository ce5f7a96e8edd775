(** Proofs about the hexahedron: volume averages, affine maps, characteristic length. *)
From Verif Require Import Base Loops TensorModel TensorSpec TensorProofs PolarProofs ElementModel ElementSpec ElementProofs ElementProofs2 ElementProofs3 ElementProofs4.
From Coq Require Import Reals Lra Psatz.
Set Implicit Arguments.
Local Open Scope R_scope.

(** ** Volume averages *)
Lemma acc_flat1 n (t : arr) g a :
  floop 0 n (fun i v => upd v i (v i + g i)) t a = if (a <? n)%nat then t a + g a else t a.
Proof.
  pose (P := fun n (s : arr) => forall a, s a = if (a <? n)%nat then t a + g a else t a).
  match goal with |- ?X _ = _ => enough (H : P n X) by apply H end.
  apply floop_ind; [lia|intros ?; reflexivity|]. intros k s Hk IH b. unfold upd. rewrite !IH.
  destruct (Nat.eqb_spec b k) as [->|]; [rewrite Nat.ltb_irrefl; destruct (Nat.ltb_spec k (1 + k)); [reflexivity|lia]|].
  destruct (Nat.ltb_spec b k), (Nat.ltb_spec b (1 + k)); try lia; reflexivity.
Qed.
Lemma average_ok coords nq qs out0 : let x := nodes coords in well_shaped x ->
  exists vol out, compute_volume_average coords nq qs out0 = Ok (vol, out) /\
    vol = Rsum 8 (fun q => mdet (jac x q)) /\
    (forall i, (i < nq)%nat -> out i = Rsum 8 (fun q => qs (nq * q + i)%nat * mdet (jac x q)) / vol) /\
    forall k, (nq <= k)%nat -> out k = out0 k.
Proof.
  intros x Hw. unfold compute_volume_average. cbv zeta.
  match goal with |- context [oloop 0 8 ?f1 ?t1] =>
    destruct (@oloop_ind _ (fun m (st : (nat -> nat -> R) * R * arr) =>
       snd (fst st) = Rsum m (fun q => mdet (jac x q)) /\
       forall i, (i < nq)%nat -> snd st i = Rsum m (fun q => qs (nq * q + i)%nat * mdet (jac x q))) 0%nat 8%nat f1 t1) as (s' & E & H1 & H2) end; [lia| | |].
  - split; [reflexivity|]. intros; reflexivity.
  - intros q [[a_inv vol] av] Hq [IH1 IH2]. cbn [fst snd] in IH1, IH2.
    match goal with |- context [invert3x3 (jacobian_loop ?y q) _] =>
      assert (HJ : meq (jacobian_loop y q) (jac x q)) by (apply jacobian_loop_jac; [lia|intros; unfold x, nodes; ring]) end.
    destruct (invert_jac a_inv HJ (Hw q ltac:(lia))) as (inv & E & Hinv). rewrite E. cbn [obind fst snd]. clear E.
    eexists. split; [reflexivity|]. cbn [fst snd]. split.
    + rewrite IH1. reflexivity.
    + intros i Hi. rewrite (acc_flat1 nq av (fun i => qs (nq * q + i)%nat * int_wts q * mdet (jac x q))).
      destruct (Nat.ltb_spec i nq); [|lia]. rewrite IH2 by assumption. cbn [Nat.add].
      match goal with |- _ = Rsum (S q) ?f => change (Rsum (S q) f) with (Rsum q f + f q) end. unfold int_wts. ring.
  - rewrite E. cbn [obind]. destruct s' as [[a_inv vol] av]. cbn [fst snd] in H1, H2. eexists. eexists. split; [reflexivity|]. split; [exact H1|].
    pose (P := fun n (st : arr * arr) => (forall i, (i < n)%nat -> snd st i = av i / vol) /\ (forall i, (n <= i)%nat -> fst st i = av i /\ snd st i = out0 i)).
    match goal with |- (forall i, _ -> snd ?X _ = _) /\ _ => enough (H : P nq X) end.
    { destruct H as [H H']. split; [|intros k Hk; now apply H']. intros i Hi. rewrite H, H2 by assumption. reflexivity. }
    apply floop_ind; [lia|split; [intros; lia|intros; split; reflexivity]|].
    intros k [a b] Hk [IH1 IH2]. unfold P. cbn [fst snd] in *. split.
    + intros i Hi. destruct (Nat.eq_dec i k) as [->|Hne].
      * rewrite !upd_same. destruct (IH2 k ltac:(lia)) as [-> _]. reflexivity.
      * rewrite upd_other by assumption. apply IH1. lia.
    + intros i Hi. rewrite !upd_other by lia. apply IH2. lia.
Qed.
Lemma average_abort coords nq qs out0 : ~ well_shaped (nodes coords) -> compute_volume_average coords nq qs out0 = Abort.
Proof.
  intros Hw. destruct (shaped_dec (nodes coords)) as [Hs|(q & Hq & Hd)]; [contradiction|].
  unfold compute_volume_average. cbv zeta. rewrite (@oloop_abort_at _ 8 q); auto.
  - intros k [[b v] fo] Hk.
    match goal with |- context [invert3x3 ?a ?r] => destruct (Rlt_dec 0 (mdet a)) as [Hp|Hn] end.
    + left. match goal with |- context [invert3x3 ?a ?r] => destruct (@invert3_ok a r Hp) as (inv & E & _) end. rewrite E. cbn [obind]. eexists; reflexivity.
    + right. rewrite invert3_fail by lra. reflexivity.
  - intros [[b v] fo]. rewrite invert_jac_fail with (J := jac (nodes coords) q); [reflexivity| |exact Hd].
    apply jacobian_loop_jac; [exact Hq|]. intros; unfold nodes; ring.
Qed.
Lemma volume_pos x : well_shaped x -> 0 < Rsum 8 (fun q => mdet (jac x q)).
Proof.
  intros Hw. cbv [Rsum]. pose proof (Hw 0%nat ltac:(lia)). pose proof (Hw 1%nat ltac:(lia)). pose proof (Hw 2%nat ltac:(lia)). pose proof (Hw 3%nat ltac:(lia)).
  pose proof (Hw 4%nat ltac:(lia)). pose proof (Hw 5%nat ltac:(lia)). pose proof (Hw 6%nat ltac:(lia)). pose proof (Hw 7%nat ltac:(lia)). lra.
Qed.

(** ** Affine maps *)
Lemma jac_affine x x' A b q : (forall n i, (n < 8)%nat -> (i < 3)%nat -> x' n i = b i + mvec A (x n) i) ->
  meq (jac x' q) (mmul A (jac x q)).
Proof.
  intros H. apply meq_intro. intros i j Hi Hj. unfold jac, mmul.
  transitivity (b i * Rsum 8 (fun n => dshape n j (gauss q)) + Rsum 3 (fun k => A i k * Rsum 8 (fun n => x n k * dshape n j (gauss q)))).
  - rewrite Rsum_mul_l. 
    transitivity (Rsum 8 (fun n => b i * dshape n j (gauss q)) + Rsum 8 (fun n => Rsum 3 (fun k => A i k * (x n k * dshape n j (gauss q))))).
    + rewrite <- Rsum_plus. apply Rsum_ext. intros n Hn. rewrite H by assumption. unfold mvec. cbv [Rsum]. ring.
    + f_equal. rewrite Rsum_swap. apply Rsum_ext. intros k Hk. symmetry. apply Rsum_mul_l.
  - rewrite dshape_sum by assumption. ring.
Qed.
Lemma jac_corners q : meq (jac corner q) mone.
Proof. apply meq_intro. intros i j Hi Hj. unfold jac. idx3 i; idx3 j; unfold8; unfold mone; cbn [Nat.eqb]; field. Qed.

(** ** Characteristic length *)
Lemma lower_min a b : lower a b = Rmin a b.
Proof. unfold lower, Rmin. destruct (Rlt_dec a b), (Rle_dec a b); lra. Qed.
Lemma higher_max a b : higher a b = Rmax a b.
Proof. unfold higher, Rmax. destruct (Rlt_dec b a), (Rle_dec a b); lra. Qed.
Fixpoint minf (n : nat) (f : nat -> R) (d : R) : R := match n with O => d | S n => Rmin (f n) (minf n f d) end.
Fixpoint maxf (n : nat) (f : nat -> R) (d : R) : R := match n with O => d | S n => Rmax (f n) (maxf n f d) end.
Lemma minf_le n f d k : (k < n)%nat -> minf n f d <= f k.
Proof.
  induction n as [|n IH]; intros Hk; [lia|]. simpl. destruct (Nat.eq_dec k n) as [->|]; [apply Rmin_l|].
  eapply Rle_trans; [apply Rmin_r|]. apply IH. lia.
Qed.
Lemma minf_init n f d : minf n f d <= d.
Proof. induction n as [|n IH]; simpl; [lra|]. eapply Rle_trans; [apply Rmin_r|exact IH]. Qed.
Lemma minf_att n f d : minf n f d = d \/ exists k, (k < n)%nat /\ minf n f d = f k.
Proof.
  induction n as [|n IH]; simpl; [now left|]. unfold Rmin. destruct (Rle_dec (f n) (minf n f d)).
  - right. exists n. split; [lia|reflexivity].
  - destruct IH as [->|(k & Hk & E)]; [now left|]. right. exists k. split; [lia|exact E].
Qed.
Lemma maxf_ge n f d k : (k < n)%nat -> f k <= maxf n f d.
Proof.
  induction n as [|n IH]; intros Hk; [lia|]. simpl. destruct (Nat.eq_dec k n) as [->|]; [apply Rmax_l|].
  eapply Rle_trans; [|apply Rmax_r]. apply IH. lia.
Qed.
Lemma maxf_init n f d : d <= maxf n f d.
Proof. induction n as [|n IH]; simpl; [lra|]. eapply Rle_trans; [exact IH|apply Rmax_r]. Qed.
Lemma maxf_att n f d : maxf n f d = d \/ exists k, (k < n)%nat /\ maxf n f d = f k.
Proof.
  induction n as [|n IH]; simpl; [now left|]. unfold Rmax. destruct (Rle_dec (f n) (maxf n f d)).
  - destruct IH as [->|(k & Hk & E)]; [now left|]. right. exists k. split; [lia|exact E].
  - right. exists n. split; [lia|reflexivity].
Qed.

Section CharLen.
  Variables (big : R) (c : arr).
  Let x := nodes c.
  Definition box (i : nat) : R := maxf 8 (fun n => x n i) 0 - minf 8 (fun n => x n i) big.
  (** The least squared distance kept by the loop *)
  Definition closest : R := min_dsq (floop 0 8 (fun n e =>
    let nx := c (3 * n)%nat in
    let ny := c (3 * n + 1)%nat in
    let nz := c (3 * n + 2)%nat in
    let d := floop (n + 1) 8 (fun m d =>
      let mx := c (3 * m)%nat in
      let my := c (3 * m + 1)%nat in
      let mz := c (3 * m + 2)%nat in
      let distance_squared := ((nx - mx) * (nx - mx) + (ny - my) * (ny - my) + (nz - mz) * (nz - mz))%R in
      lower distance_squared d) (min_dsq e) in
    Extents (lower nx (x_min e)) (higher nx (x_max e)) (lower ny (y_min e)) (higher ny (y_max e))
            (lower nz (z_min e)) (higher nz (z_max e)) d)
    (Extents big 0 big 0 big 0 big)).
  Lemma charlen_parts :
    compute_characteristic_length big c = Rmin (Rmin (box 2) (Rmin (box 1) (box 0))) (sqrt closest) /\
    closest <= big /\ (forall n m, (n < m)%nat -> (m < 8)%nat -> closest <= dsq x n m) /\
    (closest = big \/ exists n m, (n < m)%nat /\ (m < 8)%nat /\ closest = dsq x n m).
  Proof.
    unfold compute_characteristic_length, closest, box.
    match goal with |- context [floop 0 8 ?f ?s] => set (body := f); set (init := s) end.
    pose (P := fun k (e : extents) =>
      x_min e = minf k (fun n => x n 0%nat) big /\ x_max e = maxf k (fun n => x n 0%nat) 0 /\
      y_min e = minf k (fun n => x n 1%nat) big /\ y_max e = maxf k (fun n => x n 1%nat) 0 /\
      z_min e = minf k (fun n => x n 2%nat) big /\ z_max e = maxf k (fun n => x n 2%nat) 0 /\
      min_dsq e <= big /\ (forall n m, (n < k)%nat -> (n < m)%nat -> (m < 8)%nat -> min_dsq e <= dsq x n m) /\
      (min_dsq e = big \/ exists n m, (n < m)%nat /\ (m < 8)%nat /\ min_dsq e = dsq x n m)).
    assert (H : P 8%nat (floop 0 8 body init)).
    { apply floop_ind; [lia| |].
      - unfold P, init. cbn [x_min x_max y_min y_max z_min z_max min_dsq minf maxf]. do 6 (split; [reflexivity|]). split; [lra|]. split; [intros; lia|now left].
      - intros k e Hk (I1 & I2 & I3 & I4 & I5 & I6 & I7 & I8 & I9). unfold P, body.
        cbn [x_min x_max y_min y_max z_min z_max min_dsq].
        rewrite !lower_min, !higher_max. cbn [Nat.add minf maxf].
        assert (X0 : c (3 * k)%nat = x k 0%nat) by (unfold x, nodes; now rewrite Nat.add_0_r).
        assert (X1 : c (3 * k + 1)%nat = x k 1%nat) by reflexivity.
        assert (X2 : c (3 * k + 2)%nat = x k 2%nat) by reflexivity.
        rewrite X0, X1, X2, I1, I2, I3, I4, I5, I6.
        match goal with |- context [floop (k + 1) 8 ?f ?s] => set (D := floop (k + 1) 8 f s) end.
        assert (HD : D <= min_dsq e /\ (forall m, (k + 1 <= m)%nat -> (m < 8)%nat -> D <= dsq x k m) /\
                     (D = min_dsq e \/ exists m, (k < m)%nat /\ (m < 8)%nat /\ D = dsq x k m)).
        { pose (Q := fun j d => d <= min_dsq e /\ (forall m, (k + 1 <= m)%nat -> (m < j)%nat -> d <= dsq x k m) /\
                     (d = min_dsq e \/ exists m, (k < m)%nat /\ (m < 8)%nat /\ d = dsq x k m)).
          change (Q 8%nat D). apply floop_ind; [lia| |].
          - split; [lra|]. split; [intros; lia|now left].
          - intros j d Hj (J1 & J2 & J3). rewrite lower_min.
            replace ((x k 0%nat - c (3 * j)%nat) * (x k 0%nat - c (3 * j)%nat) + (x k 1%nat - c (3 * j + 1)%nat) * (x k 1%nat - c (3 * j + 1)%nat) + (x k 2%nat - c (3 * j + 2)%nat) * (x k 2%nat - c (3 * j + 2)%nat)) with (dsq x k j).
            2:{ unfold dsq, x, nodes. now rewrite !Nat.add_0_r. }
            split; [eapply Rle_trans; [apply Rmin_r|exact J1]|]. split.
            + intros m Hm1 Hm2. destruct (Nat.eq_dec m j) as [->|]; [apply Rmin_l|]. eapply Rle_trans; [apply Rmin_r|]. apply J2; lia.
            + unfold Rmin. destruct (Rle_dec _ _); [|exact J3]. right. exists j. split; [lia|]. split; [lia|reflexivity]. }
        clearbody D. destruct HD as (D1 & D2 & D3).
        repeat (split; [reflexivity|]). split; [lra|]. split.
        + intros n m Hn Hm Hm8. destruct (Nat.eq_dec n k) as [->|].
          * apply D2; lia.
          * eapply Rle_trans; [exact D1|]. apply I8; lia.
        + destruct D3 as [->|(m & Hm & Hm8 & ->)]; [exact I9|]. right. exists k, m. auto. }
    destruct H as (I1 & I2 & I3 & I4 & I5 & I6 & I7 & I8 & I9).
    split; [|split; [exact I7|split; [intros n m Hn Hm; apply I8; lia|exact I9]]].
    rewrite !lower_min. rewrite I1, I2, I3, I4, I5, I6. reflexivity.
  Qed.
End CharLen.
