(** Accuracy of Cos_Of_Acos_Divided_By_3: exact integer polynomial arithmetic, one Taylor
    enclosure per cell of a partition of [0,1] into 64 cells; the kernel does the arithmetic. *)
From Verif Require Import Base Loops TensorModel TensorSpec TensorProofs EigenProofs EigenProofs2 PolarProofs.
From Coq Require Import Reals Lra Psatz ZArith List Ratan.
Import ListNotations.
Set Implicit Arguments.
Local Open Scope R_scope.

(** ** integer polynomials, lowest degree first *)
Definition poly := list Z.
Fixpoint ev (l : poly) (t : R) : R := match l with [] => 0 | c :: l => IZR c + t * ev l t end.
Fixpoint padd (a b : poly) : poly :=
  match a, b with
  | [], b => b
  | a, [] => a
  | x :: a, y :: b => (x + y)%Z :: padd a b
  end.
Definition pscale (c : Z) (a : poly) : poly := map (Z.mul c) a.
Fixpoint pmul (a b : poly) : poly := match a with [] => [] | x :: a => padd (pscale x b) (0%Z :: pmul a b) end.

Lemma ev_add a b t : ev (padd a b) t = ev a t + ev b t.
Proof.
  revert b. induction a as [|x a IH]; intros b; cbn [padd ev]; [ring|].
  destruct b as [|y b]; cbn [ev]; [ring|]. rewrite IH, plus_IZR. ring.
Qed.
Lemma ev_scale c a t : ev (pscale c a) t = IZR c * ev a t.
Proof. induction a as [|x a IH]; cbn [pscale map ev]; [ring|]. unfold pscale in IH. rewrite IH, mult_IZR. ring. Qed.
Lemma ev_mul a b t : ev (pmul a b) t = ev a t * ev b t.
Proof. induction a as [|x a IH]; cbn [pmul ev]; [ring|]. rewrite ev_add, ev_scale. cbn [ev]. rewrite IH. ring. Qed.

(** sum of the absolute values of the coefficients bounds the polynomial on [-1,1] *)
Fixpoint norm1 (l : poly) : Z := match l with [] => 0%Z | c :: l => (Z.abs c + norm1 l)%Z end.
Lemma norm1_bound l t : -1 <= t <= 1 -> Rabs (ev l t) <= IZR (norm1 l).
Proof.
  intros Ht. induction l as [|c l IH]; cbn [ev norm1].
  - rewrite Rabs_R0. lra.
  - rewrite plus_IZR, abs_IZR. eapply Rle_trans; [apply Rabs_triang|].
    apply Rplus_le_compat_l. rewrite Rabs_mult.
    assert (Rabs t <= 1) by (apply Rabs_le; lra). pose proof (Rabs_pos t). pose proof (Rabs_pos (ev l t)).
    apply Rle_trans with (1 * Rabs (ev l t)); [apply Rmult_le_compat_r; assumption|lra].
Qed.
Lemma ev_nonneg l t : Forall (fun c => (0 <= c)%Z) l -> 0 <= t -> 0 <= ev l t.
Proof.
  intros H Ht. induction H as [|c l Hc _ IH]; cbn [ev]; [lra|]. apply IZR_le in Hc.
  assert (0 <= t * ev l t) by (apply Rmult_le_pos; assumption). lra.
Qed.

(** D^(n-1) * l((m + t)/D) as a polynomial in t *)
Fixpoint recentre (D m : Z) (l : poly) : poly :=
  match l with
  | [] => []
  | c :: l => padd [(c * D ^ Z.of_nat (length l))%Z] (pmul [m; 1%Z] (recentre D m l))
  end.
Lemma ev_recentre D m l t : (0 < D)%Z ->
  IZR D * ev (recentre D m l) t = IZR D ^ length l * ev l ((IZR m + t) / IZR D).
Proof.
  intros HD. assert (HD' : IZR D <> 0) by (apply IZR_lt in HD; lra).
  induction l as [|c l IH]; cbn [recentre ev length]; [ring|].
  rewrite ev_add, ev_mul. cbn [ev]. rewrite mult_IZR.
  assert (E : IZR (D ^ Z.of_nat (length l)) = IZR D ^ length l) by (rewrite <- pow_IZR; reflexivity).
  rewrite E.
  transitivity (IZR D * (IZR c * IZR D ^ length l) + (IZR m + t) * (IZR D * ev (recentre D m l) t)); [ring|].
  rewrite IH. cbn [pow]. field. exact HD'.
Qed.

(** lower bound of a polynomial on [-1,1] *)
Definition low (l : poly) : Z := match l with [] => 0%Z | c :: l => (c - norm1 l)%Z end.
Lemma low_bound l t : -1 <= t <= 1 -> IZR (low l) <= ev l t.
Proof.
  intros Ht. destruct l as [|c l]; cbn [low ev]; [lra|]. rewrite minus_IZR.
  pose proof (norm1_bound l Ht) as H.
  set (e := ev l t) in *. set (n := IZR (norm1 l)) in *.
  assert (- n <= e <= n) by (unfold Rabs in H; destruct (Rcase_abs e); lra).
  assert (0 <= n) by lra. nra.
Qed.

(** E * |l| <= d on each of the 64 cells of [0,1] *)
Definition cells_ok (l d : poly) (E : Z) : bool :=
  forallb (fun k => Z.leb (E * norm1 (recentre 128 (2 * Z.of_nat k + 1) l) * 128 ^ Z.of_nat (length d)) (low (recentre 128 (2 * Z.of_nat k + 1) d) * 128 ^ Z.of_nat (length l))) (seq 0 64).

Lemma cell_of x : 0 <= x <= 1 -> exists k, (k < 64)%nat /\ INR k <= 64 * x <= INR k + 1.
Proof.
  intros Hx. destruct (Req_dec x 1) as [->|Hx1].
  - exists 63%nat. split; [lia|]. rewrite INR_IZR_INZ. change (Z.of_nat 63) with 63%Z. lra.
  - assert (0 <= 64 * x < 64) by lra.
    destruct (archimed (64 * x)) as [A1 A2]. set (z := up (64 * x)) in *.
    assert (0 < z)%Z by (apply lt_IZR; lra).
    assert (z <= 64)%Z.
    { apply Z.nlt_ge. intro Q. assert (IZR 65 <= IZR z) by (apply IZR_le; lia). lra. }
    exists (Z.to_nat (z - 1)). split; [lia|].
    rewrite INR_IZR_INZ, Z2Nat.id by lia. rewrite minus_IZR. lra.
Qed.

Lemma cells_bound l d E x : cells_ok l d E = true -> (0 <= E)%Z -> 0 <= x <= 1 -> IZR E * Rabs (ev l x) <= ev d x.
Proof.
  intros H HE Hx. unfold cells_ok in H. rewrite forallb_forall in H.
  destruct (cell_of Hx) as (k & Hk & Hk1).
  assert (Ik : In k (seq 0 64)) by (apply in_seq; lia).
  specialize (H k Ik). apply Z.leb_le in H.
  set (t := 128 * x - (2 * INR k + 1)).
  assert (Ht : -1 <= t <= 1) by (unfold t; lra).
  assert (Ex : (IZR (2 * Z.of_nat k + 1) + t) / 128 = x).
  { unfold t. rewrite plus_IZR, mult_IZR, <- INR_IZR_INZ. field. }
  pose proof (norm1_bound (recentre 128 (2 * Z.of_nat k + 1) l) Ht) as Hn.
  pose proof (@ev_recentre 128 (2 * Z.of_nat k + 1) l t ltac:(lia)) as El. rewrite Ex in El.
  pose proof (low_bound (recentre 128 (2 * Z.of_nat k + 1) d) Ht) as Hd.
  pose proof (@ev_recentre 128 (2 * Z.of_nat k + 1) d t ltac:(lia)) as Ed. rewrite Ex in Ed.
  set (rl := recentre 128 (2 * Z.of_nat k + 1) l) in *. set (rd := recentre 128 (2 * Z.of_nat k + 1) d) in *. clearbody rl rd.
  apply IZR_le in H. rewrite !mult_IZR, <- !pow_IZR in H. apply IZR_le in HE.
  set (a := 128 ^ length l) in *. set (b := 128 ^ length d) in *.
  assert (Ha : 0 < a) by (apply pow_lt; lra). assert (Hb : 0 < b) by (apply pow_lt; lra).
  assert (E1 : ev l x = 128 * ev rl t / a) by (apply Rmult_eq_reg_l with a; [rewrite <- El; field; lra|lra]).
  assert (E2 : ev d x = 128 * ev rd t / b) by (apply Rmult_eq_reg_l with b; [rewrite <- Ed; field; lra|lra]).
  rewrite E1, E2. unfold Rdiv. rewrite !Rabs_mult, (Rabs_right 128) by lra.
  rewrite (Rabs_right (/ a)) by (apply Rle_ge, Rlt_le, Rinv_0_lt_compat; exact Ha).
  apply Rmult_le_reg_r with (a * b); [apply Rmult_lt_0_compat; assumption|].
  replace (IZR E * (128 * Rabs (ev rl t) * / a) * (a * b)) with (128 * (IZR E * Rabs (ev rl t) * b)) by (field; lra).
  replace (128 * ev rd t * / b * (a * b)) with (128 * (ev rd t * a)) by (field; lra).
  apply Rmult_le_compat_l; [lra|].
  apply Rle_trans with (IZR E * IZR (norm1 rl) * b).
  - apply Rmult_le_compat_r; [lra|]. apply Rmult_le_compat_l; assumption.
  - eapply Rle_trans; [exact H|]. apply Rmult_le_compat_r; lra.
Qed.

(** ** the approximation *)
Definition numer : poly := [8660254037844387130000; 21271489025949306000000; 18920206481595156900000; 7396032783434016130000; 1219739269530647940000; 65563762626392936000; 390884982780803443]%Z.
Definition denom : poly := [10000000000000000000000; 22637698933093561700000; 18046100975127897600000; 6039767982171960030000; 783255761115461708000; 26852594453802162900]%Z.

Lemma approx_ratio x : cos_of_acos_divided_by_3 x = ev numer x / 10 ^ 22 / (ev denom x / 10 ^ 22).
Proof.
  unfold cos_of_acos_divided_by_3. f_equal; cbn [ev numer denom].
  all: field.
Qed.

Definition residual : poly :=
  let p3 := pmul numer (pmul numer numer) in let q2 := pmul denom denom in
  padd (pscale 4 p3) (padd (pscale (-3) (pmul numer q2)) (pscale (-1) (0%Z :: pmul q2 denom))).

Definition denom3 : poly := pmul (pmul denom denom) denom.
Lemma residual_cells : cells_ok residual denom3 (5 * 10 ^ 14) = true.
Proof. vm_compute. reflexivity. Qed.

Lemma denom_pos x : 0 <= x -> 10 ^ 22 <= ev denom x.
Proof.
  intros Hx. cbn [ev denom].
  assert (0 <= x * ev (tl denom) x).
  { apply Rmult_le_pos; [exact Hx|]. apply ev_nonneg; [|exact Hx]. repeat (constructor; [lia|]); constructor. }
  cbn [ev tl denom] in H. lra.
Qed.

(** the approximation nearly satisfies the triple angle equation *)
Lemma approx_residual x : 0 <= x <= 1 -> let c := cos_of_acos_divided_by_3 x in
  Rabs (4 * (c * c * c) - 3 * c - x) <= 2 / 10 ^ 15 /\ 4 / 5 <= c.
Proof.
  intros Hx c.
  pose proof (@denom_pos x ltac:(lra)) as Hd.
  set (p := ev numer x). set (q := ev denom x) in *.
  assert (Hq : 0 < q) by lra.
  assert (Ec : c = p / q) by (unfold c; rewrite approx_ratio; fold p q; field; lra).
  split.
  - pose proof (@cells_bound residual denom3 (5 * 10 ^ 14) x residual_cells ltac:(lia) Hx) as B.
    assert (Er : ev residual x = 4 * (p * p * p) - 3 * (p * (q * q)) - x * (q * q * q)).
    { unfold residual. rewrite !ev_add, !ev_scale, !ev_mul. cbn [ev]. rewrite !ev_mul. fold p q. ring. }
    assert (Eq : ev denom3 x = q * q * q) by (unfold denom3; rewrite !ev_mul; reflexivity).
    rewrite Er, Eq in B.
    assert (En : 4 * (c * c * c) - 3 * c - x = (4 * (p * p * p) - 3 * (p * (q * q)) - x * (q * q * q)) / (q * q * q)) by (rewrite Ec; field; lra).
    rewrite En. set (w := 4 * (p * p * p) - 3 * (p * (q * q)) - x * (q * q * q)) in *.
    assert (Hq3 : 0 < q * q * q) by (apply Rmult_lt_0_compat; [apply Rmult_lt_0_compat|]; exact Hq).
    unfold Rdiv at 1. rewrite Rabs_mult, (Rabs_right (/ (q * q * q))) by (apply Rle_ge, Rlt_le, Rinv_0_lt_compat; exact Hq3).
    apply Rmult_le_reg_r with (q * q * q); [exact Hq3|]. rewrite Rmult_assoc, Rinv_l, Rmult_1_r by lra.
    rewrite mult_IZR in B. change (10 ^ 14)%Z with 100000000000000%Z in B. lra.
  - rewrite Ec. apply Rmult_le_reg_r with q; [exact Hq|]. unfold Rdiv. rewrite Rmult_assoc, (Rmult_assoc p), Rinv_l, Rmult_1_r by lra.
    assert (0 <= ev (padd (pscale 5 numer) (pscale (-4) denom)) x).
    { apply ev_nonneg; [|lra]. vm_compute. repeat (constructor; [discriminate|]); constructor. }
    rewrite ev_add, !ev_scale in H. fold p q in H. lra.
Qed.

Lemma approx_accuracy x : 0 <= x <= 1 -> Rabs (cos_of_acos_divided_by_3 x - cos (acos x / 3)) <= 4 / 10 ^ 16.
Proof.
  intros Hx. destruct (approx_residual Hx) as [Hr Hc]. destruct (exact_cos3 Hx) as (He & Hs & Hss).
  set (c := cos_of_acos_divided_by_3 x) in *. set (s := cos (acos x / 3)) in *.
  rewrite <- He in Hr.
  replace (4 * (c * c * c) - 3 * c - (4 * (s * s * s) - 3 * s)) with ((c - s) * (4 * (c * c + c * s + s * s) - 3)) in Hr by ring.
  assert (S1 : 4 / 5 <= s) by nra.
  assert (F : 5 <= 4 * (c * c + c * s + s * s) - 3) by nra.
  rewrite Rabs_mult, (Rabs_right (4 * _ - 3)) in Hr by lra.
  pose proof (Rabs_pos (c - s)). nra.
Qed.

(** ** consequence for the eigenvalue solver *)
Lemma shifted_det t l : let c1 := mean t in
  mdet (row (t 0%nat - c1) (t 1%nat - c1) (t 2%nat - c1) (t 3%nat) (t 4%nat) (t 5%nat) l) = mdet (msub (sym t) (mscale (l + c1) mone)).
Proof. cbv [mdet row msub sym sym_index mscale mone Nat.eqb]. ring. Qed.

Lemma dev_sumsq t : let c1 := mean t in
  msumsq (mdev (sym t)) = -2 * eigen_c2 (t 0%nat - c1) (t 1%nat - c1) (t 2%nat - c1) (t 3%nat) (t 4%nat) (t 5%nat).
Proof. cbv [msumsq mdev mtrace msub mscale mone sym sym_index Rsum Nat.eqb eigen_c2 mean]. field. Qed.

Lemma eval2_accuracy junk t e0 e1 e2 :
  let e := eigen_sym33_nonunit junk t e0 e1 e2 in
  exists l, mdet (msub (sym t) (mscale l mone)) = 0 /\
    Rabs (eval2 e - l) <= 4 / 10 ^ 16 * sqrt (msumsq (mdev (sym t))) + 2 / 10 ^ 15 * Rabs (mtrace (sym t) / 3).
Proof.
  cbv zeta. unfold eigen_sym33_nonunit, eigen_sym33_with.
  change ((t K_S_XX + t K_S_YY + t K_S_ZZ) / 3) with (mean t).
  set (c1 := mean t).
  change (t K_S_XX) with (t 0%nat). change (t K_S_YY) with (t 1%nat). change (t K_S_ZZ) with (t 2%nat).
  change (t K_S_XY) with (t 3%nat). change (t K_S_YZ) with (t 4%nat). change (t K_S_ZX) with (t 5%nat).
  set (cxx := t 0%nat - c1). set (cyy := t 1%nat - c1). set (czz := t 2%nat - c1).
  set (cxy := t 3%nat). set (cyz := t 4%nat). set (czx := t 5%nat).
  assert (Htr : cxx + cyy + czz = 0) by (unfold cxx, cyy, czz, c1, mean; field).
  assert (Hs : msumsq (mdev (sym t)) = -2 * eigen_c2 cxx cyy czz cxy cyz czx) by apply dev_sumsq.
  set (c2 := eigen_c2 _ _ _ _ _ _) in *.
  set (l := eigen_largest _ _ _ _ _ _ _).
  destruct (eigen_pick _ _ _ _ _ _ _ _) as [[[k r2] r3] kk].
  destruct (eigen_orth _ _ _ _ _) as [a aa].
  destruct (eigen_reduced _ _ _ _ _ _ _ _ _ _) as [[[[m0 m1] f1] f2] bz].
  set (v0 := eigen_vec0 _ _ _ _ _ _). set (v2 := eigen_vec2 k a e2). set (v1 := eigen_vec1 _ _ _).
  assert (Em : mtrace (sym t) / 3 = c1) by (unfold c1, mean; cbv [mtrace Rsum sym sym_index]; field). rewrite Em.
  (* an exact eigenvalue *)
  assert (X : exists lx, mdet (row cxx cyy czz cxy cyz czx lx) = 0 /\
     (c2 < 0 -> Rabs (l - lx) <= 4 / 10 ^ 16 * sqrt (-2 * c2)) /\ lx * lx <= 4 / 3 * - c2).
  { destruct (Rlt_dec c2 0) as [Hc2|Hc2].
    - set (ex := fun x => cos (acos x / 3)).
            destruct (largest_residual ex Htr Hc2) as (sg' & Hsg' & Hd & Hl').
      set (lx := eigen_largest ex _ _ _ _ _ _) in *.
      destruct (s_facts Hc2) as (Hs0 & Hss & HT & HTc). fold c2 in Hs0, Hss, HT, HTc, Hl', Hd.
      pose proof (rr_bound Htr Hc2) as Hb. fold c2 in Hb. set (rr := _ * sqrt _) in *. set (s := sqrt _) in *.
      pose proof (conj (Rabs_pos rr) Hb) as Hrr.
      destruct (exact_cos3 Hrr) as (K1 & K2 & K3). pose proof (approx_accuracy Hrr) as K4.
      destruct (largest_value cos_of_acos_divided_by_3 Htr Hc2) as (sg1 & Hsg1 & _ & Hl1 & Hr1).
      destruct (largest_value ex Htr Hc2) as (sg2 & Hsg2 & _ & Hl2 & Hr2).
      fold c2 in Hr1, Hl1, Hr2, Hl2. fold s in Hr1, Hl1, Hr2, Hl2. fold rr in Hr1, Hl1, Hr2, Hl2.
      exists lx. split; [|split].
      + rewrite Hd. unfold ex at 1 2 3 4. rewrite K1. unfold Rdiv. ring.
      + intros _. fold l in Hl1. fold lx in Hl2. rewrite Hl1, Hl2, Hr1, Hr2. fold rr. unfold ex.
        set (sg := if Rlt_dec rr 0 then -1 else 1).
        assert (G : Rabs sg = 1) by (unfold sg; destruct (Rlt_dec rr 0); [rewrite Rabs_left|rewrite Rabs_right]; lra).
        match goal with |- Rabs ?u <= _ => replace u with (sg * ((cos_of_acos_divided_by_3 (Rabs rr) - cos (acos (Rabs rr) / 3)) * (2 * / s))) by (field; lra) end.
        rewrite !Rabs_mult, G, Rmult_1_l. set (d := Rabs (_ - _)) in *.
        assert (Hi : 0 < / s) by (apply Rinv_0_lt_compat; exact Hs0).
        rewrite (Rabs_right 2), (Rabs_right (/ s)) by lra.
        assert (Q : 2 * / s <= sqrt (-2 * c2)).
        { apply Rsqr_incr_0_var; [|apply sqrt_pos]. rewrite Rsqr_sqrt by lra. unfold Rsqr.
          replace (2 * / s * (2 * / s)) with (4 * / (s * s)) by (field; lra). rewrite Hss.
          replace (4 * / (-3 / c2)) with (4 / 3 * - c2) by (field; lra). lra. }
        apply Rmult_le_compat; [apply Rabs_pos|lra|exact K4|exact Q].
      + rewrite Hl'. unfold ex.
        assert (E : 2 * sg' * cos (acos (Rabs rr) / 3) / s * (2 * sg' * cos (acos (Rabs rr) / 3) / s) = 4 * (sg' * sg') * (cos (acos (Rabs rr) / 3) * cos (acos (Rabs rr) / 3)) / (s * s)) by (field; lra).
        rewrite E, Hss. assert (G : sg' * sg' = 1) by (destruct Hsg'; subst; ring). rewrite G.
        pose proof (COS_bound (acos (Rabs rr) / 3)) as CB. set (cc := cos _) in *.
        assert (cc * cc <= 1) by nra.
        replace (4 * 1 * (cc * cc) / (-3 / c2)) with (4 / 3 * - c2 * (cc * cc)) by (field; lra). nra.
    - assert (Z : msumsq (mdev (sym t)) = 0).
      { pose proof (msumsq_nonneg (mdev (sym t))). lra. }
      exists 0. split; [|split; [intro; lra|lra]].
      unfold cxx, cyy, czz, cxy, cyz, czx, c1. rewrite shifted_det. rewrite Rplus_0_l.
      rewrite <- mean_trace in Em. pose proof (msumsq_zero Z) as MZ. unfold mdev in MZ. rewrite <- mean_trace in MZ.
      rewrite (mdet_proper MZ). cbv [mdet mzero]. ring. }
  destruct X as (lx & X1 & X2 & X3). exists (lx + c1). split; [exact (eq_trans (eq_sym (shifted_det t lx)) X1)|].
  rewrite Hs. pose proof (sqrt_pos (-2 * c2)) as SP. pose proof (Rabs_pos c1) as AP.
  destruct (finish_spec c1 c2 m0 m1 l v0 v1 v2) as [(H & _ & _ & E2 & _)|(H & _ & _ & E2 & _)]; rewrite E2.
  - assert (Hc2 : c2 < 0).
    { assert (0 < / 10 ^ 30) by (apply Rinv_0_lt_compat, pow_lt; lra). assert (0 <= c1 * c1) by nra. nra. }
    replace (l + c1 - (lx + c1)) with (l - lx) by ring. specialize (X2 Hc2).
    assert (0 <= 2 / 10 ^ 15 * Rabs c1) by (apply Rmult_le_pos; [lra|exact AP]). lra.
  - replace (c1 - (lx + c1)) with (- lx) by ring. rewrite Rabs_Ropp.
    assert (Q : Rabs lx <= 2 / 10 ^ 15 * Rabs c1).
    { apply Rsqr_incr_0_var; [|apply Rmult_le_pos; [lra|exact AP]]. rewrite Rsqr_mult, <- !Rsqr_abs. unfold Rsqr.
      assert (0 <= c1 * c1) by nra. lra. }
    assert (0 <= 4 / 10 ^ 16 * sqrt (-2 * c2)) by (apply Rmult_le_pos; [lra|exact SP]). lra.
Qed.

