(** The closest point routine. *)
From Verif Require Import Base ListLemmas Loops ContactModel ContactSpec ContactProofs.
From Coq Require Import Reals Lra Psatz.
Set Implicit Arguments.
Local Open Scope R_scope.

Definition seg (a b : V3) (s : R) : V3 := vadd (vscal (1 - s) a) (vscal s b).
Lemma on_edge_seg a b s : on_edge a b s = seg a b s.
Proof. apply V3_eq; unfold on_edge, seg, vadd, vscal; cbn [vx vy vz]; ring. Qed.
Lemma fds_dist a b p t : find_distance_squared a b p t = vdist2 (seg a b t) p.
Proof. unfold find_distance_squared, vdist2, vdot, vminus, seg, vadd, vscal. cbn [vx vy vz]. ring. Qed.

Lemma parabola A B C s t : 0 < A -> 0 <= s <= 1 -> t = B / A ->
  (0 < t < 1 -> A * t * t - 2 * B * t + C <= A * s * s - 2 * B * s + C) /\
  (~ 0 < t < 1 -> C <= A * s * s - 2 * B * s + C \/ A - 2 * B + C <= A * s * s - 2 * B * s + C).
Proof.
  intros HA Hs Ht. assert (E : B = A * t) by (subst t; field; lra). subst B. clear Ht. split.
  - intros _. assert (0 <= A * ((s - t) * (s - t))) by (apply Rmult_le_pos; [lra|]; fold (Rsqr (s - t)); apply Rle_0_sqr). nra.
  - intros H. destruct (Rle_dec t 0) as [H0|H0].
    + left. assert (0 <= A * (s * (s - 2 * t))) by (apply Rmult_le_pos; [lra|]; apply Rmult_le_pos; lra). nra.
    + assert (H1 : 1 <= t) by lra. right. assert (0 <= A * ((1 - s) * (2 * t - s - 1))) by (apply Rmult_le_pos; [lra|]; apply Rmult_le_pos; lra). nra.
Qed.
Lemma edge_best a b p s : 0 < vdist2 b a -> 0 <= s <= 1 -> let t := find_t a b p in
  (0 < t < 1 -> vdist2 (seg a b t) p <= vdist2 (seg a b s) p) /\
  (~ 0 < t < 1 -> vdist2 a p <= vdist2 (seg a b s) p \/ vdist2 b p <= vdist2 (seg a b s) p).
Proof.
  intros HA Hs t. set (A := vdist2 b a) in *. set (B := vdot (vminus p a) (vminus b a)). set (C := vdist2 a p).
  assert (Q : forall s, vdist2 (seg a b s) p = A * s * s - 2 * B * s + C) by (intros; unfold A, B, C, vdist2, vdot, vminus, seg, vadd, vscal; cbn [vx vy vz]; ring).
  assert (QB : vdist2 b p = A - 2 * B + C) by (unfold A, B, C, vdist2, vdot, vminus, vadd, vscal; cbn [vx vy vz]; ring).
  assert (Et : t = B / A).
  { unfold t, find_t, B, A, vdist2, vdot, vminus, vadd, vscal. cbn [vx vy vz]. f_equal; [ring|f_equal; ring]. }
  rewrite !Q, QB. destruct (@parabola A B C s t HA Hs Et) as [P1 P2]. split; [intros H; specialize (P1 H); lra|exact P2].
Qed.

Section Best.
  Variables p p1 p2 p3 : V3.
  Definition case_point (t : R) (c : nat) : V3 := match c with
     | 2%nat => p2 | 3%nat => p3 | 4%nat => on_edge p1 p2 t | 5%nat => on_edge p2 p3 t | 6%nat => on_edge p3 p1 t | _ => p1 end.
  (** smallest so far, an actual point of the triangle *)
  Definition best (st : R * R * nat) : Prop := let '(d, t, c) := st in d = vdist2 (case_point t c) p /\ in_triangle p1 p2 p3 (case_point t c).
  Definition dof (st : R * R * nat) : R := fst (fst st).
  Lemma in_seg12 t : 0 <= t <= 1 -> in_triangle p1 p2 p3 (seg p1 p2 t).
  Proof. intros H. exists (mkV3 (1 - t) t 0). unfold bary_sum. cbn [vx vy vz]. repeat split; try lra. apply V3_eq; unfold seg, bary_point, vadd, vscal; cbn [vx vy vz]; ring. Qed.
  Lemma in_seg23 t : 0 <= t <= 1 -> in_triangle p1 p2 p3 (seg p2 p3 t).
  Proof. intros H. exists (mkV3 0 (1 - t) t). unfold bary_sum. cbn [vx vy vz]. repeat split; try lra. apply V3_eq; unfold seg, bary_point, vadd, vscal; cbn [vx vy vz]; ring. Qed.
  Lemma in_seg31 t : 0 <= t <= 1 -> in_triangle p1 p2 p3 (seg p3 p1 t).
  Proof. intros H. exists (mkV3 t 0 (1 - t)). unfold bary_sum. cbn [vx vy vz]. repeat split; try lra. apply V3_eq; unfold seg, bary_point, vadd, vscal; cbn [vx vy vz]; ring. Qed.
  Lemma try_vertex_ok a c st : (forall t, case_point t c = a) -> in_triangle p1 p2 p3 a -> best st ->
    best (try_vertex a p c st) /\ dof (try_vertex a p c st) <= dof st /\ dof (try_vertex a p c st) <= vdist2 a p.
  Proof.
    intros Ha Hi Hb. destruct st as [[d t] c0]. unfold try_vertex.
    replace ((vx a - vx p) * (vx a - vx p) + (vy a - vy p) * (vy a - vy p) + (vz a - vz p) * (vz a - vz p)) with (vdist2 a p) by (unfold vdist2, vdot, vminus, vadd, vscal; cbn [vx vy vz]; ring).
    destruct (Rlt_dec (vdist2 a p) d) as [H|H]; unfold dof; cbn [fst].
    - repeat split; [now rewrite Ha|now rewrite Ha|lra|lra].
    - repeat split; [apply Hb|apply Hb|lra|lra].
  Qed.
  Lemma try_edge_ok a b c st : (forall t, case_point t c = seg a b t) -> (forall t, 0 <= t <= 1 -> in_triangle p1 p2 p3 (seg a b t)) -> 0 < vdist2 b a ->
    best st -> dof st <= vdist2 a p -> dof st <= vdist2 b p ->
    best (try_edge a b p c st) /\ dof (try_edge a b p c st) <= dof st /\ forall s, 0 <= s <= 1 -> dof (try_edge a b p c st) <= vdist2 (seg a b s) p.
  Proof.
    intros Hc Hi HA Hb H1 H2. destruct st as [[d t] c0]. unfold dof in *. cbn [fst] in *. unfold try_edge. cbv zeta.
    destruct (within 0 (find_t a b p) 1) eqn:EW.
    - apply within_iff in EW. rewrite fds_dist. destruct (Rlt_dec (vdist2 (seg a b (find_t a b p)) p) d) as [H|H]; cbn [fst].
      + split; [unfold best; rewrite Hc; split; [reflexivity|apply Hi; lra]|]. split; [lra|]. intros s Hs. now apply (@edge_best a b p s HA Hs).
      + split; [exact Hb|]. split; [lra|]. intros s Hs. pose proof (proj1 (@edge_best a b p s HA Hs) EW). lra.
    - assert (NW : ~ 0 < find_t a b p < 1) by (intros G; apply within_iff in G; congruence).
      cbn [fst]. split; [exact Hb|]. split; [lra|]. intros s Hs. destruct (proj2 (@edge_best a b p s HA Hs) NW); lra.
  Qed.
End Best.

(** Leaving the triangle on the way to a point outside *)
Definition mixb (b a : V3) (s : R) : V3 := vadd (vscal (1 - s) b) (vscal s a).
Lemma exit_coord b a : 0 <= b -> let s := if Rlt_dec a 0 then b / (b - a) else 1 in
  0 <= s <= 1 /\ (forall r, 0 <= r <= s -> 0 <= (1 - r) * b + r * a) /\ (a < 0 -> (1 - s) * b + s * a = 0 /\ s < 1).
Proof.
  intros Hb s. unfold s. destruct (Rlt_dec a 0) as [H|H].
  - assert (D : 0 < b - a) by lra. assert (S1 : b / (b - a) < 1) by (apply Rmult_lt_reg_r with (b - a); [lra|]; unfold Rdiv; rewrite Rmult_assoc, Rinv_l by lra; lra).
    assert (S0 : 0 <= b / (b - a)) by (apply Rmult_le_pos; [lra|]; left; apply Rinv_0_lt_compat; lra).
    split; [lra|]. split.
    + intros r Hr. assert (r * (b - a) <= b).
      { apply Rle_trans with (b / (b - a) * (b - a)); [apply Rmult_le_compat_r; lra|]. unfold Rdiv. rewrite Rmult_assoc, Rinv_l by lra. lra. }
      lra.
    + intros _. split; [field; lra|exact S1].
  - split; [lra|]. split; [|lra]. intros r Hr. assert (0 <= (1 - r) * b) by (apply Rmult_le_pos; lra). assert (0 <= r * a) by (apply Rmult_le_pos; lra). lra.
Qed.
Lemma exit_point b a : 0 <= vx b -> 0 <= vy b -> 0 <= vz b -> (vx a < 0 \/ vy a < 0 \/ vz a < 0) ->
  exists s, 0 <= s <= 1 /\ let m := mixb b a s in 0 <= vx m /\ 0 <= vy m /\ 0 <= vz m /\ (vx m = 0 \/ vy m = 0 \/ vz m = 0).
Proof.
  intros B1 B2 B3 HN.
  destruct (exit_coord (vx a) B1) as (R1 & P1 & Z1). destruct (exit_coord (vy a) B2) as (R2 & P2 & Z2). destruct (exit_coord (vz a) B3) as (R3 & P3 & Z3). cbv zeta in *.
  set (s1 := if Rlt_dec (vx a) 0 then vx b / (vx b - vx a) else 1) in *. set (s2 := if Rlt_dec (vy a) 0 then vy b / (vy b - vy a) else 1) in *. set (s3 := if Rlt_dec (vz a) 0 then vz b / (vz b - vz a) else 1) in *.
  assert (E1 : ~ vx a < 0 -> s1 = 1) by (intros; unfold s1; destruct (Rlt_dec (vx a) 0); lra).
  assert (E2 : ~ vy a < 0 -> s2 = 1) by (intros; unfold s2; destruct (Rlt_dec (vy a) 0); lra).
  assert (E3 : ~ vz a < 0 -> s3 = 1) by (intros; unfold s3; destruct (Rlt_dec (vz a) 0); lra).
  assert (Some1 : s1 < 1 \/ s2 < 1 \/ s3 < 1) by (destruct HN as [H|[H|H]]; [apply Z1 in H|apply Z2 in H|apply Z3 in H]; tauto).
  clearbody s1 s2 s3. exists (Rmin s1 (Rmin s2 s3)).
  assert (M1 : Rmin s1 (Rmin s2 s3) <= s1) by apply Rmin_l.
  assert (M2 : Rmin s1 (Rmin s2 s3) <= s2) by (eapply Rle_trans; [apply Rmin_r|apply Rmin_l]).
  assert (M3 : Rmin s1 (Rmin s2 s3) <= s3) by (eapply Rle_trans; [apply Rmin_r|apply Rmin_r]).
  assert (MM : Rmin s1 (Rmin s2 s3) = s1 \/ Rmin s1 (Rmin s2 s3) = s2 \/ Rmin s1 (Rmin s2 s3) = s3) by (unfold Rmin; repeat destruct Rle_dec; auto).
  set (m := Rmin s1 (Rmin s2 s3)) in *. clearbody m.
  assert (Hm : 0 <= m) by (destruct MM as [->|[->| ->]]; lra).
  split; [lra|]. unfold mixb, vadd, vscal. cbn [vx vy vz].
  split; [apply P1; lra|]. split; [apply P2; lra|]. split; [apply P3; lra|].
  destruct MM as [E|[E|E]]; subst m.
  - destruct (Rlt_dec (vx a) 0) as [H|H]; [left; now apply Z1|]. exfalso. apply E1 in H. lra.
  - destruct (Rlt_dec (vy a) 0) as [H|H]; [right; left; now apply Z2|]. exfalso. apply E2 in H. lra.
  - destruct (Rlt_dec (vz a) 0) as [H|H]; [right; right; now apply Z3|]. exfalso. apply E3 in H. lra.
Qed.

(** Pythagoras: in the plane of the triangle the distance to p grows with the distance to the foot *)
Lemma foot_distance p p1 p2 p3 a b : projects_to p p1 p2 p3 a -> bary_sum b = 1 ->
  vdist2 (bary_point p1 p2 p3 b) p = vdist2 (bary_point p1 p2 p3 a) p + vdist2 (bary_point p1 p2 p3 b) (bary_point p1 p2 p3 a).
Proof.
  intros (A1 & A2 & A3) B1. set (q := bary_point p1 p2 p3 a) in *.
  assert (E : vminus (bary_point p1 p2 p3 b) q = vadd (vscal (vy b - vy a) (vminus p2 p1)) (vscal (vz b - vz a) (vminus p3 p1))).
  { unfold bary_sum in *. assert (X : vx a = 1 - vy a - vz a) by lra. assert (Y : vx b = 1 - vy b - vz b) by lra.
    apply V3_eq; unfold q, vminus, bary_point, vadd, vscal; cbn [vx vy vz]; rewrite X, Y; ring. }
  assert (O : vdot (vminus p q) (vminus (bary_point p1 p2 p3 b) q) = 0).
  { rewrite E. transitivity ((vy b - vy a) * vdot (vminus p q) (vminus p2 p1) + (vz b - vz a) * vdot (vminus p q) (vminus p3 p1)); [unfold vdot, vadd, vscal; cbn [vx vy vz]; ring|rewrite A2, A3; ring]. }
  set (r := bary_point p1 p2 p3 b) in *. clearbody q r.
  transitivity (vdist2 q p + vdist2 r q - 2 * vdot (vminus p q) (vminus r q)); [|rewrite O; ring].
  unfold vdist2, vdot, vminus, vadd, vscal. cbn [vx vy vz]. ring.
Qed.
Lemma vdist2_nonneg a b : 0 <= vdist2 a b.
Proof. apply vdot_nonneg. Qed.
Lemma leaves_by_edge p p1 p2 p3 a q : projects_to p p1 p2 p3 a -> (vx a < 0 \/ vy a < 0 \/ vz a < 0) -> in_triangle p1 p2 p3 q ->
  exists s, 0 <= s <= 1 /\ (vdist2 (seg p1 p2 s) p <= vdist2 q p \/ vdist2 (seg p2 p3 s) p <= vdist2 q p \/ vdist2 (seg p3 p1 s) p <= vdist2 q p).
Proof.
  intros HA HN (b & B0 & B1 & B2 & B3 & ->). destruct (@exit_point b a B1 B2 B3 HN) as (s & Hs & M1 & M2 & M3 & MZ). cbv zeta in *.
  set (m := mixb b a s) in *.
  assert (Hm : bary_sum m = 1) by (unfold bary_sum, m, mixb, vadd, vscal in *; cbn [vx vy vz]; destruct HA as (A1 & _); unfold bary_sum in A1; replace ((1 - s) * vx b + s * vx a + ((1 - s) * vy b + s * vy a) + ((1 - s) * vz b + s * vz a)) with ((1 - s) * (vx b + vy b + vz b) + s * (vx a + vy a + vz a)) by ring; rewrite A1, B0; ring).
  assert (Hd : vdist2 (bary_point p1 p2 p3 m) p <= vdist2 (bary_point p1 p2 p3 b) p).
  { rewrite (foot_distance HA Hm), (foot_distance HA B0). apply Rplus_le_compat_l.
    assert (E : vdist2 (bary_point p1 p2 p3 m) (bary_point p1 p2 p3 a) = (1 - s) * (1 - s) * vdist2 (bary_point p1 p2 p3 b) (bary_point p1 p2 p3 a)) by (unfold m, mixb, vdist2, vdot, vminus, bary_point, vadd, vscal; cbn [vx vy vz]; ring).
    rewrite E. pose proof (vdist2_nonneg (bary_point p1 p2 p3 b) (bary_point p1 p2 p3 a)).
    assert ((1 - s) * (1 - s) <= 1) by nra. rewrite <- (Rmult_1_l (vdist2 (bary_point p1 p2 p3 b) (bary_point p1 p2 p3 a))) at 2. now apply Rmult_le_compat_r. }
  clearbody m. unfold bary_sum in Hm. destruct MZ as [Z|[Z|Z]].
  - exists (vz m). split; [lra|]. right; left. replace (seg p2 p3 (vz m)) with (bary_point p1 p2 p3 m); [exact Hd|].
    assert (X : vy m = 1 - vz m) by lra. apply V3_eq; unfold bary_point, seg, vadd, vscal; cbn [vx vy vz]; rewrite Z, X; ring.
  - exists (vx m). split; [lra|]. right; right. replace (seg p3 p1 (vx m)) with (bary_point p1 p2 p3 m); [exact Hd|].
    assert (X : vz m = 1 - vx m) by lra. apply V3_eq; unfold bary_point, seg, vadd, vscal; cbn [vx vy vz]; rewrite Z, X; ring.
  - exists (vy m). split; [lra|]. left. replace (seg p1 p2 (vy m)) with (bary_point p1 p2 p3 m); [exact Hd|].
    assert (X : vx m = 1 - vy m) by lra. apply V3_eq; unfold bary_point, seg, vadd, vscal; cbn [vx vy vz]; rewrite Z, X; ring.
Qed.

Lemma nondeg_edges p1 p2 p3 : nondegenerate p1 p2 p3 -> 0 < vdist2 p2 p1 /\ 0 < vdist2 p3 p2 /\ 0 < vdist2 p1 p3.
Proof.
  intros H. assert (G : forall a b, (a = b -> nondegenerate p1 p2 p3 -> False) -> 0 < vdist2 a b).
  { intros a b F. destruct (vdist2_nonneg a b) as [L|L]; [exact L|]. exfalso. apply F; [|exact H]. symmetry in L. apply vdot_zero in L.
    pose proof (f_equal vx L) as X. pose proof (f_equal vy L) as Y. pose proof (f_equal vz L) as Z. unfold vminus, vadd, vscal, vzero in *. cbn [vx vy vz] in *. apply V3_eq; lra. }
  split; [|split]; apply G; intros E N; apply N; subst; unfold triangle_normal, vcross, vminus, vadd, vscal; apply V3_eq; cbn [vx vy vz vzero]; ring.
Qed.

Lemma closest_main node tri tol junk : 0 < tol ->
  let p := coord_1 node in let p1 := coord_1 tri in let p2 := coord_2 tri in let p3 := coord_3 tri in
  nondegenerate p1 p2 p3 ->
  let a := albary p p1 p2 p3 in
  let c := fst (closest_point_projection_single node tri tol junk) in
  let ty := snd (closest_point_projection_single node tri tol junk) in
  (forall q, in_triangle p1 p2 p3 q -> vdist2 c p <= vdist2 q p) /\
  ((all_between (- tol) (1 + tol) a /\ c = bary_point p1 p2 p3 a /\
    (ty = FACE <-> tol <= vx a /\ tol <= vy a /\ tol <= vz a) /\ (ty = FACE \/ ty = NODE_OR_EDGE)) \/
   (~ all_between (- tol) (1 + tol) a /\ in_triangle p1 p2 p3 c /\ ty = NODE_OR_EDGE)).
Proof.
  intros Htol p p1 p2 p3 ND a. unfold closest_point_projection_single. fold p p1 p2 p3. cbv zeta.
  set (u := vsub p2 p1). set (v := vsub p3 p1). set (w := vsub p p1). set (n := cross_product u v).
  assert (En : n = triangle_normal p1 p2 p3) by apply n_normal.
  assert (Hn : 0 < vdot n n) by (rewrite En; now apply nondeg_pos).
  pose proof (@al_projects p p1 p2 p3 Hn) as HP. fold a in HP.
  match goal with |- context[Req_EM_T ?x 0] => destruct (Req_EM_T x 0) as [E0|E0] end; [exfalso; unfold vdot in Hn; lra|].
  change (true && ?x) with x. cbn [andb].
  assert (Ea : vx a = 1 - al3 p p1 p2 p3 - al2 p p1 p2 p3) by (unfold a, albary, al1; cbn [vx]; ring).
  match goal with |- context[if within ?l1 ?x1 ?h1 && within ?l2 ?x2 ?h2 && within ?l3 ?x3 ?h3 then _ else _] =>
    change (within l1 x1 h1) with (within (- tol) (1 - al3 p p1 p2 p3 - al2 p p1 p2 p3) (1 + tol));
    change (within l2 x2 h2) with (within (- tol) (al2 p p1 p2 p3) (1 + tol));
    change (within l3 x3 h3) with (within (- tol) (al3 p p1 p2 p3) (1 + tol)) end.
  rewrite <- Ea.
  destruct (within (- tol) (vx a) (1 + tol) && within (- tol) (al2 p p1 p2 p3) (1 + tol) && within (- tol) (al3 p p1 p2 p3) (1 + tol)) eqn:EW.
  - apply andb_true_iff in EW as [EW W3]. apply andb_true_iff in EW as [W1 W2]. apply within_iff in W1, W2, W3. cbn [fst snd].
    assert (Ec : forall c, c = bary_point p1 p2 p3 a -> (forall q, in_triangle p1 p2 p3 q -> vdist2 c p <= vdist2 q p)).
    { intros c -> q (b & B0 & _ & _ & _ & ->). rewrite (foot_distance HP B0). pose proof (vdist2_nonneg (bary_point p1 p2 p3 b) (bary_point p1 p2 p3 a)). lra. }
    match goal with |- (forall q, _ -> vdist2 ?c p <= _) /\ _ => assert (Eq : c = bary_point p1 p2 p3 a) end.
    { change (mkV3 ((1 - al3 p p1 p2 p3 - al2 p p1 p2 p3) * vx p1 + al2 p p1 p2 p3 * vx p2 + al3 p p1 p2 p3 * vx p3)
                   ((1 - al3 p p1 p2 p3 - al2 p p1 p2 p3) * vy p1 + al2 p p1 p2 p3 * vy p2 + al3 p p1 p2 p3 * vy p3)
                   ((1 - al3 p p1 p2 p3 - al2 p p1 p2 p3) * vz p1 + al2 p p1 p2 p3 * vz p2 + al3 p p1 p2 p3 * vz p3) = bary_point p1 p2 p3 a).
      rewrite <- Ea. unfold a, albary. apply V3_eq; unfold bary_point, vadd, vscal; cbn [vx vy vz]; reflexivity. }
    split; [now apply Ec|]. left. split; [unfold all_between, a, albary in *; cbn [vx vy vz] in *; tauto|]. split; [exact Eq|].
    match goal with |- context[if within ?l1 ?x1 ?h1 || within ?l2 ?x2 ?h2 || within ?l3 ?x3 ?h3 then _ else _] =>
      change (within l1 x1 h1) with (within (- tol) (1 - al3 p p1 p2 p3 - al2 p p1 p2 p3) tol);
      change (within l2 x2 h2) with (within (- tol) (al2 p p1 p2 p3) tol);
      change (within l3 x3 h3) with (within (- tol) (al3 p p1 p2 p3) tol) end.
    rewrite <- Ea. change (vy a) with (al2 p p1 p2 p3). change (vz a) with (al3 p p1 p2 p3).
    assert (F : forall x, - tol < x -> (within (- tol) x tol = false <-> tol <= x)).
    { intros x Hx. rewrite <- not_true_iff_false, within_iff. lra. }
    destruct (within (- tol) (vx a) tol || within (- tol) (al2 p p1 p2 p3) tol || within (- tol) (al3 p p1 p2 p3) tol) eqn:EO.
    + split; [|now right]. split; [discriminate|]. intros (G1 & G2 & G3). apply F in G1, G2, G3; [|tauto..]. rewrite G1, G2, G3 in EO. discriminate.
    + split; [|now left]. split; [intros _|reflexivity]. apply orb_false_iff in EO as [EO G3]. apply orb_false_iff in EO as [G1 G2].
      apply F in G1; [|tauto]. apply F in G2; [|tauto]. apply F in G3; [|tauto]. tauto.
  - assert (NB : ~ all_between (- tol) (1 + tol) a).
    { intros (X1 & X2 & X3). apply within_iff in X1, X2, X3. change (vy a) with (al2 p p1 p2 p3) in X2. change (vz a) with (al3 p p1 p2 p3) in X3. rewrite X1, X2, X3 in EW. discriminate. }
    assert (Neg : vx a < 0 \/ vy a < 0 \/ vz a < 0).
    { destruct HP as (S1 & _). unfold bary_sum in S1. destruct (Rlt_dec (vx a) 0); [auto|]. destruct (Rlt_dec (vy a) 0); [auto|]. destruct (Rlt_dec (vz a) 0); [auto|].
      exfalso. apply NB. unfold all_between. repeat split; lra. }
    destruct (nondeg_edges ND) as (D12 & D23 & D31).
    set (s0 := ((vx p1 - vx p) * (vx p1 - vx p) + (vy p1 - vy p) * (vy p1 - vy p) + (vz p1 - vz p) * (vz p1 - vz p), junk, 1%nat)).
    assert (I1 : in_triangle p1 p2 p3 p1) by (exists (mkV3 1 0 0); unfold bary_sum; cbn [vx vy vz]; repeat split; try lra; apply V3_eq; unfold bary_point, vadd, vscal; cbn [vx vy vz]; ring).
    assert (I2 : in_triangle p1 p2 p3 p2) by (exists (mkV3 0 1 0); unfold bary_sum; cbn [vx vy vz]; repeat split; try lra; apply V3_eq; unfold bary_point, vadd, vscal; cbn [vx vy vz]; ring).
    assert (I3 : in_triangle p1 p2 p3 p3) by (exists (mkV3 0 0 1); unfold bary_sum; cbn [vx vy vz]; repeat split; try lra; apply V3_eq; unfold bary_point, vadd, vscal; cbn [vx vy vz]; ring).
    assert (Z0 : fst (fst s0) = vdist2 p1 p) by (unfold s0; cbn [fst]; unfold vdist2, vdot, vminus, vadd, vscal; cbn [vx vy vz]; ring).
    assert (H0 : best p p1 p2 p3 s0) by (unfold best, s0; split; [exact Z0|exact I1]).
    assert (L0 : dof s0 <= vdist2 p1 p) by (unfold dof; lra). clearbody s0.
    pose proof (@try_vertex_ok p p1 p2 p3 p2 2 s0 (fun _ => eq_refl) I2 H0) as (H1 & L1 & M1). set (st1 := try_vertex p2 p 2 s0) in *. clearbody st1.
    pose proof (@try_vertex_ok p p1 p2 p3 p3 3 st1 (fun _ => eq_refl) I3 H1) as (H2 & L2 & M2). set (st2 := try_vertex p3 p 3 st1) in *. clearbody st2.
    pose proof (@try_edge_ok p p1 p2 p3 p1 p2 4 st2 (on_edge_seg p1 p2) (@in_seg12 p1 p2 p3) D12 H2 ltac:(lra) ltac:(lra)) as (H3 & L3 & M3). set (st3 := try_edge p1 p2 p 4 st2) in *. clearbody st3.
    pose proof (@try_edge_ok p p1 p2 p3 p2 p3 5 st3 (on_edge_seg p2 p3) (@in_seg23 p1 p2 p3) D23 H3 ltac:(lra) ltac:(lra)) as (H4 & L4 & M4). set (st4 := try_edge p2 p3 p 5 st3) in *. clearbody st4.
    pose proof (@try_edge_ok p p1 p2 p3 p3 p1 6 st4 (on_edge_seg p3 p1) (@in_seg31 p1 p2 p3) D31 H4 ltac:(lra) ltac:(lra)) as (H5 & L5 & M5). set (st5 := try_edge p3 p1 p 6 st4) in *. clearbody st5.
    destruct st5 as [[d t] c]. cbn [fst snd]. destruct H5 as [Ed Ei]. unfold dof in *. cbn [fst] in *.
    change (match c with 2%nat => p2 | 3%nat => p3 | 4%nat => on_edge p1 p2 t | 5%nat => on_edge p2 p3 t | 6%nat => on_edge p3 p1 t | _ => p1 end) with (case_point p1 p2 p3 t c).
    split; [|right; tauto]. intros q Hq. rewrite <- Ed.
    destruct (leaves_by_edge HP Neg Hq) as (s & Hs & [B|[B|B]]); [specialize (M3 s Hs)|specialize (M4 s Hs)|specialize (M5 s Hs)]; lra.
Qed.
