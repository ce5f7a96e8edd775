(** Penetration, boxes, and the transfer between mesh and contact submodel. *)
From Verif Require Import Base ListLemmas Loops ContactModel ContactSpec ContactProofs ContactProofs2 ContactProofs3.
From Coq Require Import Reals Lra Permutation.
Set Implicit Arguments.
Local Open Scope R_scope.

Lemma tol_eq : default_tol = contact_tol.
Proof. unfold default_tol, contact_tol. simpl. field. Qed.

Lemma penetrates_bary tol node face b : penetrates tol node face b -> b = albary (coord_1 node) (coord_1 face) (coord_2 face) (coord_3 face).
Proof. intros (ND & P & _). apply bary_unique; [|exact P]. apply nondeg_pos in ND. now rewrite (n_normal (coord_1 face) (coord_2 face) (coord_3 face)). Qed.
Lemma proj_albary p p1 p2 p3 : nondegenerate p1 p2 p3 -> projects_to p p1 p2 p3 (albary p p1 p2 p3).
Proof. intros ND. apply al_projects. apply nondeg_pos in ND. now rewrite (n_normal p1 p2 p3). Qed.
Lemma projection_spec node tri gap0 normal0 bary0 tol :
  let p := coord_1 node in let p1 := coord_1 tri in let p2 := coord_2 tri in let p3 := coord_3 tri in
  let r := projection node tri gap0 normal0 bary0 tol in
  (pr_in r = true <-> exists b, penetrates tol node tri b) /\
  (forall b, nondegenerate p1 p2 p3 -> projects_to p p1 p2 p3 b -> all_between (- tol) (1 + tol) b ->
     pr_gap r = signed_distance p p1 p2 p3 /\ pr_normal r = unit_normal p1 p2 p3 /\ pr_bary r = b) /\
  ((forall b, ~ (nondegenerate p1 p2 p3 /\ projects_to p p1 p2 p3 b /\ all_between (- tol) (1 + tol) b)) ->
     pr_gap r = gap0 /\ pr_normal r = normal0 /\ pr_bary r = bary0).
Proof.
  intros p p1 p2 p3 r. destruct (projection_cases node tri gap0 normal0 bary0 tol) as [(ND & AB & E)|(NO & E)]; [fold p p1 p2 p3 in ND; fold p p1 p2 p3 in AB|fold p p1 p2 p3 in NO]; fold p p1 p2 p3 in E; fold r in E; rewrite E; cbn [pr_in pr_gap pr_normal pr_bary].
  - split; [|split].
    + rewrite within_iff. split.
      * intros H. exists (albary p p1 p2 p3). unfold penetrates. fold p p1 p2 p3. split; [exact ND|]. split; [now apply proj_albary|]. split; [exact AB|exact H].
      * intros (b & Hb). apply Hb.
    + intros b _ HP _. split; [reflexivity|]. split; [reflexivity|]. symmetry. apply bary_unique; [|exact HP]. apply nondeg_pos in ND. now rewrite (n_normal p1 p2 p3).
    + intros H. exfalso. apply (H (albary p p1 p2 p3)). split; [exact ND|]. split; [now apply proj_albary|exact AB].
  - split; [|split].
    + split; [discriminate|]. intros (b & Hb). exfalso. pose proof (penetrates_bary Hb) as Eb. fold p p1 p2 p3 in Eb. destruct Hb as (N1 & _ & N2 & _). rewrite Eb in N2. destruct NO as [NO|NO]; auto.
    + intros b N1 HP N2. exfalso. assert (Eb : b = albary p p1 p2 p3). { apply bary_unique; [|exact HP]. apply nondeg_pos in N1. now rewrite (n_normal p1 p2 p3). }
      rewrite Eb in N2. destruct NO as [NO|NO]; auto.
    + intros _. auto.
Qed.

Lemma contrib_force penalty nodes faces pair node face k : nth_error nodes (fst pair) = Some node -> nth_error faces (snd pair) = Some face ->
  pair_force penalty node face k (contrib penalty nodes faces k pair).
Proof.
  intros E1 E2. unfold contrib, pair_result. rewrite E1, E2. rewrite tol_eq.
  destruct (projection_spec node face 0 vzero vzero contact_tol) as (P1 & P2 & _). set (r := projection node face 0 vzero vzero contact_tol) in *. clearbody r.
  unfold pair_force. destruct (pr_in r).
  - left. destruct P1 as [P1 _]. destruct (P1 eq_refl) as (b & Hb). pose proof Hb as (H1 & H2 & H3 & _). destruct (P2 b H1 H2 H3) as (-> & -> & ->).
    exists b. split; [exact Hb|]. unfold pair_add. apply V3_eq; unfold vscal; cbn [vx vy vz]; ring.
  - right. split; [|reflexivity]. intros b Hb. destruct P1 as [_ P1]. discriminate P1. now exists b.
Qed.
Lemma inside_touch nodes faces pair : inside_pair nodes faces pair = true <-> touching nodes faces (fst pair) (snd pair).
Proof.
  unfold inside_pair, pair_result, touching. destruct (nth_error nodes (fst pair)) as [node|]; [destruct (nth_error faces (snd pair)) as [face|]|].
  - rewrite tol_eq. destruct (projection_spec node face 0 vzero vzero contact_tol) as (P1 & _). rewrite P1. split.
    + intros (b & Hb). exists node, face, b. auto.
    + intros (n & f & b & H1 & H2 & Hb). injection H1 as <-. injection H2 as <-. now exists b.
  - split; [discriminate|]. intros (? & ? & ? & _ & ? & _). discriminate.
  - split; [discriminate|]. intros (? & ? & ? & ? & _). discriminate.
Qed.
Lemma node_on_touch nodes faces pairs i : node_on nodes faces pairs i = true <-> exists j, In (i, j) pairs /\ touching nodes faces i j.
Proof.
  unfold node_on. rewrite existsb_exists. split.
  - intros ([i' j] & Hi & H). apply andb_true_iff in H as [H1 H2]. apply Nat.eqb_eq in H1. cbn [fst] in H1. subst i'. apply inside_touch in H2. exists j. auto.
  - intros (j & Hi & H). exists (i, j). split; [exact Hi|]. apply andb_true_iff. split; [apply Nat.eqb_refl|]. now apply inside_touch.
Qed.
Lemma face_on_touch nodes faces pairs j : face_on nodes faces pairs j = true <-> exists i, In (i, j) pairs /\ touching nodes faces i j.
Proof.
  unfold face_on. rewrite existsb_exists. split.
  - intros ([i j'] & Hi & H). apply andb_true_iff in H as [H1 H2]. apply Nat.eqb_eq in H1. cbn [snd] in H1. subst j'. apply inside_touch in H2. exists i. auto.
  - intros (i & Hi & H). exists (i, j). split; [exact Hi|]. apply andb_true_iff. split; [apply Nat.eqb_refl|]. now apply inside_touch.
Qed.

(** ** Total and moment of the submodel's force vector *)
Lemma vsum_nodes_vsum {A} n (f : nat -> A -> V3) (l : list A) : vsum_nodes n (fun k => vsum (map (f k) l)) = vsum (map (fun a => vsum_nodes n (fun k => f k a)) l).
Proof.
  induction l as [|a l IH]; [apply vsum_nodes_zero|]. cbn [map vsum fold_right]. fold vsum. change (vsum_nodes n (fun k => vadd (f k a) (vsum (map (f k) l))) = vadd (vsum_nodes n (fun k => f k a)) (vsum (map (fun a0 => vsum_nodes n (fun k => f k a0)) l))).
  rewrite vsum_nodes_add, IH. reflexivity.
Qed.
Lemma vsum_all_zero {A} (f : A -> V3) l : Forall (fun a => f a = vzero) l -> vsum (map f l) = vzero.
Proof. induction 1 as [|a l Ha Hl IH]; [reflexivity|]. cbn [map vsum fold_right]. change (vadd (f a) (vsum (map f l)) = vzero). rewrite Ha, IH. apply vadd_zero. Qed.
Lemma vcross_vsum x l : vcross x (vsum l) = vsum (map (vcross x) l).
Proof. induction l as [|a l IH]; [apply V3_eq; unfold vcross, vzero; simpl; ring|]. cbn [map vsum fold_right]. change (vcross x (vadd a (vsum l)) = vadd (vcross x a) (vsum (map (vcross x) l))). rewrite <- IH. apply V3_eq; unfold vcross, vadd; cbn [vx vy vz]; ring. Qed.

Lemma penetrates_offset tol node face b : penetrates tol node face b ->
  vminus (coord_1 node) (bary_point (coord_1 face) (coord_2 face) (coord_3 face) b) =
  vscal (signed_distance (coord_1 node) (coord_1 face) (coord_2 face) (coord_3 face)) (unit_normal (coord_1 face) (coord_2 face) (coord_3 face)).
Proof.
  intros H. rewrite (penetrates_bary H). destruct H as (ND & _). set (p := coord_1 node) in *. set (p1 := coord_1 face) in *. set (p2 := coord_2 face) in *. set (p3 := coord_3 face) in *.
  pose proof ND as NP. apply nondeg_pos in NP. rewrite <- (n_normal p1 p2 p3) in NP.
  rewrite (@offset_normal p p1 p2 p3 NP), (@signed_w p p1 p2 p3 NP), (@unit_n p1 p2 p3).
  set (n := cross_product (vsub p2 p1) (vsub p3 p1)) in *. set (w := vsub p p1).
  pose proof (sqrt_lt_R0 _ NP) as Hs. pose proof (sqrt_sqrt _ (Rlt_le _ _ NP)) as Hq.
  apply V3_eq; unfold vscal; cbn [vx vy vz]; rewrite <- Hq at 1; field; lra.
Qed.
Lemma unit_normal_1 p1 p2 p3 : nondegenerate p1 p2 p3 -> vdot (unit_normal p1 p2 p3) (unit_normal p1 p2 p3) = 1.
Proof.
  intros ND. apply nondeg_pos in ND. unfold unit_normal. cbv zeta. set (n := triangle_normal p1 p2 p3) in *.
  pose proof (sqrt_lt_R0 _ ND) as Hs. pose proof (sqrt_sqrt _ (Rlt_le _ _ ND)) as Hq.
  transitivity (vdot n n / (sqrt (vdot n n) * sqrt (vdot n n))); [unfold vdot at 1; unfold vscal; cbn [vx vy vz]; unfold vdot at 7; field; lra|].
  rewrite Hq. field. lra.
Qed.

Lemma face_sub_parts n face : face_of_submodel n face -> (node_id_for_node_1_ face < n)%nat /\ (node_id_for_node_2_ face < n)%nat /\
  Forall (fun a => (a < n)%nat) (node_ids_for_fictitious_node_ face) /\ length (node_ids_for_fictitious_node_ face) = 4%nat.
Proof. intros (_ & A & B & C & D). auto. Qed.

(** ** Bounding boxes *)
Lemma lower_spec x y : lower_to x y <= x /\ lower_to x y <= y /\ (lower_to x y = x \/ lower_to x y = y).
Proof. unfold lower_to. destruct (Rlt_dec x y); lra. Qed.
Lemma raise_spec x y : x <= raise_to x y /\ y <= raise_to x y /\ (raise_to x y = x \/ raise_to x y = y).
Proof. unfold raise_to. destruct (Rlt_dec y x); lra. Qed.
Lemma box_tight e : well_formed_entity e -> let e' := set_bounding_box e in
  tight_box (inflation_factor e * char_len_ e) (vertices e) (bounding_box_min e') (bounding_box_max e') /\
  centroid_ e' = vscal (/ INR (length (vertices e))) (vsum (vertices e)) /\
  e' = with_box e (bounding_box_min e') (bounding_box_max e') (centroid_ e').
Proof.
  intros [[ET EN]|[ET EN]]; unfold set_bounding_box, vertices; rewrite ET, EN; cbv zeta; cbn [bounding_box_min bounding_box_max centroid_ with_box].
  - split; [|split].
    + unfold tight_box. intros x [<-|[<-|[<-|[]]]]; cbn [vx vy vz]; (split; [intros q [<-|[]]; lra|]); split; exists (coord_1 e); (split; [now left|]); ring.
    + cbn [length vsum fold_right]. apply V3_eq; unfold vscal, vadd, vzero; cbn [vx vy vz]; simpl; field.
    + destruct e; reflexivity.
  - split; [|split].
    + set (d := inflation_factor e * char_len_ e). set (a := coord_1 e). set (b := coord_2 e). set (c := coord_3 e).
      assert (G : forall x, let lo := lower_to (x c) (lower_to (x b) (x a)) in let hi := raise_to (x c) (raise_to (x b) (x a)) in
        (forall q, In q [a; b; c] -> lo - d + d <= x q <= hi + d - d) /\ (exists q, In q [a; b; c] /\ x q = lo - d + d) /\ (exists q, In q [a; b; c] /\ x q = hi + d - d)).
      { intros x lo hi. destruct (lower_spec (x b) (x a)) as (L1 & L2 & L3). destruct (lower_spec (x c) (lower_to (x b) (x a))) as (L4 & L5 & L6).
        destruct (raise_spec (x b) (x a)) as (R1 & R2 & R3). destruct (raise_spec (x c) (raise_to (x b) (x a))) as (R4 & R5 & R6). fold lo in L4, L5, L6. fold hi in R4, R5, R6.
        clearbody lo hi. set (l1 := lower_to (x b) (x a)) in *. set (r1 := raise_to (x b) (x a)) in *. clearbody l1 r1. split; [intros q [<-|[<-|[<-|[]]]]; lra|]. split.
        - destruct L6 as [E6|E6]; [exists c|destruct L3 as [E3|E3]; [exists b|exists a]]; (split; [simpl; auto|]); lra.
        - destruct R6 as [E6|E6]; [exists c|destruct R3 as [E3|E3]; [exists b|exists a]]; (split; [simpl; auto|]); lra. }
      unfold tight_box. intros x [<-|[<-|[<-|[]]]]; cbn [vx vy vz]; [apply (G vx)|apply (G vy)|apply (G vz)].
    + cbn [length vsum fold_right]. apply V3_eq; unfold vscal, vadd, vzero; cbn [vx vy vz]; simpl; field.
    + destruct e; reflexivity.
Qed.

Lemma abs_le_norm d n : vdot n n = 1 -> forall x, In x [vx; vy; vz] -> - Rabs d <= d * x n <= Rabs d.
Proof.
  intros H x Hx. assert (B : -1 <= x n <= 1).
  { unfold vdot in H. pose proof (Rle_0_sqr (vx n)) as A. pose proof (Rle_0_sqr (vy n)) as B. pose proof (Rle_0_sqr (vz n)) as C. unfold Rsqr in *.
    assert (Q : x n * x n <= 1) by (destruct Hx as [<-|[<-|[<-|[]]]]; lra). clear - Q. split; nra. }
  assert (Rabs (d * x n) <= Rabs d). { rewrite Rabs_mult. rewrite <- (Rmult_1_r (Rabs d)) at 2. apply Rmult_le_compat_l; [apply Rabs_pos|]. apply Rabs_le. lra. }
  split; [pose proof (Rle_abs (- (d * x n))) as G; rewrite Rabs_Ropp in G; lra|pose proof (Rle_abs (d * x n)); lra].
Qed.
