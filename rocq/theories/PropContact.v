(** Properties of contact: projection, penalty forces, bounding boxes. *)
From Verif Require Import Base ListLemmas Loops ContactModel ContactParModel ContactSpec ContactProofs ContactProofs2 ContactProofs3 ContactProofs4 ContactProofs5 ContactProofs6 ContactProofs7 ContactProofs8.
From Coq Require Import Reals Lra Permutation.
Set Implicit Arguments.
Local Open Scope R_scope.

(** ** C37 *)
(** Contact is reported exactly for nodes that penetrate: the orthogonal projection lies in the
    (non-degenerate) triangle up to the tolerance, and the node is behind it by less than its length. *)
Theorem C37_contact_iff_penetrates : forall node tri gap0 normal0 bary0 tol,
  pr_in (projection node tri gap0 normal0 bary0 tol) = true <-> exists b, penetrates tol node tri b.
Proof. intros. apply projection_spec. Qed.
Print Assumptions C37_contact_iff_penetrates.
(** If the projection lies in the triangle: the gap is the signed distance to the plane, the normal is
    the unit normal, the weights are the barycentric coordinates of the orthogonal projection (they
    sum to one and are unique), and gap times normal leads from the projection to the node. *)
Theorem C37_projection_outputs : forall node tri gap0 normal0 bary0 tol b,
  let p := coord_1 node in let p1 := coord_1 tri in let p2 := coord_2 tri in let p3 := coord_3 tri in
  let r := projection node tri gap0 normal0 bary0 tol in
  nondegenerate p1 p2 p3 -> projects_to p p1 p2 p3 b -> all_between (- tol) (1 + tol) b ->
  pr_bary r = b /\ bary_sum (pr_bary r) = 1 /\
  pr_gap r = signed_distance p p1 p2 p3 /\ pr_normal r = unit_normal p1 p2 p3 /\ vdot (pr_normal r) (pr_normal r) = 1 /\
  vminus p (bary_point p1 p2 p3 (pr_bary r)) = vscal (pr_gap r) (pr_normal r).
Proof.
  intros node tri gap0 normal0 bary0 tol b p p1 p2 p3 r ND HP HB. destruct (projection_spec node tri gap0 normal0 bary0 tol) as (_ & P2 & _). fold r in P2.
  destruct (P2 b ND HP HB) as (-> & -> & ->). split; [reflexivity|]. split; [apply HP|]. split; [reflexivity|]. split; [reflexivity|]. split; [now apply unit_normal_1|].
  assert (Eb : b = albary p p1 p2 p3). { apply bary_unique; [|exact HP]. apply nondeg_pos in ND. now rewrite (n_normal p1 p2 p3). }
  fold p p1 p2 p3. rewrite Eb. pose proof ND as NP. apply nondeg_pos in NP. rewrite <- (n_normal p1 p2 p3) in NP.
  rewrite (@offset_normal p p1 p2 p3 NP), (@signed_w p p1 p2 p3 NP), (@unit_n p1 p2 p3).
  set (n := cross_product (vsub p2 p1) (vsub p3 p1)) in *. set (w := vsub p p1).
  pose proof (sqrt_lt_R0 _ NP) as Hs. pose proof (sqrt_sqrt _ (Rlt_le _ _ NP)) as Hq.
  apply V3_eq; unfold vscal; cbn [vx vy vz]; rewrite <- Hq at 1; field; lra.
Qed.
Print Assumptions C37_projection_outputs.
(** Otherwise, and for a degenerate triangle, nothing is reported and the outputs are left alone. *)
Theorem C37_outside_unchanged : forall node tri gap0 normal0 bary0 tol,
  let p := coord_1 node in let p1 := coord_1 tri in let p2 := coord_2 tri in let p3 := coord_3 tri in
  let r := projection node tri gap0 normal0 bary0 tol in
  (forall b, ~ (nondegenerate p1 p2 p3 /\ projects_to p p1 p2 p3 b /\ all_between (- tol) (1 + tol) b)) ->
  pr_in r = false /\ pr_gap r = gap0 /\ pr_normal r = normal0 /\ pr_bary r = bary0.
Proof.
  intros node tri gap0 normal0 bary0 tol p p1 p2 p3 r H. destruct (projection_spec node tri gap0 normal0 bary0 tol) as (P1 & _ & P3). fold r in P1, P3.
  split; [|now apply P3]. apply not_true_iff_false. intros E. apply P1 in E as (b & A & B & C & _). apply (H b). auto.
Qed.
Print Assumptions C37_outside_unchanged.

Definition tri0 (n1 n2 : nat) : entity := make_triangle 1 0 (mkV3 0 0 0) (mkV3 1 0 0) (mkV3 0 1 0) 1 n1 n2 [2; 3; 4; 5]%nat.
Definition node0 (z : R) (n : nat) : entity := make_node 9 0 (mkV3 (1 / 4) (1 / 2) z) 1 n.
Lemma node0_penetrates : forall z n n1 n2, -1 < z < 0 -> penetrates contact_tol (node0 z n) (tri0 n1 n2) (mkV3 (1 / 4) (1 / 4) (1 / 2)).
Proof.
  intros z n n1 n2 Hz. unfold penetrates. change (coord_1 (node0 z n)) with (mkV3 (1 / 4) (1 / 2) z). change (coord_1 (tri0 n1 n2)) with (mkV3 0 0 0). change (coord_2 (tri0 n1 n2)) with (mkV3 1 0 0). change (coord_3 (tri0 n1 n2)) with (mkV3 0 1 0). change (char_len_ (tri0 n1 n2)) with 1.
  assert (EN : triangle_normal (mkV3 0 0 0) (mkV3 1 0 0) (mkV3 0 1 0) = mkV3 0 0 1) by (unfold triangle_normal, vcross, vminus, vadd, vscal; apply V3_eq; cbn [vx vy vz]; ring).
  cbv zeta. split; [unfold nondegenerate; rewrite EN; intros E; apply (f_equal vz) in E; unfold vzero in E; cbn [vz] in E; lra|].
  split; [unfold projects_to, bary_sum, vdot, vminus, bary_point, vadd, vscal; cbn [vx vy vz]; repeat split; field|].
  split; [unfold all_between, contact_tol; cbn [vx vy vz]; repeat split; lra|].
  unfold signed_distance, unit_normal. rewrite EN. replace (vdot (mkV3 0 0 1) (mkV3 0 0 1)) with 1 by (unfold vdot; cbn [vx vy vz]; ring). rewrite sqrt_1.
  unfold vdot, vminus, vadd, vscal; cbn [vx vy vz]. rewrite Rinv_1. lra.
Qed.
Example C37_example : exists b, penetrates contact_tol (node0 (-1 / 10) 0) (tri0 0 1) b.
Proof. eexists. apply node0_penetrates. lra. Qed.

(** ** C36 *)
(** One pair: whatever gap, normal and penalty, if the face's weights sum to one the forces it adds
    sum to zero; node k receives exactly (share - hit) times penalty * gap * normal. *)
Theorem C36_pair_action_reaction : forall penalty node face gap normal b force n,
  (node_id_for_node_1_ node < n)%nat -> face_of_submodel n face -> bary_sum b = 1 ->
  exists force', enforce_contact penalty node face gap normal b force = Ok force' /\
    total_force n force' = total_force n force /\
    forall k, node_vec force' k = vadd (node_vec force k) (vscal ((share face b k - hit (node_id_for_node_1_ node) k) * (penalty * gap)) normal).
Proof.
  intros penalty node face gap normal b force n Hn Hf Hb. destruct (@enforce_node penalty node face gap normal b force (proj1 Hf)) as (force' & E & HE).
  exists force'. split; [exact E|]. split.
  - unfold total_force. rewrite (@vsum_nodes_ext n (node_vec force') (fun k => vadd (node_vec force k) (pair_add (vscal (penalty * gap) normal) node face b k)) (fun k _ => HE k)).
    rewrite vsum_nodes_add. destruct (face_sub_parts Hf) as (A & B & C & D). rewrite (@pair_total n node face b (vscal (penalty * gap) normal) Hn A B C D Hb). apply vadd_zero.
  - intros k. rewrite HE. f_equal. unfold pair_add. apply V3_eq; unfold vscal; cbn [vx vy vz]; ring.
Qed.
Print Assumptions C36_pair_action_reaction.

(** A whole serial evaluation, for the pairs the search reports in any order: every node of the
    submodel receives the sum of the pairs' forces, and an entity's status tells whether it touches. *)
Theorem C36_serial_forces : forall penalty nodes faces pairs, 0 < penalty ->
  Forall (fun e => entity_type_ e = TRIANGLE) faces ->
  Forall (fun p => (fst p < length nodes)%nat /\ (snd p < length faces)%nat) pairs ->
  exists s, serial_contact penalty nodes faces pairs = Ok s /\
    (forall k, exists vs, Forall2 (fun p v => forall node face, nth_error nodes (fst p) = Some node -> nth_error faces (snd p) = Some face -> pair_force penalty node face k v) pairs vs /\
                          node_vec (cs_force s) k = vsum vs) /\
    length (cs_nodes s) = length nodes /\ length (cs_faces s) = length faces /\
    (forall i e, nth_error nodes i = Some e -> exists e', nth_error (cs_nodes s) i = Some e' /\ same_but_status e e' (exists j, In (i, j) pairs /\ touching nodes faces i j)) /\
    (forall j e, nth_error faces j = Some e -> exists e', nth_error (cs_faces s) j = Some e' /\ same_but_status e e' (exists i, In (i, j) pairs /\ touching nodes faces i j)).
Proof.
  intros penalty nodes faces pairs Hp Ht HP. destruct (@serial_run penalty nodes faces Ht Hp pairs HP) as (s & E & (L1 & L2) & I1 & I2 & I3).
  exists s. split; [exact E|]. split; [|split; [exact L1|split; [exact L2|split]]].
  - intros k. exists (map (contrib penalty nodes faces k) pairs). split; [|apply I3]. clear. induction pairs as [|p l IH]; cbn [map]; constructor; [|exact IH]. intros. now apply contrib_force.
  - intros i e He. eexists. split; [exact (I1 _ _ He)|]. split; [reflexivity|]. cbn [with_status contact_status_]. apply node_on_touch.
  - intros j e He. eexists. split; [exact (I2 _ _ He)|]. split; [reflexivity|]. cbn [with_status contact_status_]. apply face_on_touch.
Qed.
Print Assumptions C36_serial_forces.
Lemma nth_error_ext {A} (l m : list A) : (forall i, nth_error l i = nth_error m i) -> l = m.
Proof.
  revert m. induction l as [|a l IH]; intros [|b m] H; [reflexivity|specialize (H 0%nat); discriminate|specialize (H 0%nat); discriminate|].
  pose proof (H 0%nat) as H0. injection H0 as <-. f_equal. apply IH. intros i. apply (H (S i)).
Qed.
(** The order in which the search reports the pairs does not matter. *)
Theorem C36_order_independent : forall penalty nodes faces pairs pairs', 0 < penalty ->
  Forall (fun e => entity_type_ e = TRIANGLE) faces ->
  Forall (fun p => (fst p < length nodes)%nat /\ (snd p < length faces)%nat) pairs ->
  Permutation pairs pairs' ->
  exists s s', serial_contact penalty nodes faces pairs = Ok s /\ serial_contact penalty nodes faces pairs' = Ok s' /\
    cs_nodes s = cs_nodes s' /\ cs_faces s = cs_faces s' /\ forall k, node_vec (cs_force s) k = node_vec (cs_force s') k.
Proof.
  intros penalty nodes faces pairs pairs' Hp Ht HP HPerm.
  assert (HP' : Forall (fun p => (fst p < length nodes)%nat /\ (snd p < length faces)%nat) pairs').
  { rewrite Forall_forall in *. intros p Hi. apply HP. eapply Permutation_in; [symmetry; exact HPerm|exact Hi]. }
  destruct (@serial_run penalty nodes faces Ht Hp pairs HP) as (s & E & (L1 & L2) & I1 & I2 & I3).
  destruct (@serial_run penalty nodes faces Ht Hp pairs' HP') as (s' & E' & (L1' & L2') & I1' & I2' & I3').
  exists s, s'. split; [exact E|]. split; [exact E'|].
  assert (N : forall i, node_on nodes faces pairs i = node_on nodes faces pairs' i).
  { intros i. apply eq_true_iff_eq. rewrite !node_on_touch. split; intros (j & Hj & T); exists j; (split; [|exact T]); [exact (Permutation_in _ HPerm Hj)|exact (Permutation_in _ (Permutation_sym HPerm) Hj)]. }
  assert (F : forall j, face_on nodes faces pairs j = face_on nodes faces pairs' j).
  { intros j. apply eq_true_iff_eq. rewrite !face_on_touch. split; intros (i & Hi & T); exists i; (split; [|exact T]); [exact (Permutation_in _ HPerm Hi)|exact (Permutation_in _ (Permutation_sym HPerm) Hi)]. }
  split; [|split].
  - apply nth_error_ext. intros i. destruct (nth_error nodes i) as [e|] eqn:En; [now rewrite (I1 _ _ En), (I1' _ _ En), N|].
    apply nth_error_None in En. transitivity (@None entity); [apply nth_error_None; lia|symmetry; apply nth_error_None; lia].
  - apply nth_error_ext. intros i. destruct (nth_error faces i) as [e|] eqn:En; [now rewrite (I2 _ _ En), (I2' _ _ En), F|].
    apply nth_error_None in En. transitivity (@None entity); [apply nth_error_None; lia|symmetry; apply nth_error_None; lia].
  - intros k. rewrite I3, I3'. apply vsum_perm. now apply Permutation_map.
Qed.
Print Assumptions C36_order_independent.

(** On the mesh: after a contact evaluation the contact forces on the mesh nodes sum to zero and have
    zero total moment about the deformed positions, and nodes outside the submodel feel nothing. *)
Theorem C36_mesh_action_reaction : forall penalty node_ids model_coord displacement coord nodes faces pairs N,
  0 < penalty -> NoDup node_ids -> Forall (fun i => (i < N)%nat) node_ids ->
  Forall (node_of_submodel (length node_ids)) nodes -> Forall (face_of_submodel (length node_ids)) faces ->
  Forall (fun p => (fst p < length nodes)%nat /\ (snd p < length faces)%nat) pairs ->
  exists s coord' contact_force,
    compute_serial_contact_force penalty node_ids model_coord displacement coord nodes faces pairs = Ok (s, coord', contact_force) /\
    total_force N contact_force = vzero /\
    (forall X, (forall i, (i < length node_ids)%nat -> node_vec X (nth i node_ids 0%nat) = vadd (node_vec model_coord i) (node_vec displacement (nth i node_ids 0%nat))) ->
       total_moment N X contact_force = vzero) /\
    (forall k, ~ In k node_ids -> node_vec contact_force k = vzero).
Proof.
  intros penalty ids mc disp coord nodes faces pairs N Hp HN HF Hn Hf HP. unfold compute_serial_contact_force. cbv zeta.
  set (c := apply_coord ids mc disp coord). set (nodes' := map (set_coordinates c) nodes). set (faces' := map (set_coordinates c) faces). set (n := length ids) in *.
  assert (Hn' : Forall (fun e => node_of_submodel n e /\ sits_on_node c n e) nodes').
  { apply Forall_map. eapply Forall_impl; [|exact Hn]. intros e He. split; [now apply node_sub_set|now apply set_coords_node]. }
  assert (Hf' : Forall (fun e => face_of_submodel n e /\ sits_on_triangle c n e) faces').
  { apply Forall_map. eapply Forall_impl; [|exact Hf]. intros e He. split; [now apply face_sub_set|now apply set_coords_face]. }
  assert (Ht : Forall (fun e => entity_type_ e = TRIANGLE) faces') by (eapply Forall_impl; [|exact Hf']; intros e He; apply He).
  assert (HP' : Forall (fun p => (fst p < length nodes')%nat /\ (snd p < length faces')%nat) pairs) by (unfold nodes', faces'; rewrite !map_length; exact HP).
  destruct (@serial_run penalty nodes' faces' Ht Hp pairs HP') as (s & E & _ & _ & _ & I3).
  rewrite E. cbn [obind]. eexists _, _, _. split; [reflexivity|].
  destruct (@get_forces_node ids (cs_force s) (fun _ => 0) HN) as (G1 & G2). fold n in G1. set (cf := get_forces ids (cs_force s) (fun _ => 0)) in *.
  assert (Z : forall k, ~ In k ids -> node_vec cf k = vzero) by (intros k Hk; rewrite G2 by exact Hk; reflexivity).
  assert (CP : forall pair, In pair pairs -> exists node face, nth_error nodes' (fst pair) = Some node /\ nth_error faces' (snd pair) = Some face /\ sits_on_node c n node /\ sits_on_triangle c n face /\ face_of_submodel n face /\ (node_id_for_node_1_ node < n)%nat).
  { intros pair Hi. rewrite Forall_forall in HP'. destruct (HP' pair Hi) as [X1 X2].
    destruct (nth_error nodes' (fst pair)) as [node|] eqn:En; [|apply nth_error_None in En; lia].
    destruct (nth_error faces' (snd pair)) as [face|] eqn:Ef; [|apply nth_error_None in Ef; lia].
    exists node, face. rewrite Forall_forall in Hn', Hf'. destruct (Hn' node (nth_error_In _ _ En)) as [A1 A2]. destruct (Hf' face (nth_error_In _ _ Ef)) as [B1 B2]. repeat (split; [assumption || reflexivity|]). apply A1. }
  split; [|split].
  - unfold total_force. rewrite (vsum_gather (node_vec (cs_force s)) (node_vec cf) HN HF G1 Z). fold n.
    rewrite (@vsum_nodes_ext n (node_vec (cs_force s)) (fun k => vsum (map (contrib penalty nodes' faces' k) pairs)) (fun k _ => I3 k)), vsum_nodes_vsum.
    apply vsum_all_zero. apply Forall_forall. intros pair Hi. destruct (CP pair Hi) as (node & face & E1 & E2 & S1 & S2 & S3 & S4).
    destruct (face_sub_parts S3) as (A & B & C & D).
    unfold contrib, pair_result. rewrite E1, E2, tol_eq. destruct (projection_spec node face 0 vzero vzero contact_tol) as (P1 & P2 & _). set (r := projection node face 0 vzero vzero contact_tol) in *.
    destruct (pr_in r); [|apply vsum_nodes_zero]. destruct P1 as [P1 _]. destruct (P1 eq_refl) as (b & K1 & K2 & K3 & _). destruct (P2 b K1 K2 K3) as (_ & _ & ->).
    apply pair_total; auto. apply K2.
  - intros X HX. unfold total_moment.
    rewrite (@vsum_gather ids N (fun k => vcross (node_vec c k) (node_vec (cs_force s) k)) (fun k => vcross (node_vec X k) (node_vec cf k)) HN HF).
    + fold n. rewrite (@vsum_nodes_ext n _ (fun k => vsum (map (fun pair => vcross (node_vec c k) (contrib penalty nodes' faces' k pair)) pairs))).
      * rewrite vsum_nodes_vsum. apply vsum_all_zero. apply Forall_forall. intros pair Hi. destruct (CP pair Hi) as (node & face & E1 & E2 & S1 & S2 & S3 & S4).
        unfold contrib, pair_result. rewrite E1, E2, tol_eq. destruct (projection_spec node face 0 vzero vzero contact_tol) as (P1 & P2 & _). set (r := projection node face 0 vzero vzero contact_tol) in *.
        destruct (pr_in r); [|transitivity (vsum_nodes n (fun _ => vzero)); [|apply vsum_nodes_zero]; apply vsum_nodes_ext; intros; apply V3_eq; unfold vcross, vzero; cbn [vx vy vz]; ring].
        destruct P1 as [P1 _]. destruct (P1 eq_refl) as (b & Hb). pose proof Hb as (K1 & K2 & K3 & _). destruct (P2 b K1 K2 K3) as (-> & -> & ->).
        apply (@pair_moment n c node face b); auto. rewrite (penetrates_offset Hb). apply V3_eq; unfold vcross, vscal, vzero; cbn [vx vy vz]; ring.
      * intros k _. rewrite I3, vcross_vsum, map_map. reflexivity.
    + intros i Hi. rewrite G1 by exact Hi. f_equal. rewrite HX by exact Hi. unfold c. rewrite apply_coord_node. destruct (Nat.ltb_spec i (length ids)); [reflexivity|unfold n in *; lia].
    + intros k Hk. rewrite Z by exact Hk. apply V3_eq; unfold vcross, vzero; cbn [vx vy vz]; ring.
  - exact Z.
Qed.
Print Assumptions C36_mesh_action_reaction.
(** A bad penalty stops the program. *)
Theorem C36_bad_penalty_aborts : forall penalty nodes faces pairs, penalty <= 0 -> serial_contact penalty nodes faces pairs = Abort.
Proof. intros penalty nodes faces pairs H. unfold serial_contact. destruct (Rlt_dec 0 penalty); [lra|reflexivity]. Qed.
Print Assumptions C36_bad_penalty_aborts.
(** A node pressed into a face, submodel of seven nodes *)
Example C36_example : 0 < 100 /\ node_of_submodel 7 (node0 (-1 / 10) 6) /\ face_of_submodel 7 (tri0 0 1) /\ touching [node0 (-1 / 10) 6] [tri0 0 1] 0 0.
Proof.
  split; [lra|]. split; [split; [reflexivity|cbn; lia]|]. split; [repeat (split; [reflexivity || (cbn; lia)|]); repeat constructor|].
  exists (node0 (-1 / 10) 6), (tri0 0 1), (mkV3 (1 / 4) (1 / 4) (1 / 2)). split; [reflexivity|]. split; [reflexivity|]. apply node0_penetrates. lra.
Qed.

(** ** C39 *)
(** The box is the tightest one around the vertices, widened on every side by inflation factor times
    characteristic length; the centroid is the vertices' mean; nothing else changes. *)
Theorem C39_box_and_centroid : forall e, well_formed_entity e -> let e' := set_bounding_box e in
  tight_box (inflation_factor e * char_len_ e) (vertices e) (bounding_box_min e') (bounding_box_max e') /\
  (0 <= inflation_factor e * char_len_ e -> forall q, In q (vertices e) -> in_box (bounding_box_min e') (bounding_box_max e') q) /\
  centroid_ e' = vscal (/ INR (length (vertices e))) (vsum (vertices e)) /\
  e' = with_box e (bounding_box_min e') (bounding_box_max e') (centroid_ e').
Proof.
  intros e He e'. destruct (box_tight He) as (B1 & B2 & B3). fold e' in B1, B2, B3. split; [exact B1|]. split; [|split; [exact B2|exact B3]].
  intros Hd q Hq. unfold tight_box in B1. destruct (B1 vx) as (X & _); [simpl; auto|]. destruct (B1 vy) as (Y & _); [simpl; auto|]. destruct (B1 vz) as (Z & _); [simpl; auto|].
  specialize (X q Hq). specialize (Y q Hq). specialize (Z q Hq). unfold in_box. lra.
Qed.
Print Assumptions C39_box_and_centroid.
(** The constructors and SetCoordinates always leave such a box, at the entity's current vertices:
    the nodes' positions, and the mean of the four for a triangle's third. *)
Theorem C39_constructors_and_motion :
  (forall gid lid p len n, let e := make_node gid lid p len n in well_formed_entity e /\ vertices e = [p] /\ e = set_bounding_box e /\ inflation_factor e = 15 / 100 /\ char_len_ e = len) /\
  (forall gid lid p1 p2 p3 len n1 n2 l, let e := make_triangle gid lid p1 p2 p3 len n1 n2 l in well_formed_entity e /\ vertices e = [p1; p2; p3] /\ e = set_bounding_box e /\ inflation_factor e = 15 / 100 /\ char_len_ e = len) /\
  (forall coord e, well_formed_entity e -> let e' := set_coordinates coord e in well_formed_entity e' /\ e' = set_bounding_box e' /\
     inflation_factor e' = inflation_factor e /\ char_len_ e' = char_len_ e /\ contact_status_ e' = contact_status_ e) /\
  (forall coord n e, node_of_submodel n e -> sits_on_node coord n (set_coordinates coord e)) /\
  (forall coord n e, face_of_submodel n e -> sits_on_triangle coord n (set_coordinates coord e)).
Proof.
  assert (ID : forall e, set_bounding_box e = set_bounding_box (set_bounding_box e)) by (intros e; destruct e as [ty]; destruct ty; reflexivity).
  assert (KP : forall e, let e' := set_bounding_box e in (well_formed_entity e' <-> well_formed_entity e) /\ vertices e' = vertices e /\ inflation_factor e' = inflation_factor e /\ char_len_ e' = char_len_ e) by (intros e; destruct e as [ty]; destruct ty; repeat split; auto).
  split; [|split; [|split; [|split]]].
  - intros gid lid p len n. unfold make_node. cbv zeta. set (x := Entity _ _ _ _ _ _ _ _ _ _ _ _ _ _ _ _ _ _ _). destruct (KP x) as (K1 & -> & -> & ->). rewrite K1.
    split; [left; split; reflexivity|]. split; [reflexivity|]. split; [apply ID|]. split; reflexivity.
  - intros gid lid p1 p2 p3 len n1 n2 l. unfold make_triangle. cbv zeta. set (x := Entity _ _ _ _ _ _ _ _ _ _ _ _ _ _ _ _ _ _ _). destruct (KP x) as (K1 & -> & -> & ->). rewrite K1.
    split; [right; split; reflexivity|]. split; [reflexivity|]. split; [apply ID|]. split; reflexivity.
  - intros coord e He e'. destruct (set_coords_keeps coord e) as (K1 & K2 & _ & _ & _ & K3 & K4 & _ & _ & _ & _ & _ & K5). fold e' in K1, K2, K3, K4, K5.
    split; [unfold well_formed_entity in *; now rewrite K1, K2|]. split; [|auto].
    unfold e', set_coordinates. cbv zeta. apply ID.
  - intros. now apply set_coords_node.
  - intros. now apply set_coords_face.
Qed.
Print Assumptions C39_constructors_and_motion.
(** What the box search cannot miss: a node whose projection lies in the triangle, behind or in front
    of it by no more than the two widenings together, has a box that meets the triangle's box. *)
Theorem C39_search_reaches : forall node face b,
  well_formed_entity node -> well_formed_entity face -> entity_type_ node = NODE -> entity_type_ face = TRIANGLE ->
  node = set_bounding_box node -> face = set_bounding_box face ->
  let p := coord_1 node in let p1 := coord_1 face in let p2 := coord_2 face in let p3 := coord_3 face in
  0 <= inflation_factor node * char_len_ node -> 0 <= inflation_factor face * char_len_ face ->
  nondegenerate p1 p2 p3 -> projects_to p p1 p2 p3 b -> 0 <= vx b -> 0 <= vy b -> 0 <= vz b ->
  Rabs (signed_distance p p1 p2 p3) <= inflation_factor node * char_len_ node + inflation_factor face * char_len_ face ->
  boxes_meet (bounding_box_min node) (bounding_box_max node) (bounding_box_min face) (bounding_box_max face).
Proof.
  intros node face b Wn Wf Tn Tf En Ef p p1 p2 p3 Dn Df ND HP B1 B2 B3 HD.
  destruct (box_tight Wn) as (Xn & _). destruct (box_tight Wf) as (Xf & _). rewrite <- En in Xn. rewrite <- Ef in Xf. unfold vertices in Xn, Xf. rewrite Tn in Xn. rewrite Tf in Xf.
  set (dn := inflation_factor node * char_len_ node) in *. set (df := inflation_factor face * char_len_ face) in *.
  set (g := signed_distance p p1 p2 p3) in *. set (u := unit_normal p1 p2 p3).
  assert (Eb : b = albary p p1 p2 p3). { apply bary_unique; [|exact HP]. apply nondeg_pos in ND. now rewrite (n_normal p1 p2 p3). }
  assert (Off : vminus p (bary_point p1 p2 p3 b) = vscal g u).
  { rewrite Eb. pose proof ND as NP. apply nondeg_pos in NP. rewrite <- (n_normal p1 p2 p3) in NP. unfold g, u.
    rewrite (@offset_normal p p1 p2 p3 NP), (@signed_w p p1 p2 p3 NP), (@unit_n p1 p2 p3).
    set (n := cross_product (vsub p2 p1) (vsub p3 p1)) in *. set (w := vsub p p1).
    pose proof (sqrt_lt_R0 _ NP) as Hs. pose proof (sqrt_sqrt _ (Rlt_le _ _ NP)) as Hq.
    apply V3_eq; unfold vscal; cbn [vx vy vz]; rewrite <- Hq at 1; field; lra. }
  set (q := bary_point p1 p2 p3 b) in *.
  assert (K : forall x, In x [vx; vy; vz] -> exists t, x (bounding_box_min node) <= t <= x (bounding_box_max node) /\ x (bounding_box_min face) <= t <= x (bounding_box_max face)).
  { intros x Hx. destruct (Xn x Hx) as (N1 & (qn & Qn & N2) & (qn' & Qn' & N3)). destruct Qn as [<-|[]]. destruct Qn' as [<-|[]]. fold p in N2, N3.
    destruct (Xf x Hx) as (F1 & _). assert (F : x (bounding_box_min face) + df <= x q <= x (bounding_box_max face) - df).
    { pose proof (F1 p1 ltac:(simpl; auto)) as G1. pose proof (F1 p2 ltac:(simpl; auto)) as G2. pose proof (F1 p3 ltac:(simpl; auto)) as G3.
      assert (Eq : x q = vx b * x p1 + vy b * x p2 + vz b * x p3) by (unfold q, bary_point, vadd, vscal; destruct Hx as [<-|[<-|[<-|[]]]]; cbn [vx vy vz]; ring).
      destruct HP as (S1 & _). unfold bary_sum in S1. rewrite Eq. clear - G1 G2 G3 B1 B2 B3 S1. set (lo := x (bounding_box_min face) + df) in *. set (hi := x (bounding_box_max face) - df) in *. clearbody lo hi.
      pose proof (Rmult_le_compat_l _ _ _ B1 (proj1 G1)). pose proof (Rmult_le_compat_l _ _ _ B2 (proj1 G2)). pose proof (Rmult_le_compat_l _ _ _ B3 (proj1 G3)).
      pose proof (Rmult_le_compat_l _ _ _ B1 (proj2 G1)). pose proof (Rmult_le_compat_l _ _ _ B2 (proj2 G2)). pose proof (Rmult_le_compat_l _ _ _ B3 (proj2 G3)).
      assert (lo = vx b * lo + vy b * lo + vz b * lo) by (transitivity ((vx b + vy b + vz b) * lo); [rewrite S1; ring|ring]).
      assert (hi = vx b * hi + vy b * hi + vz b * hi) by (transitivity ((vx b + vy b + vz b) * hi); [rewrite S1; ring|ring]). lra. }
    assert (D : x p - x q = g * x u).
    { assert (x (vminus p q) = x (vscal g u)) by now rewrite Off. revert H. unfold vminus, vscal, vadd. destruct Hx as [<-|[<-|[<-|[]]]]; cbn [vx vy vz]; lra. }
    pose proof (@abs_le_norm g u (unit_normal_1 ND) x Hx) as A.
    exists (if Rlt_dec (x q + df) (x p) then x q + df else if Rlt_dec (x p) (x q - df) then x q - df else x p).
    destruct (Rlt_dec (x q + df) (x p)); [lra|]. destruct (Rlt_dec (x p) (x q - df)); lra. }
  destruct (K vx) as (tx & X1 & X2); [simpl; auto|]. destruct (K vy) as (ty & Y1 & Y2); [simpl; auto|]. destruct (K vz) as (tz & Z1 & Z2); [simpl; auto|].
  exists (mkV3 tx ty tz). unfold in_box. cbn [vx vy vz]. auto 10.
Qed.
Print Assumptions C39_search_reaches.
(** But not every penetrating node: one that is 0.9 face lengths deep would be given a contact force
    if it were reported, and its box does not meet the face's box. *)
Theorem C39_deep_penetration_missed_refuted : exists node face b,
  penetrates contact_tol node face b /\ node = set_bounding_box node /\ face = set_bounding_box face /\
  well_formed_entity node /\ well_formed_entity face /\
  ~ boxes_meet (bounding_box_min node) (bounding_box_max node) (bounding_box_min face) (bounding_box_max face).
Proof.
  exists (node0 (-9 / 10) 6), (tri0 0 1), (mkV3 (1 / 4) (1 / 4) (1 / 2)). split; [apply node0_penetrates; lra|]. split; [reflexivity|]. split; [reflexivity|].
  split; [left; split; reflexivity|]. split; [right; split; reflexivity|].
  intros (q & (_ & _ & Q1) & (_ & _ & Q2)). revert Q1 Q2. cbn - [Rplus Rminus Rmult Rdiv Ropp lower_to raise_to IZR]. unfold lower_to, raise_to. repeat destruct Rlt_dec; lra.
Qed.
Print Assumptions C39_deep_penetration_missed_refuted.

(** ** C56 *)
(** The closest point routine returns a point that is at least as close to the node as every point of
    the triangle, and itself lies in the triangle (up to the tolerance); it says FACE exactly
    when the projection lies inside with all weights at least tol. *)
Theorem C56_closest_point : forall node tri tol junk, 0 < tol ->
  let p := coord_1 node in let p1 := coord_1 tri in let p2 := coord_2 tri in let p3 := coord_3 tri in
  nondegenerate p1 p2 p3 ->
  let c := fst (closest_point_projection_single node tri tol junk) in
  let ty := snd (closest_point_projection_single node tri tol junk) in
  (forall q, in_triangle p1 p2 p3 q -> vdist2 c p <= vdist2 q p) /\
  (exists b, bary_sum b = 1 /\ - tol < vx b /\ - tol < vy b /\ - tol < vz b /\ c = bary_point p1 p2 p3 b) /\
  (ty = FACE <-> exists b, projects_to p p1 p2 p3 b /\ tol <= vx b /\ tol <= vy b /\ tol <= vz b) /\
  (ty = FACE \/ ty = NODE_OR_EDGE).
Proof.
  intros node tri tol junk Ht p p1 p2 p3 ND c ty. destruct (@closest_main node tri tol junk Ht ND) as (M1 & M2). fold p p1 p2 p3 in M1, M2. fold c in M1, M2. fold ty in M2.
  pose proof (proj_albary p ND) as HP.
  assert (U : forall b, projects_to p p1 p2 p3 b -> b = albary p p1 p2 p3). { intros b Hb. apply bary_unique; [|exact Hb]. apply nondeg_pos in ND. now rewrite (n_normal p1 p2 p3). }
  set (a := albary p p1 p2 p3) in *. split; [exact M1|].
  destruct M2 as [((A1 & A2 & A3) & Ec & [F1 F2] & F3)|(NA & (b & B0 & B1 & B2 & B3 & Eb) & ET)].
  - split; [exists a; split; [apply HP|]; repeat (split; [lra|]); exact Ec|]. split; [|exact F3]. split.
    + intros E. exists a. split; [exact HP|]. auto.
    + intros (b & Hb & L). rewrite (U b Hb) in L. now apply F2.
  - split; [exists b; split; [exact B0|]; repeat (split; [lra|]); exact Eb|]. split; [|right; exact ET]. split.
    + rewrite ET. discriminate.
    + intros (b' & Hb' & L). exfalso. rewrite (U b' Hb') in L. apply NA. destruct HP as (S1 & _). unfold bary_sum in S1. unfold all_between. lra.
Qed.
Print Assumptions C56_closest_point.
Example C56_example : nondegenerate (coord_1 (tri0 0 1)) (coord_2 (tri0 0 1)) (coord_3 (tri0 0 1)).
Proof. apply (@node0_penetrates (-1 / 10) 0 0 1). lra. Qed.

(** ** C36, distributed *)
(** The nodes and faces of all ranks, the pairs the distributed search reports in any order: every
    rank's force vector is the sum of the node halves of all reports of its nodes and of the face
    halves of the different pairs with its faces (a pair reported twice loads the face once). *)
Theorem C36_parallel_forces : forall penalty nodes faces pairs distinct, 0 < penalty ->
  Forall (fun n => entity_type_ (snd n) = NODE) nodes -> Forall (fun f => entity_type_ (snd f) = TRIANGLE) faces ->
  Forall (fun p => (fst p < length nodes)%nat /\ (snd p < length faces)%nat) pairs ->
  NoDup distinct -> (forall p, In p distinct <-> In p pairs) ->
  exists nodes' faces' force, parallel_contact penalty nodes faces pairs = Ok (nodes', faces', force) /\
    (forall r k, exists vs ws,
       Forall2 (fun p v => forall rn node rf face, pair_at nodes faces p rn node rf face -> (rn = r -> node_half penalty node face k v) /\ (rn <> r -> v = vzero)) pairs vs /\
       Forall2 (fun p w => forall rn node rf face, pair_at nodes faces p rn node rf face -> (rf = r -> face_half penalty node face k w) /\ (rf <> r -> w = vzero)) distinct ws /\
       node_vec (force r) k = vadd (vsum vs) (vsum ws)) /\
    (forall i rn e, nth_error nodes i = Some (rn, e) -> exists e', nth_error nodes' i = Some (rn, e') /\
       (contact_status_ e' = true <-> exists j, In (i, j) pairs /\ touching (map snd nodes) (map snd faces) i j)) /\
    (forall j rf e, nth_error faces j = Some (rf, e) -> exists e', nth_error faces' j = Some (rf, e') /\
       (contact_status_ e' = true <-> exists i, In (i, j) pairs /\ touching (map snd nodes) (map snd faces) i j)).
Proof.
  intros penalty nodes faces pairs distinct Hp Hn Hf HP HD HM.
  destruct (@parallel_main penalty nodes faces pairs Hp Hn Hf HP distinct HD HM) as (nodes' & faces' & force & E & HF & _ & _ & SN & SF).
  exists nodes', faces', force. split; [exact E|]. split; [|split].
  - intros r k. exists (map (nside penalty nodes faces r k) pairs), (map (fside penalty nodes faces r k) distinct). split; [|split; [|apply HF]].
    + clear. induction pairs as [|p l IH]; cbn [map]; constructor; [|exact IH]. intros rn node rf face PA. pose proof PA as (E1 & E2). unfold nside. rewrite E1. destruct (Nat.eqb_spec rn r) as [->|Hne]; [|split; [contradiction|reflexivity]].
      split; [intros _|contradiction]. pose proof (@halves penalty nodes faces p r node rf face PA (fun _ => - hit (node_id_for_node_1_ node) k)) as HH. unfold node_half.
      destruct (pin nodes faces p) eqn:EP; [exact HH|]. rewrite pforce_out, vscal_zero by exact EP. exact HH.
    + clear. induction distinct as [|p l IH]; cbn [map]; constructor; [|exact IH]. intros rn node rf face PA. pose proof PA as (E1 & E2). unfold fside. rewrite E2. destruct (Nat.eqb_spec rf r) as [->|Hne]; [|split; [contradiction|reflexivity]].
      split; [intros _|contradiction]. cbn [andb]. exact (@halves penalty nodes faces p rn node r face PA (fun b => share face b k)).
  - intros i rn e He. destruct (SN i rn e He) as (e' & E1 & E2). exists e'. split; [exact E1|]. rewrite E2, existsb_exists. split.
    + intros ([i' j] & Hi & H). apply andb_true_iff in H as [H1 H2]. apply Nat.eqb_eq in H1. cbn [fst] in H1. subst i'. exists j. split; [exact Hi|].
      destruct (@pres_at nodes faces pairs HP (i, j) Hi) as (rn' & node & rf & face & PA & _). apply (pin_iff PA) in H2 as (b & Hb). exists node, face, b. destruct PA as (A1 & A2). cbn [fst snd] in A1, A2.
      split; [now rewrite (map_nth_error snd _ _ A1)|]. split; [now rewrite (map_nth_error snd _ _ A2)|exact Hb].
    + intros (j & Hi & node & face & b & A1 & A2 & Hb). exists (i, j). split; [exact Hi|]. apply andb_true_iff. split; [apply Nat.eqb_refl|].
      destruct (@pres_at nodes faces pairs HP (i, j) Hi) as (rn' & node' & rf & face' & PA & _). apply (pin_iff PA). exists b. destruct PA as (B1 & B2). cbn [fst snd] in B1, B2.
      rewrite (map_nth_error snd _ _ B1) in A1. rewrite (map_nth_error snd _ _ B2) in A2. injection A1 as <-. injection A2 as <-. exact Hb.
  - intros j rf e He. destruct (SF j rf e He) as (e' & E1 & E2). exists e'. split; [exact E1|]. rewrite E2, existsb_exists. split.
    + intros ([i j'] & Hi & H). apply andb_true_iff in H as [H1 H2]. apply Nat.eqb_eq in H1. cbn [snd] in H1. subst j'. exists i. split; [exact Hi|].
      destruct (@pres_at nodes faces pairs HP (i, j) Hi) as (rn' & node & rf' & face & PA & _). apply (pin_iff PA) in H2 as (b & Hb). exists node, face, b. destruct PA as (A1 & A2). cbn [fst snd] in A1, A2.
      split; [now rewrite (map_nth_error snd _ _ A1)|]. split; [now rewrite (map_nth_error snd _ _ A2)|exact Hb].
    + intros (i & Hi & node & face & b & A1 & A2 & Hb). exists (i, j). split; [exact Hi|]. apply andb_true_iff. split; [apply Nat.eqb_refl|].
      destruct (@pres_at nodes faces pairs HP (i, j) Hi) as (rn' & node' & rf' & face' & PA & _). apply (pin_iff PA). exists b. destruct PA as (B1 & B2). cbn [fst snd] in B1, B2.
      rewrite (map_nth_error snd _ _ B1) in A1. rewrite (map_nth_error snd _ _ B2) in A2. injection A1 as <-. injection A2 as <-. exact Hb.
Qed.
Print Assumptions C36_parallel_forces.
(** If no pair is reported twice, the forces of all ranks together sum to zero. *)
Theorem C36_parallel_action_reaction : forall penalty nodes faces pairs (num_nodes : nat -> nat) ranks, 0 < penalty ->
  Forall (fun n => (fst n < ranks)%nat /\ node_of_submodel (num_nodes (fst n)) (snd n)) nodes ->
  Forall (fun f => (fst f < ranks)%nat /\ face_of_submodel (num_nodes (fst f)) (snd f)) faces ->
  Forall (fun p => (fst p < length nodes)%nat /\ (snd p < length faces)%nat) pairs ->
  NoDup pairs ->
  exists nodes' faces' force, parallel_contact penalty nodes faces pairs = Ok (nodes', faces', force) /\
    vsum (map (fun r => total_force (num_nodes r) (force r)) (seq 0 ranks)) = vzero.
Proof.
  intros penalty nodes faces pairs num_nodes ranks Hp Hn Hf HP HD.
  assert (Hn' : Forall (fun n => entity_type_ (snd n) = NODE) nodes) by (eapply Forall_impl; [|exact Hn]; intros n H; apply H).
  assert (Hf' : Forall (fun f => entity_type_ (snd f) = TRIANGLE) faces) by (eapply Forall_impl; [|exact Hf]; intros f H; apply H).
  destruct (@parallel_main penalty nodes faces pairs Hp Hn' Hf' HP pairs HD (fun p => iff_refl _)) as (nodes' & faces' & force & E & HF & _).
  exists nodes', faces', force. split; [exact E|]. rewrite Forall_forall in Hn, Hf.
  rewrite (@vsum_map_ext _ (fun r => total_force (num_nodes r) (force r)) (fun r => vsum (map (fun p => vadd (vsum_nodes (num_nodes r) (fun k => nside penalty nodes faces r k p)) (vsum_nodes (num_nodes r) (fun k => fside penalty nodes faces r k p))) pairs))).
  -
    rewrite <- (vsum_nodes_list ranks (fun r => vsum (map (fun p => vadd (vsum_nodes (num_nodes r) (fun k => nside penalty nodes faces r k p)) (vsum_nodes (num_nodes r) (fun k => fside penalty nodes faces r k p))) pairs))).
    rewrite (vsum_nodes_vsum ranks (fun r p => vadd (vsum_nodes (num_nodes r) (fun k => nside penalty nodes faces r k p)) (vsum_nodes (num_nodes r) (fun k => fside penalty nodes faces r k p)))).
    apply vsum_all_zero. apply Forall_forall. intros p Hi. destruct (@pres_at nodes faces pairs HP p Hi) as (rn & node & rf & face & (E1 & E2) & _).
    destruct (Hn _ (nth_error_In _ _ E1)) as (R1 & _ & N1). destruct (Hf _ (nth_error_In _ _ E2)) as (R2 & F2). cbn [fst snd] in *. destruct (face_sub_parts F2) as (A & B & C & D).
    rewrite vsum_nodes_add. rewrite !vsum_nodes_list.
    rewrite (@vsum_map_ext _ _ (fun r => if Nat.eqb rn r then vscal (-1) (pforce penalty nodes faces p) else vzero)).
    + rewrite vsum_ranks_pick by exact R1.
      rewrite (@vsum_map_ext _ _ (fun r => if Nat.eqb rf r then pforce penalty nodes faces p else vzero)).
      * rewrite vsum_ranks_pick by exact R2. apply V3_eq; unfold vadd, vscal, vzero; cbn [vx vy vz]; ring.
      * intros r _. unfold fside. rewrite E2. destruct (Nat.eqb_spec rf r) as [->|Hne]; cbn [andb]; [|apply vsum_nodes_zero].
        destruct (pin nodes faces p) eqn:EP; [|rewrite pforce_out by exact EP; apply vsum_nodes_zero].
        rewrite (@vsum_share (num_nodes r) face (pbary nodes faces p) (fun _ => pforce penalty nodes faces p) A B C).
        pose proof (@bary_one nodes faces pairs HP p Hi EP) as S1. unfold bary_sum in S1.
        destruct (node_ids_for_fictitious_node_ face) as [|a [|b [|c [|d [|]]]]]; try discriminate D. cbn [map vsum fold_right].
        set (Fo := pforce penalty nodes faces p). set (b0 := pbary nodes faces p) in *. assert (X : vx b0 = 1 - vy b0 - vz b0) by lra.
        apply V3_eq; unfold vadd, vscal, vzero; cbn [vx vy vz]; rewrite X; field.
    + intros r _. unfold nside. rewrite E1. destruct (Nat.eqb_spec rn r) as [->|Hne]; [|apply vsum_nodes_zero].
      rewrite (@vsum_nodes_ext (num_nodes r) _ (fun k => vscal (hit (node_id_for_node_1_ node) k) (vscal (-1) (pforce penalty nodes faces p)))).
      * now rewrite (vsum_hit (fun _ => vscal (-1) (pforce penalty nodes faces p)) N1).
      * intros k _. apply V3_eq; unfold vscal; cbn [vx vy vz]; ring.
  - intros r _. unfold total_force. rewrite (@vsum_nodes_ext (num_nodes r) _ (fun k => vadd (vsum (map (nside penalty nodes faces r k) pairs)) (vsum (map (fside penalty nodes faces r k) pairs))) (fun k _ => HF r k)).
    rewrite vsum_nodes_add, !vsum_nodes_vsum, vsum_map_add. reflexivity.
Qed.
Print Assumptions C36_parallel_action_reaction.
(** A pair reported twice breaks the balance: the node is loaded twice, the face once. *)
Theorem C36_duplicate_report_refuted : exists penalty nodes faces pairs nodes' faces' force, 0 < penalty /\
  Forall (fun n => fst n = 0%nat /\ node_of_submodel 7 (snd n)) nodes /\ Forall (fun f => fst f = 0%nat /\ face_of_submodel 7 (snd f)) faces /\
  Forall (fun p => (fst p < length nodes)%nat /\ (snd p < length faces)%nat) pairs /\
  parallel_contact penalty nodes faces pairs = Ok (nodes', faces', force) /\ total_force 7 (force 0%nat) <> vzero.
Proof.
  set (nodes := [(0%nat, node0 (-1 / 10) 6)]). set (faces := [(0%nat, tri0 0 1)]). set (p := (0%nat, 0%nat)).
  assert (Nn : node_of_submodel 7 (node0 (-1 / 10) 6)) by (split; [reflexivity|cbn; lia]).
  assert (Nf : face_of_submodel 7 (tri0 0 1)) by (repeat (split; [reflexivity || (cbn; lia)|]); repeat constructor).
  assert (HP : Forall (fun p => (fst p < length nodes)%nat /\ (snd p < length faces)%nat) [p; p]) by (repeat constructor).
  assert (Hn : Forall (fun n => entity_type_ (snd n) = NODE) nodes) by (repeat constructor).
  assert (Hf : Forall (fun n => entity_type_ (snd n) = TRIANGLE) faces) by (repeat constructor).
  destruct (@parallel_main 1 nodes faces [p; p] ltac:(lra) Hn Hf HP [p]) as (nodes' & faces' & force & E & HF & _); [repeat constructor; intros []|intros q; cbn [In]; tauto|].
  exists 1, nodes, faces, [p; p], nodes', faces', force. split; [lra|]. split; [repeat constructor; apply Nn|]. split; [repeat constructor; apply Nf|]. split; [exact HP|]. split; [exact E|].
  assert (PA : pair_at nodes faces p 0%nat (node0 (-1 / 10) 6) 0%nat (tri0 0 1)) by (split; reflexivity).
  assert (EP : pin nodes faces p = true) by (apply (pin_iff PA); eexists; apply node0_penetrates; lra).
  pose proof (@bary_one nodes faces [p; p] HP p ltac:(left; reflexivity) EP) as S1. unfold bary_sum in S1.
  set (Fo := pforce 1 nodes faces p). set (b0 := pbary nodes faces p) in *.
  assert (T : total_force 7 (force 0%nat) = vscal (-1) Fo).
  { unfold total_force. rewrite (@vsum_nodes_ext 7 _ (fun k => vadd (vscal (hit 6 k) (vscal (-2) Fo)) (vscal (share (tri0 0 1) b0 k) Fo))).
    - rewrite vsum_nodes_add, (vsum_hit (fun _ => vscal (-2) Fo)) by lia. destruct (face_sub_parts Nf) as (A & B & C & D).
      rewrite (@vsum_share 7 (tri0 0 1) b0 (fun _ => Fo) A B C). change (node_ids_for_fictitious_node_ (tri0 0 1)) with [2; 3; 4; 5]%nat. cbn [map vsum fold_right].
      clearbody Fo b0. assert (X : vx b0 = 1 - vy b0 - vz b0) by lra. apply V3_eq; unfold vadd, vscal, vzero; cbn [vx vy vz]; rewrite X; field.
    - intros k _. rewrite HF. cbn [map vsum fold_right]. unfold nside, fside. rewrite EP. cbn [nth_error nodes faces p fst snd Nat.eqb andb]. fold b0 Fo.
      change (node_id_for_node_1_ (node0 (-1 / 10) 6)) with 6%nat. clearbody Fo b0. apply V3_eq; unfold vadd, vscal, vzero; cbn [vx vy vz]; ring. }
  rewrite T. intros Z. assert (Fz : Fo = vzero).
  { pose proof (f_equal vx Z) as X. pose proof (f_equal vy Z) as Y. pose proof (f_equal vz Z) as W. unfold vscal, vzero in X, Y, W. cbn [vx vy vz] in X, Y, W. apply V3_eq; cbn [vzero vx vy vz]; lra. }
  (* the force is not zero: penalty times a negative gap times a unit vector *)
  destruct (@halves 1 nodes faces p _ _ _ _ PA (fun _ => 1)) as [(b & Hb & HH)|(NB & _)].
  - rewrite EP in HH. fold Fo in HH. rewrite Fz, vscal_zero in HH.
    destruct Hb as (ND & _ & _ & G). pose proof (unit_normal_1 ND) as U. set (g := signed_distance _ _ _ _) in *. set (n := unit_normal _ _ _) in *. clearbody g n.
    pose proof (f_equal vx HH) as X. pose proof (f_equal vy HH) as Y. pose proof (f_equal vz HH) as W. unfold vscal, vzero in X, Y, W. cbn [vx vy vz] in X, Y, W.
    assert (Gn : 1 * g * 1 <> 0) by lra. symmetry in X, Y, W. apply Rmult_integral in X as [X|X]; [contradiction|]. apply Rmult_integral in Y as [Y|Y]; [contradiction|]. apply Rmult_integral in W as [W|W]; [contradiction|].
    unfold vdot in U. rewrite X, Y, W in U. lra.
  - apply (NB (mkV3 (1 / 4) (1 / 4) (1 / 2))). apply node0_penetrates. lra.
Qed.
Print Assumptions C36_duplicate_report_refuted.
