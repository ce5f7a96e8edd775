From Verif Require Import Base ListLemmas Loops LinModel PatternProofs MpiModel SkinModel ContactModel ContactSpec ContactProofs ContactProofs5 ContactProofs6 SubmodelModel SubmodelSpec.
From Coq Require Import Reals Lra Sorted.
Set Implicit Arguments.
Local Open Scope R_scope.

Lemma nassoc_set {V} k (v : V) m k' : assoc Nat.eqb k' (assoc_set Nat.eqb k v m) = if Nat.eqb k' k then Some v else assoc Nat.eqb k' m.
Proof.
  induction m as [|[a b] m IH]; cbn [assoc assoc_set]; [reflexivity|].
  destruct (Nat.eqb_spec k a) as [->|N]; cbn [assoc].
  - destruct (Nat.eqb_spec k' a); reflexivity.
  - rewrite IH. destruct (Nat.eqb_spec k' a) as [->|N']; [|reflexivity]. destruct (Nat.eqb_spec a k); [congruence|reflexivity].
Qed.

Lemma collect_In faces s n : In n (collect_nodes faces s) <-> node_of faces n \/ In n s.
Proof.
  unfold collect_nodes, node_of. revert s. induction faces as [|f faces IH]; intros s; cbn [fold_left].
  - split; [auto|]. intros [(f & [] & _)|H]; exact H.
  - rewrite IH. assert (G : In n (fold_left (fun s id => set_insert id s) f s) <-> In n f \/ In n s).
    { clear. revert s. induction f as [|a f IH]; intros s; cbn [fold_left In]; [tauto|]. rewrite IH, set_insert_In. intuition congruence. }
    rewrite G. split.
    + intros [(g & Hg & H)|[H|H]]; [left; exists g; cbn; auto|left; exists f; cbn; auto|auto].
    + intros [(g & [<-|Hg] & H)|H]; [auto|left; exists g; auto|auto].
Qed.
Lemma collect_sorted faces s : StronglySorted lt s -> StronglySorted lt (collect_nodes faces s).
Proof.
  unfold collect_nodes. revert s. induction faces as [|f faces IH]; intros s H; cbn [fold_left]; [exact H|]. apply IH.
  clear IH. revert s H. induction f as [|a f IH]; intros s H; cbn [fold_left]; [exact H|]. apply IH. now apply set_insert_sorted.
Qed.
Lemma node_ids_sorted p s : StronglySorted lt (submodel_node_ids p s).
Proof. apply collect_sorted, collect_sorted. constructor. Qed.
Lemma node_of_app p s n : node_of (p ++ s) n <-> node_of p n \/ node_of s n.
Proof.
  unfold node_of. split.
  - intros (f & H & Hn). apply in_app_iff in H as [H|H]; [left|right]; eauto.
  - intros [(f & H & Hn)|(f & H & Hn)]; exists f; rewrite in_app_iff; auto.
Qed.
Lemma node_ids_In p s n : In n (submodel_node_ids p s) <-> node_of (p ++ s) n.
Proof. unfold submodel_node_ids. rewrite !collect_In, node_of_app. cbn [In]. tauto. Qed.
Lemma node_ids_NoDup p s : NoDup (submodel_node_ids p s).
Proof. eapply StronglySorted_NoDup; [|apply node_ids_sorted]. intros. lia. Qed.

Lemma submodel_map_spec ids : NoDup ids -> forall n j, assoc Nat.eqb n (submodel_map ids) = Some j <-> nth_error ids j = Some n.
Proof.
  intros ND. unfold submodel_map.
  pose (P := fun k (m : list (nat * nat)) => forall n j, assoc Nat.eqb n m = Some j <-> (j < k)%nat /\ nth_error ids j = Some n).
  assert (H : P (length ids) (floop 0 (length ids) (fun i m => assoc_set Nat.eqb (nth i ids 0%nat) i m) [])).
  { apply (@floop_ind _ P); [lia| |].
    - intros n j. cbn. split; [discriminate|lia].
    - intros k m Hk IH n j. rewrite nassoc_set. pose proof (nth_error_nth' ids 0%nat (proj2 Hk)) as E.
      destruct (Nat.eqb_spec n (nth k ids 0%nat)) as [->|N].
      + split.
        * intros [= <-]. split; [lia|exact E].
        * intros (H1 & H2). f_equal. rewrite NoDup_nth_error in ND. apply ND; [lia|congruence].
      + rewrite (IH n j). split; intros (H1 & H2); (split; [|exact H2]); [lia|]. assert (j <> k) by (intros ->; congruence). lia. }
  intros n j. rewrite (H n j). split; [tauto|]. intros E. split; [|exact E]. apply nth_error_Some. congruence.
Qed.

Definition matches (ids face face' : list nat) : Prop := Forall2 (fun n j => nth_error ids j = Some n) face face'.
Lemma renumber_spec ids faces : NoDup ids -> (forall n, node_of faces n -> In n ids) ->
  exists faces', renumber (submodel_map ids) faces = Ok faces' /\ Forall2 (matches ids) faces faces'.
Proof.
  intros ND. unfold renumber. induction faces as [|f faces IH]; intros H; cbn [omapM].
  - exists []. split; [reflexivity|constructor].
  - destruct IH as (fs & E & F). { intros n (g & Hg & Hn). apply H. exists g. cbn. auto. }
    assert (G : exists f', omapM (fun id => match assoc Nat.eqb id (submodel_map ids) with Some j => Ok j | None => Throw end) f = Ok f' /\ matches ids f f').
    { assert (Hf : forall n, In n f -> In n ids). { intros n Hn. apply H. exists f. cbn. auto. }
      clear - Hf ND. induction f as [|a f IH]; cbn [omapM]; [exists []; split; [reflexivity|constructor]|].
      destruct IH as (f' & E & M). { intros; apply Hf; cbn; auto. }
      destruct (In_nth_error ids a (Hf a (or_introl eq_refl))) as (j & Ej).
      rewrite (proj2 (submodel_map_spec ND a j) Ej). cbn [obind]. rewrite E. cbn [obind]. eexists. split; [reflexivity|]. constructor; auto. }
    destruct G as (f' & E' & M). rewrite E'. cbn [obind]. rewrite E. cbn [obind]. eexists. split; [reflexivity|]. constructor; auto.
Qed.

Lemma coord_spec ids x y z c j n : nth_error ids j = Some n -> node_vec (submodel_coord ids x y z c) j = mkV3 (x n) (y n) (z n).
Proof.
  intros E. unfold submodel_coord.
  pose (P := fun k (c : arr) => forall j n, (j < k)%nat -> nth_error ids j = Some n -> node_vec c j = mkV3 (x n) (y n) (z n)).
  match goal with |- node_vec (floop _ _ ?b _) _ = _ => assert (H : P (length ids) (floop 0 (length ids) b c)) end.
  { apply (@floop_ind _ P); [lia| |].
    - intros j' n' H. lia.
    - intros k c' Hk IH j' n' Hj En. cbv zeta. unfold node_vec, upd. destruct (Nat.eq_dec j' k) as [->|N].
      + rewrite (nth_error_nth _ _ 0%nat En).
        repeat match goal with |- context [Nat.eqb ?a ?b] => destruct (Nat.eqb_spec a b); try lia end. reflexivity.
      + specialize (IH j' n' ltac:(lia) En). unfold node_vec in IH.
        repeat match goal with |- context [Nat.eqb ?a ?b] => destruct (Nat.eqb_spec a b); try lia end. exact IH. }
  apply H; auto. apply nth_error_Some. congruence.
Qed.

Lemma dbl_max_pos : 0 < dbl_max.
Proof. unfold dbl_max. apply Rmult_lt_0_compat; [|apply pow_lt; lra]. assert (/ 2 ^ 52 < 1). { pose proof (Rlt_pow_R1 2 52 ltac:(lra) ltac:(lia)) as H. apply Rmult_lt_reg_r with (2 ^ 52); [lra|]. rewrite Rinv_l by lra. lra. } lra. Qed.

(** running maximum *)
Lemma raise_loop k (f : nat -> R) lo : (forall i, (i < k)%nat -> lo < f i) -> (0 < k)%nat ->
  greatest (fun d => exists i, (i < k)%nat /\ d = f i) (floop 0 k (fun i m => raise_to (f i) m) lo).
Proof.
  intros Hlo Hk.
  pose (P := fun n (m : R) => (n = 0%nat /\ m = lo) \/ greatest (fun d => exists i, (i < n)%nat /\ d = f i) m).
  assert (H : P k (floop 0 k (fun i m => raise_to (f i) m) lo)).
  { apply (@floop_ind _ P); [lia|left; auto|].
    intros n m Hn [(-> & ->)|(H1 & H2)]; right.
    - specialize (Hlo 0%nat Hk). unfold raise_to. destruct (Rlt_dec lo (f 0%nat)); [|lra]. split.
      + exists 0%nat. split; [lia|reflexivity].
      + intros d (i & Hi & ->). assert (i = 0)%nat as -> by lia. lra.
    - destruct (raise_spec (f n) m) as (R1 & R2 & R3). split.
      + destruct R3 as [->| ->]; [exists n; split; [lia|reflexivity]|]. destruct H1 as (i & Hi & E). exists i. split; [lia|exact E].
      + intros d (i & Hi & ->). destruct (Nat.eq_dec i n) as [->|N]; [lra|]. apply Rle_trans with m; [|lra]. apply H2. exists i. split; [lia|reflexivity]. }
  destruct H as [(-> & _)|H]; [lia|exact H].
Qed.

Lemma edge_square_dist c a b : edge_square c a b = vdist2 (node_vec c a) (node_vec c b).
Proof. unfold edge_square, vdist2, vminus, vdot, vadd, vscal, node_vec; cbn [vx vy vz]. ring. Qed.

Lemma matches_len ids f f' : matches ids f f' -> length f = length f'.
Proof. apply Forall2_len. Qed.
Lemma Forall2_nth_r {A B} (R : A -> B -> Prop) l m i b : Forall2 R l m -> nth_error m i = Some b -> exists a, nth_error l i = Some a /\ R a b.
Proof. intros H. revert i. induction H as [|x y l m Hxy H IH]; intros [|i] E; try discriminate; cbn in *; [injection E as <-; eauto|eauto]. Qed.
Lemma Forall2_nth_l {A B} (R : A -> B -> Prop) l m i a : Forall2 R l m -> nth_error l i = Some a -> exists b, nth_error m i = Some b /\ R a b.
Proof. intros H. revert i. induction H as [|x y l m Hxy H IH]; intros [|i] E; try discriminate; cbn in *; [injection E as <-; eauto|eauto]. Qed.
Lemma edge_next (face : list nat) i : (i < length face)%nat -> nth_error face ((i + 1) mod length face) = Some (edge_end face i).
Proof.
  intros H. unfold edge_end. destruct (Nat.ltb_spec (i + 1) (length face)) as [L|L].
  - rewrite Nat.mod_small by lia. now apply nth_error_nth'.
  - replace (i + 1)%nat with (length face) by lia. rewrite Nat.mod_same by lia. apply nth_error_nth'. lia.
Qed.

Section Lengths.
  Variables (ids : list nat) (pos : nat -> V3) (c : arr).
  Hypothesis Hc : forall j n, nth_error ids j = Some n -> node_vec c j = pos n.
  Lemma length_edges face face' (g : R -> R) (lo : R) : matches ids face face' -> (0 < length face)%nat ->
    (forall i, (i < length face')%nat -> lo < g (edge_square c (nth i face' 0%nat) (edge_end face' i))) ->
    greatest (fun d => exists a b, edge_of face a b /\ d = g (vdist2 (pos a) (pos b)))
      (floop 0 (length face') (fun i m => raise_to (g (edge_square c (nth i face' 0%nat) (edge_end face' i))) m) lo).
  Proof.
    intros M L Hlo. pose proof (matches_len M) as EL.
    destruct (@raise_loop (length face') (fun i => g (edge_square c (nth i face' 0%nat) (edge_end face' i))) lo Hlo ltac:(lia)) as (H1 & H2).
    assert (G : forall i, (i < length face')%nat -> exists a b, nth_error face i = Some a /\ nth_error face ((i + 1) mod length face) = Some b /\ edge_square c (nth i face' 0%nat) (edge_end face' i) = vdist2 (pos a) (pos b)).
    { intros i Hi. destruct (@Forall2_nth_r _ _ _ _ _ _ _ M (nth_error_nth' face' 0%nat Hi)) as (a & Ea & Ra).
      destruct (@Forall2_nth_r _ _ _ _ _ _ _ M (@edge_next face' i Hi)) as (b & Eb & Rb).
      exists a, b. split; [exact Ea|]. split; [rewrite EL; exact Eb|]. rewrite edge_square_dist, (Hc _ Ra), (Hc _ Rb). reflexivity. }
    split.
    - destruct H1 as (i & Hi & ->). destruct (G i Hi) as (a & b & E1 & E2 & ->). exists a, b. split; [|reflexivity]. exists i. auto.
    - intros d (a & b & (i & Ea & Eb) & ->). apply H2. assert (Hi : (i < length face')%nat). { rewrite <- EL. apply nth_error_Some. congruence. }
      exists i. split; [exact Hi|]. destruct (G i Hi) as (a' & b' & E1 & E2 & ->). congruence.
  Qed.

  Lemma vdist2_pos a b : 0 <= vdist2 a b.
  Proof. unfold vdist2. apply vdot_nonneg. Qed.
  Lemma primary_length_spec face face' : matches ids face face' -> (0 < length face)%nat -> longest_edge pos face (primary_length c face').
  Proof.
    intros M L. unfold primary_length, longest_edge, vdist. apply (@length_edges face face' sqrt (- dbl_max) M L).
    intros i _. pose proof dbl_max_pos. pose proof (sqrt_pos (edge_square c (nth i face' 0%nat) (edge_end face' i))). lra.
  Qed.
  Lemma secondary_length_spec face face' : matches ids face face' -> (0 < length face)%nat -> longest_edge pos face (secondary_length c face').
  Proof.
    intros M L. unfold secondary_length, longest_edge, vdist.
    destruct (@length_edges face face' (fun x => x) (- dbl_max) M L) as (H1 & H2).
    - intros i _. pose proof dbl_max_pos. rewrite edge_square_dist. pose proof (vdist2_pos (node_vec c (nth i face' 0%nat)) (node_vec c (edge_end face' i))). lra.
    - split.
      + destruct H1 as (a & b & E & ->). exists a, b. auto.
      + intros d (a & b & E & ->). apply sqrt_le_1_alt. apply H2. exists a, b. auto.
  Qed.

  Lemma fictitious_spec face face' p q r s : matches ids face face' -> face = [p; q; r; s] -> fictitious_node c face' = mean4 (pos p) (pos q) (pos r) (pos s).
  Proof.
    intros M ->. inversion M as [|? ? ? ? E1 M1]; subst. inversion M1 as [|? ? ? ? E2 M2]; subst. inversion M2 as [|? ? ? ? E3 M3]; subst.
    inversion M3 as [|? ? ? ? E4 M4]; subst. inversion M4; subst.
    rewrite <- (Hc _ E1), <- (Hc _ E2), <- (Hc _ E3), <- (Hc _ E4).
    unfold fictitious_node, floop. cbn [length Nat.sub seq fold_left nth]. unfold mean4, vscal, vadd, node_vec, vzero. cbn [vx vy vz].
    replace (INR 4) with 4 by (cbn; ring). apply V3_eq; cbn [vx vy vz]; field.
  Qed.

  Lemma face_triangle_spec face face' id len idx t ord : matches ids face face' -> length face = 4%nat -> (t < 4)%nat -> len = primary_length c face' ->
    let e := face_triangle c face' id len idx t ((t + 1) mod 4) ord in
    is_triangle_of ids pos face t e /\ contact_entity_global_id_ e = Z.lor id ord /\ local_id_ e = Z.of_nat idx.
  Proof.
    intros M L Ht El e. pose proof (matches_len M) as EL.
    assert (Hi : forall k, (k < 4)%nat -> exists a, nth_error face k = Some a /\ nth_error ids (nth k face' 0%nat) = Some a).
    { intros k Hk. apply (@Forall2_nth_r _ _ _ _ _ _ _ M). apply nth_error_nth'. lia. }
    assert (Hm : ((t + 1) mod 4 < 4)%nat) by (apply Nat.mod_upper_bound; lia).
    destruct (Hi t Ht) as (a & Ea & Ra). destruct (Hi _ Hm) as (b & Eb & Rb).
    split; [|split; reflexivity]. exists a, b. split; [exact Ea|]. split; [exact Eb|].
    split; [reflexivity|]. split; [reflexivity|]. split; [exact Ra|]. split; [exact Rb|].
    split.
    { destruct (Hi 0%nat ltac:(lia)) as (w & E0 & R0). destruct (Hi 1%nat ltac:(lia)) as (x & E1 & R1). destruct (Hi 2%nat ltac:(lia)) as (y & E2 & R2). destruct (Hi 3%nat ltac:(lia)) as (z & E3 & R3).
      destruct face as [|f0 [|f1 [|f2 [|f3 [|f4 face]]]]]; try discriminate L. cbn in E0, E1, E2, E3.
      change (map (nth_error ids) [nth 0 face' 0; nth 1 face' 0; nth 2 face' 0; nth 3 face' 0]%nat = map Some [f0; f1; f2; f3]).
      cbn [map]. rewrite R0, R1, R2, R3. congruence. }
    split. { change (at3 c (3 * nth t face' 0%nat) = pos a). rewrite at3_node. now apply Hc. }
    split. { change (at3 c (3 * nth ((t + 1) mod 4) face' 0%nat) = pos b). rewrite at3_node. now apply Hc. }
    split. { intros p q r s Ef. change (fictitious_node c face' = mean4 (pos p) (pos q) (pos r) (pos s)). eapply fictitious_spec; eauto. }
    split; [|reflexivity]. change (longest_edge pos face len). rewrite El. apply primary_length_spec; [exact M|lia].
  Qed.

  Lemma create_faces_spec faces faces' fids : Forall2 (matches ids) faces faces' -> length fids = length faces -> (forall f, In f faces -> length f = 4%nat) ->
    exists out, create_faces c faces' fids = Ok out /\ length out = (4 * length faces)%nat /\
    forall i t face id, nth_error faces i = Some face -> nth_error fids i = Some id -> (t < 4)%nat ->
      exists e, nth_error out (4 * i + t) = Some e /\ is_triangle_of ids pos face t e /\ contact_entity_global_id_ e = Z.lor id (Z.of_nat t) /\ local_id_ e = Z.of_nat (4 * i + t).
  Proof.
    intros F Lid L4. unfold create_faces. pose proof (@Forall2_len _ _ _ _ _ F) as EL.
    pose (P := fun k (out : list entity) => length out = (4 * k)%nat /\ forall i t face id, (i < k)%nat -> nth_error faces i = Some face -> nth_error fids i = Some id -> (t < 4)%nat ->
      exists e, nth_error out (4 * i + t) = Some e /\ is_triangle_of ids pos face t e /\ contact_entity_global_id_ e = Z.lor id (Z.of_nat t) /\ local_id_ e = Z.of_nat (4 * i + t)).
    match goal with |- exists out, oloop _ _ ?b _ = _ /\ _ => assert (H : exists s', oloop 0 (length faces') b [] = Ok s' /\ P (length faces') s') end.
    { apply (@oloop_ind _ P); [lia| |].
      - split; [reflexivity|]. intros; lia.
      - intros k out Hk (HL & HP). cbv zeta.
        pose proof (nth_error_nth' faces' [] (proj2 Hk)) as Ef'. destruct (@Forall2_nth_r _ _ _ _ _ _ _ F Ef') as (face & Ef & M).
        assert (L : length face = 4%nat) by (apply L4; eapply nth_error_In; eauto).
        rewrite <- (matches_len M), L. cbn [Nat.eqb negb].
        assert (Hid : (k < length fids)%nat) by lia.
        destruct (nth_error fids k) as [id|] eqn:Eid; [|apply nth_error_None in Eid; lia].
        unfold vget. rewrite Eid. cbn [obind]. eexists. split; [reflexivity|]. split.
        + rewrite app_length, HL. cbn [length]. lia.
        + intros i t face0 id0 Hi E1 E2 Ht. destruct (Nat.eq_dec i k) as [->|N].
          * assert (face0 = face) by congruence. assert (id0 = id) by congruence. subst face0 id0.
            assert (Hlen : primary_length c (nth k faces' []) = primary_length c (nth k faces' [])) by reflexivity.
            rewrite nth_error_app2 by lia. replace (4 * k + t - length out)%nat with t by lia.
            pose proof (@face_triangle_spec face (nth k faces' []) id (primary_length c (nth k faces' [])) (4 * k + t) t (Z.of_nat t) M L Ht eq_refl) as FT. cbv zeta in FT.
            rewrite HL.
            destruct t as [|[|[|[|t]]]]; try lia; (eexists; split; [reflexivity|]); rewrite ?Nat.add_0_r in FT |- *; exact FT.
          * destruct (HP i t face0 id0 ltac:(lia) E1 E2 Ht) as (e & Ee & H). exists e. split; [|exact H].
            rewrite nth_error_app1; [exact Ee|]. apply nth_error_Some. congruence. }
    destruct H as (out & E & HL & HP). exists out. split; [exact E|]. split; [lia|]. intros i t face id E1 E2 Ht. apply HP; auto. rewrite <- EL. apply nth_error_Some. congruence.
  Qed.

End Lengths.
