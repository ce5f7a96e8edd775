(** * C41: bounding boxes;  C63: blocks by name and by id *)
From Coq Require Import NArith Reals Lra Permutation Sorted.
From Verif Require Import Base ListLemmas Strings InputModel InputSpec InputProofs InputProofs2 InputProofs3
  MeshTextModel MeshTextSpec MeshTextProofs MeshTextProofs2 PropMesh.
Local Close Scope string_scope.
Local Open Scope list_scope.
Set Implicit Arguments.
Notation length := List.length.

Section C41.
  Local Open Scope R_scope.
  Lemma run_min_spec xs : forall b, (run_min b xs = b \/ In (run_min b xs) xs) /\ run_min b xs <= b /\ forall x, In x xs -> run_min b xs <= x.
  Proof.
    induction xs as [|x xs IH]; intros b; cbn [run_min fold_left].
    - unfold run_min. cbn. split; [now left|]. split; [lra|]. intros ? [].
    - unfold run_min in *. cbn [fold_left]. destruct (Rlt_dec x b) as [H|H].
      + destruct (IH x) as ([H1|H1] & H2 & H3).
        * rewrite H1. split; [right; now left|]. split; [lra|]. intros y [->|Hy]; [lra|]. specialize (H3 y Hy). lra.
        * split; [right; now right|]. split; [lra|]. intros y [->|Hy]; [lra|]. now apply H3.
      + destruct (IH b) as ([H1|H1] & H2 & H3).
        * rewrite H1 in *. split; [now left|]. split; [lra|]. intros y [->|Hy]; [lra|]. now apply H3.
        * split; [right; now right|]. split; [lra|]. intros y [->|Hy]; [lra|]. now apply H3.
  Qed.
  Lemma run_max_fold xs : forall b, let v := fold_left (fun m x => if Rgt_dec x m then x else m) xs b in
    (v = b \/ In v xs) /\ b <= v /\ forall x, In x xs -> x <= v.
  Proof.
    induction xs as [|x xs IH]; intros b; cbn [fold_left].
    - cbv zeta. split; [now left|]. split; [lra|]. intros ? [].
    - cbv zeta. destruct (Rgt_dec x b) as [H|H].
      + destruct (IH x) as ([H1|H1] & H2 & H3).
        * rewrite H1. split; [right; now left|]. split; [lra|]. intros y [->|Hy]; [lra|]. specialize (H3 y Hy). cbn in H3. lra.
        * split; [right; now right|]. split; [lra|]. intros y [->|Hy]; [lra|]. now apply H3.
      + destruct (IH b) as ([H1|H1] & H2 & H3).
        * rewrite H1 in *. split; [now left|]. split; [lra|]. intros y [->|Hy]; [lra|]. now apply H3.
        * split; [right; now right|]. split; [lra|]. intros y [->|Hy]; [lra|]. now apply H3.
  Qed.
  Lemma run_min_least big xs : xs <> [] -> (forall x, In x xs -> Rabs x <= big) -> least xs (run_min big xs).
  Proof.
    intros Hne Hb. destruct (run_min_spec xs big) as ([H|H] & H2 & H3); split; auto.
    destruct xs as [|x xs]; [congruence|]. assert (Hx : x = run_min big (x :: xs)).
    { specialize (H3 x (or_introl eq_refl)). specialize (Hb x (or_introl eq_refl)). pose proof (Rle_abs x). lra. }
    rewrite <- Hx. now left.
  Qed.
  Lemma run_max_greatest big xs : xs <> [] -> (forall x, In x xs -> Rabs x <= big) -> greatest xs (run_max big xs).
  Proof.
    intros Hne Hb. unfold run_max. destruct (run_max_fold xs (-1 * big)) as ([H|H] & H2 & H3); cbv zeta in *; split; auto.
    destruct xs as [|x xs]; [congruence|].
    assert (Hx : x = fold_left (fun m x => if Rgt_dec x m then x else m) (x :: xs) (-1 * big)).
    { specialize (H3 x (or_introl eq_refl)). specialize (Hb x (or_introl eq_refl)). pose proof (Rle_abs (- x)) as Ha.
      rewrite Rabs_Ropp in Ha. lra. }
    rewrite <- Hx. now left.
  Qed.

  (** The box contains every node and every face of it touches a node ([big] is the largest double). *)
Theorem C41_bounding_box :
    forall big (m : mesh R),
      m_x m <> [] -> length (m_y m) = length (m_x m) -> length (m_z m) = length (m_x m) ->
      (forall v, In v (m_x m) \/ In v (m_y m) \/ In v (m_z m) -> Rabs v <= big) ->
      let b := bounding_box big m in
      least (m_x m) (b_xmin b) /\ greatest (m_x m) (b_xmax b) /\
      least (m_y m) (b_ymin b) /\ greatest (m_y m) (b_ymax b) /\
      least (m_z m) (b_zmin b) /\ greatest (m_z m) (b_zmax b).
  Proof.
    intros big m Hx Hy Hz Hb b. unfold b, bounding_box. cbn [b_xmin b_xmax b_ymin b_ymax b_zmin b_zmax].
    assert (Hy' : m_y m <> []). { intros E. rewrite E in Hy. destruct (m_x m); [congruence|discriminate]. }
    assert (Hz' : m_z m <> []). { intros E. rewrite E in Hz. destruct (m_x m); [congruence|discriminate]. }
    repeat split; first [apply run_min_least|apply run_max_greatest]; auto.
  Qed.
  Print Assumptions C41_bounding_box.
  (** The centre is at equal distance from opposite faces. *)
Theorem C41_center :
    forall big (m : mesh R) cx cy cz,
      bounding_box_center big m = (cx, cy, cz) ->
      let b := bounding_box big m in
      cx - b_xmin b = b_xmax b - cx /\ cy - b_ymin b = b_ymax b - cy /\ cz - b_zmin b = b_zmax b - cz.
  Proof.
    intros big m cx cy cz E. unfold bounding_box_center in E. cbv zeta in *.
    generalize dependent (bounding_box big m). intros b E.
    apply pair_equal_spec in E. destruct E as (E & <-). apply pair_equal_spec in E. destruct E as (<- & <-).
    split; [|split]; field.
  Qed.
  Print Assumptions C41_center.
  (** A mesh without nodes (a rank may have none) gets an inside-out box. *)
Theorem C41_no_nodes_refuted :
    forall big (m : mesh R), 0 < big -> m_x m = [] -> b_xmax (bounding_box big m) < b_xmin (bounding_box big m).
  Proof. intros big m Hb Hx. unfold bounding_box. cbn [b_xmin b_xmax]. rewrite Hx. cbn. lra. Qed.
  Print Assumptions C41_no_nodes_refuted.

  (** *** the contact bounding box: atomic updates in any order *)
  Lemma contact_box_fold coord order : forall b0,
    let f := (fun b i =>
      let x := nth (3 * i) coord 0 in let y := nth (3 * i + 1) coord 0 in let z := nth (3 * i + 2) coord 0 in
      Box (Rmin (b_xmin b) x) (Rmax (b_xmax b) x) (Rmin (b_ymin b) y) (Rmax (b_ymax b) y)
          (Rmin (b_zmin b) z) (Rmax (b_zmax b) z)) in
    let b := fold_left f order b0 in
    b_xmin b = run_min (b_xmin b0) (map (fun i => nth (3 * i) coord 0) order) /\
    b_xmax b = fold_left (fun m x => if Rgt_dec x m then x else m) (map (fun i => nth (3 * i) coord 0) order) (b_xmax b0) /\
    b_ymin b = run_min (b_ymin b0) (map (fun i => nth (3 * i + 1) coord 0) order) /\
    b_ymax b = fold_left (fun m x => if Rgt_dec x m then x else m) (map (fun i => nth (3 * i + 1) coord 0) order) (b_ymax b0) /\
    b_zmin b = run_min (b_zmin b0) (map (fun i => nth (3 * i + 2) coord 0) order) /\
    b_zmax b = fold_left (fun m x => if Rgt_dec x m then x else m) (map (fun i => nth (3 * i + 2) coord 0) order) (b_zmax b0).
  Proof.
    assert (Hmin : forall a x, Rmin a x = if Rlt_dec x a then x else a).
    { intros a x. unfold Rmin. destruct (Rle_dec a x), (Rlt_dec x a); lra. }
    assert (Hmax : forall a x, Rmax a x = if Rgt_dec x a then x else a).
    { intros a x. unfold Rmax. destruct (Rle_dec a x), (Rgt_dec x a); lra. }
    induction order as [|i order IH]; intros b0; cbv zeta in *; [repeat split|].
    cbn [fold_left map]. match goal with |- context [fold_left ?f order (Box ?a ?b ?c ?d ?e ?g)] => specialize (IH (Box a b c d e g)) end.
    cbn [b_xmin b_xmax b_ymin b_ymax b_zmin b_zmax] in IH. rewrite !Hmin, !Hmax in IH. rewrite !Hmin, !Hmax.
    unfold run_min in *. cbn [fold_left]. exact IH.
  Qed.
Theorem C41_contact_box :
    forall big (nodes : list (R * R * R)) order,
      nodes <> [] -> Permutation order (seq 0 (length nodes)) ->
      (forall p, In p nodes -> Rabs (fst (fst p)) <= big /\ Rabs (snd (fst p)) <= big /\ Rabs (snd p) <= big) ->
      let b := contact_box big (flat_map (fun p => [fst (fst p); snd (fst p); snd p]) nodes) order in
      least (map (fun p => fst (fst p)) nodes) (b_xmin b) /\ greatest (map (fun p => fst (fst p)) nodes) (b_xmax b) /\
      least (map (fun p => snd (fst p)) nodes) (b_ymin b) /\ greatest (map (fun p => snd (fst p)) nodes) (b_ymax b) /\
      least (map snd nodes) (b_zmin b) /\ greatest (map snd nodes) (b_zmax b).
  Proof.
    intros big nodes order Hne Hp Hb b. unfold b, contact_box. clear b.
    set (coord := flat_map (fun p => [fst (fst p); snd (fst p); snd p]) nodes).
    destruct (contact_box_fold coord order (Box big (-1 * big) big (-1 * big) big (-1 * big)))
      as (E1 & E2 & E3 & E4 & E5 & E6). cbn [b_xmin b_xmax b_ymin b_ymax b_zmin b_zmax] in E1, E2, E3, E4, E5, E6.
    cbv zeta in E1, E2, E3, E4, E5, E6. rewrite E1, E2, E3, E4, E5, E6. clear E1 E2 E3 E4 E5 E6.
    assert (Hat : forall k (g : R * R * R -> R), (k < 3)%nat -> (forall p, nth k [fst (fst p); snd (fst p); snd p] 0 = g p) ->
      Permutation (map (fun i => nth (3 * i + k) coord 0) order) (map g nodes)).
    { intros k g Hk Hg. rewrite (Permutation_map _ Hp).
      replace (map (fun i => nth (3 * i + k) coord 0) (seq 0 (length nodes))) with (map g nodes); [reflexivity|].
      unfold coord. clear - Hk Hg. induction nodes as [|p nodes IH]; auto. cbn [length seq map flat_map].
      rewrite <- seq_shift, map_map, IH. f_equal.
      - rewrite app_nth1 by (cbn [length]; lia). now rewrite Nat.mul_0_r, Nat.add_0_l, Hg.
      - apply map_ext. intros i. rewrite app_nth2 by (cbn [length]; lia). cbn [length]. f_equal. lia. }
    assert (Hmin : forall l l' : list R, Permutation l l' -> l' <> [] -> (forall x, In x l' -> Rabs x <= big) -> least l' (run_min big l)).
    { intros l l' Hpl Hn Hl. destruct (@run_min_least big l) as (H1 & H2).
      - intros ->. apply Permutation_nil in Hpl. congruence.
      - intros x Hx. apply Hl. eapply Permutation_in; eauto.
      - split; [eapply Permutation_in; eauto|]. intros x Hx. apply H2. eapply Permutation_in; [symmetry|]; eauto. }
    assert (Hmax : forall l l' : list R, Permutation l l' -> l' <> [] -> (forall x, In x l' -> Rabs x <= big) -> greatest l' (run_max big l)).
    { intros l l' Hpl Hn Hl. destruct (@run_max_greatest big l) as (H1 & H2).
      - intros ->. apply Permutation_nil in Hpl. congruence.
      - intros x Hx. apply Hl. eapply Permutation_in; eauto.
      - split; [eapply Permutation_in; eauto|]. intros x Hx. apply H2. eapply Permutation_in; [symmetry|]; eauto. }
    assert (Hm : forall g : R * R * R -> R, map g nodes <> []) by (intros g; destruct nodes; [congruence|discriminate]).
    assert (Hin : forall (g : R * R * R -> R), (forall p, In p nodes -> Rabs (g p) <= big) -> forall x, In x (map g nodes) -> Rabs x <= big).
    { intros g Hg x Hx. apply in_map_iff in Hx. destruct Hx as (p & <- & Hp'). auto. }
    pose proof (Hat 0%nat (fun p => fst (fst p)) ltac:(lia) (fun p => eq_refl)) as P0.
    pose proof (Hat 1%nat (fun p => snd (fst p)) ltac:(lia) (fun p => eq_refl)) as P1.
    pose proof (Hat 2%nat snd ltac:(lia) (fun p => eq_refl)) as P2.
    assert (E0 : map (fun i => nth (3 * i + 0) coord 0) order = map (fun i => nth (3 * i) coord 0) order)
      by (apply map_ext; intros i; now rewrite Nat.add_0_r).
    rewrite E0 in P0.
    split; [apply Hmin; auto; apply Hin; intros p Hp'; apply (Hb p Hp')|].
    split; [apply Hmax; auto; apply Hin; intros p Hp'; apply (Hb p Hp')|].
    split; [apply Hmin; auto; apply Hin; intros p Hp'; apply (Hb p Hp')|].
    split; [apply Hmax; auto; apply Hin; intros p Hp'; apply (Hb p Hp')|].
    split; [apply Hmin; auto; apply Hin; intros p Hp'; apply (Hb p Hp')|].
    apply Hmax; auto; apply Hin; intros p Hp'; apply (Hb p Hp').
  Qed.
  Print Assumptions C41_contact_box.
  (** The characteristic length over all ranks is the mean of the ranks' longest box edges. *)
Theorem C41_longest_edge :
    forall b, greatest [b_xmax b - b_xmin b; b_ymax b - b_ymin b; b_zmax b - b_zmin b] (longest_edge b).
  Proof.
    intros b. unfold longest_edge, greatest. cbv zeta.
    destruct (Rgt_dec (b_ymax b - b_ymin b) (b_xmax b - b_xmin b)) as [H|H];
      match goal with |- context [Rgt_dec ?a ?c] => destruct (Rgt_dec a c) as [H'|H'] end;
      (split; [cbn; auto|]); intros x [<-|[<-|[<-|[]]]]; lra.
  Qed.
  Print Assumptions C41_longest_edge.
Theorem C41_average_length :
    forall boxes lo hi, boxes <> [] -> (forall b, In b boxes -> lo <= longest_edge b <= hi) ->
      lo <= average_length boxes <= hi.
  Proof.
    intros boxes lo hi Hne H. unfold average_length.
    assert (Hn : 0 < INR (length boxes)) by (apply lt_0_INR; destruct boxes; [congruence|cbn; lia]).
    assert (Hs : lo * INR (length boxes) <= fold_right Rplus 0 (map longest_edge boxes) <= hi * INR (length boxes)).
    { clear Hne Hn. induction boxes as [|b boxes IH]; [cbn; lra|]. cbn [map fold_right length]. rewrite S_INR.
      destruct IH as (I1 & I2); [intros; apply H; now right|]. destruct (H b (or_introl eq_refl)). lra. }
    split; apply (Rmult_le_reg_r (INR (length boxes))); auto; unfold Rdiv; rewrite Rmult_assoc, Rinv_l, Rmult_1_r by lra; lra.
  Qed.
  Print Assumptions C41_average_length.
  Example C41_used :
    let m := Mesh 3 [0; 1]%Z [1; 2] [0; -5] [3; 3] [] [] [] [] [] [] [] [] [] [] [] in
    m_x m <> [] /\ length (m_y m) = length (m_x m) /\ (forall v, In v (m_x m) \/ In v (m_y m) \/ In v (m_z m) -> Rabs v <= 10).
  Proof.
    cbn. split; [discriminate|]. split; [reflexivity|]. intros v Hv.
    assert (H : -10 <= v <= 10) by (intuition; subst; lra). unfold Rabs. destruct (Rcase_abs v); lra.
  Qed.
End C41.

(** ** C63 *)
Section C63.
  Lemma entries_in {V} (m : list (Z * V)) e : In e (entries m) <-> In e m.
  Proof. apply in_isort. Qed.
  Lemma assoc_entry {V} (m : list (Z * V)) k v : NoDup (map fst m) -> (In (k, v) m <-> assoc Z.eqb k m = Some v).
  Proof.
    induction m as [|[k' v'] m IH]; intros Hd; [cbn; split; [tauto|discriminate]|]. cbn [assoc map fst In] in *.
    inversion Hd as [|? ? Hn Hd']; subst. destruct (Z.eqb_spec k k') as [->|Hk].
    - split.
      + intros [[= ->]|H]; [reflexivity|]. exfalso. apply Hn. change k' with (fst (k', v)). now apply in_map.
      + intros [= ->]. now left.
    - rewrite <- IH by auto. split; [intros [[= -> ->]|H]; [congruence|auto]|now right].
  Qed.
  Lemma insert_sorted (e : Z * chars) l :
    StronglySorted (fun a b => (fst a <= fst b)%Z) l -> StronglySorted (fun a b => (fst a <= fst b)%Z) (insert (fun a b => (fst a <=? fst b)%Z) e l).
  Proof.
    induction 1 as [|b l Hs IH Hb]; [constructor; constructor|]. cbn [insert]. destruct (Z.leb_spec (fst e) (fst b)).
    - constructor; [now constructor|]. constructor; [auto|]. eapply Forall_impl; [|exact Hb]. cbn. lia.
    - constructor; auto. apply Forall_forall. intros x Hx. apply in_insert in Hx. destruct Hx as [->|Hx]; [lia|].
      rewrite Forall_forall in Hb. now apply Hb.
  Qed.
  Lemma entries_sorted (l : list (Z * chars)) : StronglySorted (fun a b => (fst a <= fst b)%Z) (entries l).
  Proof. unfold entries. induction l as [|e l IH]; [constructor|]. cbn [isort]. now apply insert_sorted. Qed.

  (** HasBlock / GetBlockId: the name is found exactly when a block has it, and the block with the
      lowest id is returned (the only one, when names are distinct). *)
Theorem C63_has_block :
    forall D (m : mesh D) name, NoDup (map fst (m_block_names m)) ->
      (has_block m name = true <-> exists id, assoc Z.eqb id (m_block_names m) = Some name).
  Proof.
    intros D m name Hd. unfold has_block. rewrite existsb_exists. split.
    - intros ((id & n) & Hin & E). apply (proj1 (entries_in _ _)) in Hin. apply chars_eqb_eq in E. cbn in E. subst n. exists id.
      now apply assoc_entry.
    - intros (id & H). apply assoc_entry in H; auto. exists (id, name). split; [now apply entries_in|]. apply chars_eqb_refl.
  Qed.
  Print Assumptions C63_has_block.
Theorem C63_block_id :
    forall D (m : mesh D) name, NoDup (map fst (m_block_names m)) ->
      match block_id_of m name with
      | Ok id => assoc Z.eqb id (m_block_names m) = Some name /\
                 forall id', assoc Z.eqb id' (m_block_names m) = Some name -> (id <= id')%Z
      | Throw => forall id, assoc Z.eqb id (m_block_names m) <> Some name
      | _ => False
      end.
  Proof.
    intros D m name Hd. unfold block_id_of.
    assert (Hf : forall l, StronglySorted (fun a b : Z * chars => (fst a <= fst b)%Z) l ->
      match find (fun e => chars_eqb (snd e) name) l with
      | Some e => In e l /\ snd e = name /\ forall id, In (id, name) l -> (fst e <= id)%Z
      | None => forall id, ~ In (id, name) l
      end).
    { induction 1 as [|b l Hs IH Hb]; [cbn; tauto|]. cbn [find]. destruct (chars_eqb (snd b) name) eqn:E.
      - apply chars_eqb_eq in E. split; [now left|]. split; [auto|]. intros id [->|Hin]; [cbn; lia|].
        rewrite Forall_forall in Hb. apply (Hb _ Hin).
      - apply chars_eqb_false in E. destruct (find _ l) as [e|].
        + destruct IH as (I1 & I2 & I3). split; [now right|]. split; [auto|]. intros id [->|Hin]; [cbn in E; congruence|auto].
        + intros id [->|Hin]; [cbn in E; congruence|]. now apply (IH id). }
    specialize (Hf _ (entries_sorted (m_block_names m))). destruct (find _ _) as [(id & n)|].
    - destruct Hf as (H1 & H2 & H3). cbn in H2. subst n. apply (proj1 (entries_in _ _)) in H1. cbn. split; [now apply assoc_entry|].
      intros id' H'. apply (H3 id'). apply entries_in. now apply assoc_entry.
    - intros id H. apply (Hf id). apply entries_in. now apply assoc_entry.
  Qed.
  Print Assumptions C63_block_id.
  (** BlockNamesToOnProcessorBlockIds: the ids of those named blocks that are here, in the order of the names. *)
Theorem C63_on_processor :
    forall D (m : mesh D) names, NoDup (map fst (m_block_names m)) ->
      (forall i j n, assoc Z.eqb i (m_block_names m) = Some n -> assoc Z.eqb j (m_block_names m) = Some n -> i = j) ->
      exists ids here, on_processor_ids m names = Ok ids /\
        here = filter (has_block m) names /\
        Forall2 (fun n id => assoc Z.eqb id (m_block_names m) = Some n) here ids /\
        (forall n, In n names -> ~ In n here -> forall id, assoc Z.eqb id (m_block_names m) <> Some n).
  Proof.
    intros D m names Hd Hu. induction names as [|n names IH].
    - exists [], []. split; [reflexivity|]. split; [reflexivity|]. split; [constructor|]. intros ? [].
    - destruct IH as (ids & here & E & -> & F & A). cbn [on_processor_ids filter]. destruct (has_block m n) eqn:Hn.
      + pose proof (C63_block_id m n Hd) as Hb. destruct (block_id_of m n) as [id| | |] eqn:Ei.
        * cbn [obind]. rewrite E. cbn [obind]. exists (id :: ids), (n :: filter (has_block m) names).
          split; [reflexivity|]. split; [reflexivity|]. split; [constructor; [apply Hb|auto]|].
          intros n' [->|Hin] Hnot; [exfalso; apply Hnot; now left|]. apply A; auto. intros H. apply Hnot. now right.
        * apply C63_has_block in Hn; auto. destruct Hn as (id & H). now apply Hb in H.
        * destruct Hb.
        * destruct Hb.
      + exists ids, (filter (has_block m) names). split; [auto|]. split; [reflexivity|]. split; [auto|].
        intros n' [->|Hin] Hnot; [|now apply A]. intros id H.
        assert (has_block m n' = true) by (apply C63_has_block; eauto). congruence.
  Qed.
  Print Assumptions C63_on_processor.
  (** GetNumElementsInBlock, GetNumNodesPerElement and the element type of the blocks of a sound mesh *)
Theorem C63_block_sizes :
    forall D (m : mesh D) c b, holds m c -> sound c -> In b (c_blocks c) ->
      num_elements_in_block m (b_id b) = Ok (Z.of_nat (length (b_elems b))).
  Proof.
    intros D m c b Hh Hs Hb. unfold num_elements_in_block, map_at.
    destruct Hh as (_ & _ & _ & _ & _ & _ & H & _). destruct (H b Hb) as (_ & H2 & _ & H4). rewrite H2, H4. cbn [obind].
    pose proof (so_block Hs) as Hbl. rewrite Forall_forall in Hbl. destruct (Hbl b Hb) as (_ & _ & Hp & _ & _ & He).
    assert (Hl : Forall (fun r => length r = b_npe b) (map snd (b_elems b))).
    { apply Forall_map. eapply Forall_impl; [|exact He]. now intros ? (_ & ? & _). }
    pose proof (concat_length Hl) as Hlen. rewrite map_length in Hlen.
    destruct (List.concat (map snd (b_elems b))) as [|x l] eqn:E.
    - cbn [length] in Hlen. destruct (b_elems b); [reflexivity|]. cbn [length] in Hlen. nia.
    - destruct (Z.eqb_spec (Z.of_nat (b_npe b)) 0); [lia|]. rewrite Hlen, Nat2Z.inj_mul, Z.quot_mul by lia. reflexivity.
  Qed.
  Print Assumptions C63_block_sizes.
Theorem C63_element_type :
    forall D (m : mesh D) c b, holds m c -> In b (c_blocks c) -> m_dim m = 3%Z ->
      element_type m (b_id b) =
        match b_npe b with 1 => Ok (lit "SPHERE") | 3 => Ok (lit "TRIANGLE") | 4 => Ok (lit "TETRA") | 8 => Ok (lit "HEX") | _ => Throw end.
  Proof.
    intros D m c b Hh Hb Hdim. unfold element_type, map_at.
    destruct Hh as (_ & _ & _ & _ & _ & _ & H & _). destruct (H b Hb) as (_ & H2 & _). rewrite H2, Hdim. cbn [obind].
    generalize (b_npe b). intros n. do 9 (destruct n as [|n]; [reflexivity|]).
    change (3 =? 2)%Z with false. change (3 =? 3)%Z with true. cbv iota zeta.
    replace (Z.of_nat (S (S (S (S (S (S (S (S (S n))))))))) =? 1)%Z with false by lia.
    replace (Z.of_nat (S (S (S (S (S (S (S (S (S n))))))))) =? 3)%Z with false by lia.
    replace (Z.of_nat (S (S (S (S (S (S (S (S (S n))))))))) =? 4)%Z with false by lia.
    replace (Z.of_nat (S (S (S (S (S (S (S (S (S n))))))))) =? 8)%Z with false by lia. reflexivity.
  Qed.
  Print Assumptions C63_element_type.
  (** In two dimensions a triangle is reported with a stray colon. *)
Theorem C63_triangle_refuted :
    forall D (m : mesh D) id, m_dim m = 2%Z -> assoc Z.eqb id (m_nodes_per_elem m) = Some 3%Z ->
      element_type m id = Ok (lit "TRIANGLE:").
  Proof. intros D m id Hd H. unfold element_type, map_at. rewrite H, Hd. reflexivity. Qed.
  Print Assumptions C63_triangle_refuted.
  (** GetMaxNodeGlobalId *)
Theorem C63_max_node_id :
    forall D (m : mesh D), Forall (fun id => (-1 <= id)%Z) (m_node_id m) ->
      (forall id, In id (m_node_id m) -> (id <= max_node_id m)%Z) /\
      (In (max_node_id m) (m_node_id m) \/ (m_node_id m = [] /\ max_node_id m = (-1)%Z)).
  Proof.
    intros D m. unfold max_node_id. intros H.
    assert (G : forall l a, let v := fold_left (fun acc id => if (acc <? id)%Z then id else acc) l a in
      (a <= v)%Z /\ (forall id, In id l -> (id <= v)%Z) /\ (v = a \/ In v l)).
    { induction l as [|x l IH]; intros a; cbn [fold_left In]; cbv zeta; [split; [lia|]; split; [tauto|auto]|].
      destruct (Z.ltb_spec a x).
      - destruct (IH x) as (I1 & I2 & I3). cbv zeta in *. split; [lia|]. split.
        + intros id [->|Hin]; auto.
        + right. destruct I3 as [->|I3]; auto.
      - destruct (IH a) as (I1 & I2 & I3). cbv zeta in *. split; [lia|]. split.
        + intros id [->|Hin]; [lia|auto].
        + tauto. }
    destruct (G (m_node_id m) (-1)%Z) as (G1 & G2 & G3). cbv zeta in *. split; auto.
    destruct G3 as [G3|G3]; auto. destruct (m_node_id m) as [|x l]; [now right|]. left.
    rewrite G3. left. specialize (G2 x (or_introl eq_refl)). rewrite G3 in G2. pose proof (Forall_inv H). cbn in *. lia.
  Qed.
  Print Assumptions C63_max_node_id.
  Example C63_used : NoDup (map fst (m_block_names cube_mesh)) /\ block_id_of cube_mesh (lit "block_1") = Ok 1%Z /\ block_id_of cube_mesh (lit "x") = Throw.
  Proof. split; [|split; reflexivity]. cbn. constructor; [intros []|constructor]. Qed.
End C63.
