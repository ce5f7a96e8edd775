(** C85: contact forces with the bvh library. *)
From Coq Require Import Reals Lra Permutation.
From Verif Require Import Base ListLemmas Loops ContactModel ContactParModel ContactSpec ContactProofs ContactProofs2 ContactProofs3 ContactProofs5 ContactProofs6 ContactProofs7 ContactProofs8 BvhModel.
From Verif Require Import SubmodelModel SubmodelSpec.
From Verif Require PropContact PropSubmodel.
Set Implicit Arguments.
Local Open Scope R_scope.

(** The local id of an entity is its place among the entities of its rank (this is how they are made) *)
Definition numbered (l : list (nat * entity)) : Prop :=
  forall r i e, nth_error (map snd (filter (fun x => Nat.eqb (fst x) r) l)) i = Some e -> local_id_ e = Z.of_nat i.

(** *** Lists *)
Lemma mine_nth r l i e : nth_error (mine r l) i = Some e -> exists g, nth_error l g = Some (r, e).
Proof.
  intros H. apply nth_error_In in H. unfold mine in H. apply in_map_iff in H as ((r' & e') & E & Hi). cbn in E. subst e'.
  apply filter_In in Hi as (Hi & Hr). cbn in Hr. apply Nat.eqb_eq in Hr. subst r'. now apply In_nth_error.
Qed.
Lemma mine_at l r g e : numbered l -> nth_error l g = Some (r, e) -> exists i, local_id_ e = Z.of_nat i /\ nth_error (mine r l) i = Some e.
Proof.
  intros Hl Hg. assert (Hi : In e (mine r l)).
  { unfold mine. change e with (snd (r, e)). apply in_map. apply filter_In. split; [now apply nth_error_In in Hg|apply Nat.eqb_refl]. }
  apply In_nth_error in Hi as (i & Hi). exists i. split; [|exact Hi]. now apply (Hl r).
Qed.
Arguments mine_at {l r g e} _ _.
(** two places with the same local id on the same rank are the same *)
Lemma mine_inj l : numbered l -> forall g g' r e e', nth_error l g = Some (r, e) -> nth_error l g' = Some (r, e') -> local_id_ e = local_id_ e' -> g = g'.
Proof.
  intros Hl g g' r e e' H H' E. destruct (Nat.eq_dec g g') as [|Hne]; [assumption|exfalso].
  (* the entries of mine, with their global places *)
  assert (Main : forall l g g' e e', (g < g')%nat -> nth_error l g = Some (r, e) -> nth_error l g' = Some (r, e') ->
            exists i j, (i < j)%nat /\ nth_error (mine r l) i = Some e /\ nth_error (mine r l) j = Some e').
  { clear. induction l as [|(a & x) l IH]; intros [|g] [|g'] e e' Hlt H H'; cbn [nth_error] in *; try discriminate; try lia.
    - injection H as -> ->. apply nth_error_In in H'. assert (Hi : In e' (mine r l)).
      { unfold mine. change e' with (snd (r, e')). apply in_map. apply filter_In. split; [exact H'|apply Nat.eqb_refl]. }
      apply In_nth_error in Hi as (j & Hj). exists 0%nat, (S j). unfold mine. cbn [filter fst]. rewrite Nat.eqb_refl. cbn. repeat split; [lia|exact Hj].
    - destruct (IH g g' e e' ltac:(lia) H H') as (i & j & I1 & I2 & I3). unfold mine in *. cbn [filter fst].
      destruct (Nat.eqb a r); [exists (S i), (S j)|exists i, j]; cbn; repeat split; auto; lia. }
  destruct (Nat.lt_ge_cases g g') as [L|L].
  - destruct (Main l g g' e e' L H H') as (i & j & I1 & I2 & I3). apply Hl in I2. apply Hl in I3. lia.
  - destruct (Main l g' g e' e ltac:(lia) H' H) as (i & j & I1 & I2 & I3). apply Hl in I2. apply Hl in I3. lia.
Qed.
Arguments mine_inj {l} _ {g g' r e e'} _ _ _.
Lemma mine_map r (f : nat * entity -> nat * entity) l : (forall x, fst (f x) = fst x) -> mine r (map f l) = map (fun x => snd (f x)) (filter (fun e => Nat.eqb (fst e) r) l).
Proof.
  intros H. unfold mine. induction l as [|x l IH]; [reflexivity|]. cbn [map filter]. rewrite H. destruct (Nat.eqb (fst x) r); cbn [map]; now rewrite IH.
Qed.

(** *** What may change of an entity *)
Definition changed (e e' : entity) : Prop := exists f1 f2 f3 st, e' = with_status (with_forces e f1 f2 f3) st.
Lemma changed_trans e e' e'' : changed e e' -> changed e' e'' -> changed e e''.
Proof. intros (a & b & c & d & ->) (a' & b' & c' & d' & ->). exists a', b', c', d'. reflexivity. Qed.

Section Rank.
  Variables N F : list entity.
  Hypothesis HN : Forall (fun e => entity_type_ e = NODE) N.
  Hypothesis HF : Forall (fun e => entity_type_ e = TRIANGLE) F.
  (** what one result adds to node k *)
  Definition gain (k : nat) (r : narrowphase_result) : V3 :=
    if nr_node r then match nth_error N (Z.to_nat (local_index r)) with Some e => vscal (- hit (node_id_for_node_1_ e) k) (nr_force r) | None => vzero end
    else match nth_error F (Z.to_nat (local_index r)) with Some e => vscal (share e (nr_bary r) k) (nr_force r) | None => vzero end.
  Definition valid (r : narrowphase_result) : Prop :=
    (0 <= local_index r)%Z /\ (Z.to_nat (local_index r) < length (if nr_node r then N else F))%nat.
  Definition names (b : bool) (i : nat) (r : narrowphase_result) : bool := Bool.eqb (nr_node r) b && Nat.eqb (Z.to_nat (local_index r)) i.
  Definition pointwise (old : list entity) (b : bool) (rs : list narrowphase_result) (cur : list entity) : Prop :=
    length cur = length old /\
    forall i e, nth_error old i = Some e -> exists e', nth_error cur i = Some e' /\ changed e e' /\ contact_status_ e' = contact_status_ e || existsb (names b i) rs.
  Lemma pointwise_other old b rs cur r : nr_node r <> b -> pointwise old b rs cur -> pointwise old b (rs ++ [r]) cur.
  Proof.
    intros Hb (HL & HI). split; [exact HL|]. intros i e He. destruct (HI i e He) as (e' & E1 & E2 & E3). exists e'. repeat split; auto.
    rewrite E3, existsb_app. cbn [existsb]. unfold names at 3. destruct (nr_node r), b; try congruence; cbn; now rewrite !orb_false_r.
  Qed.
  Lemma pointwise_set old b rs cur r e e1 : nr_node r = b -> nth_error old (Z.to_nat (local_index r)) = Some e -> changed e e1 -> contact_status_ e1 = true ->
    pointwise old b rs cur -> pointwise old b (rs ++ [r]) (list_set cur (Z.to_nat (local_index r)) e1).
  Proof.
    intros Hb He Hc Hs (HL & HI). split; [now rewrite list_set_length|]. intros i x Hx.
    rewrite existsb_app. cbn [existsb]. unfold names at 2. rewrite Hb, Bool.eqb_reflx, orb_false_r. cbn [andb].
    destruct (Nat.eqb_spec (Z.to_nat (local_index r)) i) as [<-|Hne].
    - rewrite He in Hx. injection Hx as <-. exists e1. split; [|split; [exact Hc|rewrite Hs, !orb_true_r; reflexivity]].
      apply list_set_nth_eq. rewrite HL. apply nth_error_Some. congruence.
    - rewrite orb_false_r, list_set_nth_neq by exact Hne. apply HI, Hx.
  Qed.
  Lemma enforce_ok rs f0 : Forall valid rs ->
    exists s, ofold update_entity rs (CS N F f0) = Ok s /\
      (forall k, node_vec (cs_force s) k = vadd (node_vec f0 k) (vsum (map (gain k) rs))) /\
      pointwise N true rs (cs_nodes s) /\ pointwise F false rs (cs_faces s).
  Proof.
    intros Hv.
    destruct (@ofold_ind contact_state narrowphase_result (fun done s =>
      (forall k, node_vec (cs_force s) k = vadd (node_vec f0 k) (vsum (map (gain k) done))) /\
      pointwise N true done (cs_nodes s) /\ pointwise F false done (cs_faces s)) update_entity rs (CS N F f0)) as (s & E & P).
    - split; [|split].
      + intros k. cbn [map vsum fold_right cs_force]. symmetry. apply vadd_zero.
      + split; [reflexivity|]. intros i e He. exists e. split; [exact He|]. split; [|cbn; now rewrite orb_false_r].
        exists (force_1 e), (force_2 e), (force_3 e), (contact_status_ e). destruct e; reflexivity.
      + split; [reflexivity|]. intros i e He. exists e. split; [exact He|]. split; [|cbn; now rewrite orb_false_r].
        exists (force_1 e), (force_2 e), (force_3 e), (contact_status_ e). destruct e; reflexivity.
    - intros pre r post s Hrs (P1 & P2 & P3). assert (Hr : valid r) by (rewrite Forall_forall in Hv; apply Hv; rewrite Hrs; apply in_or_app; right; now left).
      destruct Hr as (V1 & V2). unfold update_entity, view_get. destruct (Z.ltb_spec (local_index r) 0) as [|_]; [lia|].
      destruct (nr_node r) eqn:Eb.
      + destruct (nth_error N (Z.to_nat (local_index r))) as [e|] eqn:En; [|apply nth_error_None in En; lia].
        destruct (proj2 P2 _ _ En) as (e' & E1 & E2 & E3). unfold vget. rewrite E1. cbn [obind].
        assert (Ht : entity_type_ e = NODE) by (rewrite Forall_forall in HN; apply HN; now apply nth_error_In in En).
        destruct E2 as (g1 & g2 & g3 & st & ->). unfold set_nodal_contact_forces. cbn [with_status with_forces entity_type_]. rewrite Ht. cbn [obind].
        eexists. split; [reflexivity|]. cbn [cs_force cs_nodes cs_faces]. split; [|split].
        * intros k. rewrite scatter_node by exact Ht. rewrite P1, map_app, vsum_app. cbn [map vsum fold_right]. rewrite vadd_zero, vadd_assoc. f_equal. f_equal.
          unfold gain. rewrite Eb, En. cbn [with_forces with_status node_id_for_node_1_ force_1]. apply V3_eq; unfold vscal; cbn [vx vy vz]; ring.
        * apply (@pointwise_set N true pre _ r e _ Eb En); [unfold changed, with_status, with_forces; cbn; do 4 eexists; reflexivity|reflexivity|exact P2].
        * apply pointwise_other; [congruence|exact P3].
      + destruct (nth_error F (Z.to_nat (local_index r))) as [e|] eqn:En; [|apply nth_error_None in En; lia].
        destruct (proj2 P3 _ _ En) as (e' & E1 & E2 & E3). unfold vget. rewrite E1. cbn [obind].
        assert (Ht : entity_type_ e = TRIANGLE) by (rewrite Forall_forall in HF; apply HF; now apply nth_error_In in En).
        destruct E2 as (g1 & g2 & g3 & st & ->). unfold set_nodal_contact_forces. cbn [with_status with_forces entity_type_]. rewrite Ht. cbn [obind].
        eexists. split; [reflexivity|]. cbn [cs_force cs_nodes cs_faces]. split; [|split].
        * intros k. rewrite scatter_tri by exact Ht. rewrite P1, map_app, vsum_app. cbn [map vsum fold_right]. rewrite vadd_zero.
          unfold gain, share. rewrite Eb, En. cbn [with_forces with_status node_id_for_node_1_ node_id_for_node_2_ node_ids_for_fictitious_node_ force_1 force_2 force_3].
          apply V3_eq; unfold vadd, vscal, scale; cbn [vx vy vz]; field.
        * apply pointwise_other; [congruence|exact P2].
        * apply (@pointwise_set F false pre _ r e _ Eb En); [unfold changed, with_status, with_forces; cbn; do 4 eexists; reflexivity|reflexivity|exact P3].
    - exists s. split; [exact E|exact P].
  Qed.
End Rank.

(** *** From the pairs to what a rank gets *)
Section Pairs.
  Variable penalty : R.
  Variables nodes faces : list (nat * entity).
  Variable pairs : list (nat * nat).
  Hypothesis Hn : Forall (fun n => entity_type_ (snd n) = NODE) nodes.
  Hypothesis Hf : Forall (fun f => entity_type_ (snd f) = TRIANGLE) faces.
  Hypothesis Nn : numbered nodes.
  Hypothesis Nf : numbered faces.
  Hypothesis HP : Forall (fun p => (fst p < length nodes)%nat /\ (snd p < length faces)%nat) pairs.

  Definition pair_results (p : nat * nat) : list (nat * narrowphase_result) :=
    match nth_error nodes (fst p), nth_error faces (snd p) with
    | Some (rn, node), Some (rf, face) =>
        if pin nodes faces p then [(rf, NR (local_id_ face) (pforce penalty nodes faces p) (pbary nodes faces p) false);
                                   (rn, NR (local_id_ node) (pforce penalty nodes faces p) (pbary nodes faces p) true)] else []
    | _, _ => []
    end.
  Lemma narrowphase_eq p : In p pairs -> narrowphase penalty nodes faces p = Ok (pair_results p).
  Proof.
    intros Hi. destruct (@pres_at nodes faces pairs HP p Hi) as (rn & node & rf & face & (E1 & E2) & E3).
    unfold narrowphase, pair_results, vget. rewrite E1, E2. cbn [obind fst snd]. unfold pin, pforce, pbary. rewrite E3.
    destruct (pr_in _); reflexivity.
  Qed.
  Lemma all_results_eq : all_results penalty nodes faces pairs = Ok (flat_map pair_results pairs).
  Proof.
    destruct (@ofold_ind _ _ (fun done l => l = flat_map pair_results done) (fun l pair => do l' <- narrowphase penalty nodes faces pair; Ok (l ++ l')) pairs [])
      as (l & E & ->); [reflexivity| |exact E].
    intros pre p post l Hp ->. rewrite narrowphase_eq by (rewrite Hp; apply in_or_app; right; now left). cbn [obind].
    eexists. split; [reflexivity|]. rewrite flat_map_app. cbn [flat_map]. now rewrite app_nil_r.
  Qed.

  Variable r : nat.
  Let N := mine r (map reset_node nodes).
  Let F := mine r (map reset_face faces).
  Lemma N_at i e : nth_error (mine r nodes) i = Some e -> nth_error N i = Some (snd (reset_node (r, e))).
  Proof.
    intros H. unfold N. rewrite mine_map by reflexivity. unfold mine in H. rewrite nth_error_map in H. rewrite nth_error_map.
    destruct (nth_error (filter _ nodes) i) as [(a & x)|]; [|discriminate]. cbn in *. congruence.
  Qed.
  Lemma F_at i e : nth_error (mine r faces) i = Some e -> nth_error F i = Some (snd (reset_face (r, e))).
  Proof.
    intros H. unfold F. rewrite mine_map by reflexivity. unfold mine in H. rewrite nth_error_map in H. rewrite nth_error_map.
    destruct (nth_error (filter _ faces) i) as [(a & x)|]; [|discriminate]. cbn in *. congruence.
  Qed.
  Arguments N_at {i e} _.
  Arguments F_at {i e} _.
  Lemma types_ok : Forall (fun e => entity_type_ e = NODE) N /\ Forall (fun e => entity_type_ e = TRIANGLE) F.
  Proof.
    unfold N, F, mine. split; apply Forall_map, Forall_forall; intros x Hx; apply filter_In in Hx as (Hx & _); apply in_map_iff in Hx as (y & <- & Hy).
    - rewrite Forall_forall in Hn. cbn. now apply Hn.
    - rewrite Forall_forall in Hf. cbn. now apply Hf.
  Qed.
  Lemma pair_valid p : Forall (valid N F) (delivered r (pair_results p)).
  Proof.
    unfold pair_results, delivered. destruct (nth_error nodes (fst p)) as [(rn & node)|] eqn:E1; [|constructor].
    destruct (nth_error faces (snd p)) as [(rf & face)|] eqn:E2; [|constructor]. destruct (pin nodes faces p); [|constructor].
    cbn [filter fst]. apply Forall_map.
    assert (A : rf = r -> valid N F (NR (local_id_ face) (pforce penalty nodes faces p) (pbary nodes faces p) false)).
    { intros ->. destruct (mine_at Nf E2) as (i & Ei & Hi). unfold valid. cbn [local_index nr_node]. rewrite Ei, Nat2Z.id. split; [lia|].
      apply nth_error_Some. rewrite (F_at Hi). discriminate. }
    assert (B : rn = r -> valid N F (NR (local_id_ node) (pforce penalty nodes faces p) (pbary nodes faces p) true)).
    { intros ->. destruct (mine_at Nn E1) as (i & Ei & Hi). unfold valid. cbn [local_index nr_node]. rewrite Ei, Nat2Z.id. split; [lia|].
      apply nth_error_Some. rewrite (N_at Hi). discriminate. }
    destruct (Nat.eqb_spec rf r) as [H|H], (Nat.eqb_spec rn r) as [H'|H']; repeat first [apply Forall_nil|apply Forall_cons]; cbn [snd]; auto.
  Qed.
  Lemma pair_gain k p : vsum (map (gain N F k) (delivered r (pair_results p))) = vadd (nside penalty nodes faces r k p) (fside penalty nodes faces r k p).
  Proof.
    unfold pair_results, delivered, nside, fside. destruct (nth_error nodes (fst p)) as [(rn & node)|] eqn:E1.
    2:{ assert (Hq : pin nodes faces p = false) by (unfold pin, pres; now rewrite E1). rewrite Hq. cbn [filter map vsum fold_right].
        destruct (nth_error faces (snd p)) as [(rf & face)|]; [rewrite andb_false_r|]; symmetry; apply vadd_zero. }
    destruct (nth_error faces (snd p)) as [(rf & face)|] eqn:E2.
    2:{ assert (Hq : pin nodes faces p = false) by (unfold pin, pres; now rewrite E1, E2). rewrite (pforce_out penalty _ _ _ Hq).
        cbn [filter map vsum fold_right]. rewrite vscal_zero. destruct (Nat.eqb rn r); symmetry; apply vadd_zero. }
    destruct (pin nodes faces p) eqn:Hq.
    - cbn [filter fst].
      assert (A : rf = r -> gain N F k (NR (local_id_ face) (pforce penalty nodes faces p) (pbary nodes faces p) false) = vscal (share face (pbary nodes faces p) k) (pforce penalty nodes faces p)).
      { intros ->. destruct (mine_at Nf E2) as (i & Ei & Hi). unfold gain. cbn [local_index nr_node nr_force nr_bary]. rewrite Ei, Nat2Z.id, (F_at Hi). reflexivity. }
      assert (B : rn = r -> gain N F k (NR (local_id_ node) (pforce penalty nodes faces p) (pbary nodes faces p) true) = vscal (- hit (node_id_for_node_1_ node) k) (pforce penalty nodes faces p)).
      { intros ->. destruct (mine_at Nn E1) as (i & Ei & Hi). unfold gain. cbn [local_index nr_node nr_force nr_bary]. rewrite Ei, Nat2Z.id, (N_at Hi). reflexivity. }
      destruct (Nat.eqb_spec rf r), (Nat.eqb_spec rn r); cbn [map snd vsum fold_right andb]; rewrite ?A, ?B by assumption; apply V3_eq; unfold vadd, vzero; cbn [vx vy vz]; ring.
    - rewrite (pforce_out penalty _ _ _ Hq), andb_false_r, vscal_zero. cbn [filter map vsum fold_right]. destruct (Nat.eqb rn r), (Nat.eqb rf r); symmetry; apply vadd_zero.
  Qed.
  Lemma delivered_flat l : delivered r (flat_map pair_results l) = flat_map (fun p => delivered r (pair_results p)) l.
  Proof.
    unfold delivered. induction l as [|p l IH]; [reflexivity|]. cbn [flat_map]. rewrite filter_app, map_app, IH. reflexivity.
  Qed.
  Lemma all_gain k l : vsum (map (gain N F k) (delivered r (flat_map pair_results l))) = vadd (vsum (map (nside penalty nodes faces r k) l)) (vsum (map (fside penalty nodes faces r k) l)).
  Proof.
    rewrite <- vsum_map_add, delivered_flat. induction l as [|p l IH]; [reflexivity|]. cbn [flat_map map].
    rewrite map_app, vsum_app, IH, pair_gain. reflexivity.
  Qed.
  Lemma all_valid l : Forall (valid N F) (delivered r (flat_map pair_results l)).
  Proof. rewrite delivered_flat. induction l as [|p l IH]; [constructor|]. cbn [flat_map]. apply Forall_app. split; [apply pair_valid|exact IH]. Qed.

  Lemma rank_main order : Permutation order (delivered r (flat_map pair_results pairs)) ->
    exists s, bvh_enforce nodes faces r order = Ok s /\
      (forall k, node_vec (cs_force s) k = vadd (vsum (map (nside penalty nodes faces r k) pairs)) (vsum (map (fside penalty nodes faces r k) pairs))) /\
      pointwise N true order (cs_nodes s) /\ pointwise F false order (cs_faces s).
  Proof.
    intros HO. destruct types_ok as (T1 & T2).
    destruct (@enforce_ok N F T1 T2 order zero_force) as (s & E & G & P1 & P2).
    { eapply Permutation_Forall; [apply Permutation_sym, HO|apply all_valid]. }
    exists s. split; [exact E|]. split; [|auto]. intros k. rewrite G, (vsum_perm (Permutation_map (gain N F k) HO)), all_gain.
    replace (node_vec zero_force k) with vzero by reflexivity. apply vadd_zero_l.
  Qed.
  Lemma named_node order g e i : Permutation order (delivered r (flat_map pair_results pairs)) ->
    nth_error nodes g = Some (r, e) -> local_id_ e = Z.of_nat i ->
    existsb (names true i) order = true <-> exists j, In (g, j) pairs /\ touching (map snd nodes) (map snd faces) g j.
  Proof.
    intros HO Hg Hi. rewrite existsb_exists. split.
    - intros (x & Hx & Hm). apply (Permutation_in _ HO) in Hx. rewrite delivered_flat in Hx. apply in_flat_map in Hx as ((g' & j) & Hp & Hx).
      unfold delivered, pair_results in Hx. cbn [fst snd] in Hx. destruct (nth_error nodes g') as [(rn & node)|] eqn:E1; [|contradiction].
      destruct (nth_error faces j) as [(rf & face)|] eqn:E2; [|contradiction]. destruct (pin nodes faces (g', j)) eqn:Hq; [|contradiction].
      apply in_map_iff in Hx as ((r' & x') & E3 & Hx). cbn in E3. subst x'. apply filter_In in Hx as (Hx & Hr). cbn in Hr. apply Nat.eqb_eq in Hr. subst r'.
      unfold names in Hm. apply andb_true_iff in Hm as (M1 & M2). apply eqb_prop in M1. apply Nat.eqb_eq in M2.
      destruct Hx as [Hx|[Hx|[]]]; injection Hx as -> <-; cbn [nr_node local_index] in *; [discriminate|].
      destruct (mine_at Nn E1) as (i' & Ei & _). assert (Hgg : g' = g) by (apply (mine_inj Nn E1 Hg); rewrite Ei, Hi; rewrite Ei, Nat2Z.id in M2; now subst).
      subst g'. exists j. split; [exact Hp|]. apply (@pin_iff nodes faces (g, j) r node rf face (conj E1 E2)) in Hq as (b & Hb).
      exists node, face, b. rewrite !nth_error_map, E1, E2. auto.
    - intros (j & Hp & node & face & b & A & B & Hb). rewrite nth_error_map in A, B. rewrite Hg in A. cbn in A. injection A as <-.
      destruct (nth_error faces j) as [(rf & face')|] eqn:E2; [|discriminate]. cbn in B. injection B as ->.
      assert (Hq : pin nodes faces (g, j) = true) by (apply (@pin_iff nodes faces (g, j) r e rf face (conj Hg E2)); now exists b).
      exists (NR (local_id_ e) (pforce penalty nodes faces (g, j)) (pbary nodes faces (g, j)) true). split.
      + apply (Permutation_in _ (Permutation_sym HO)). rewrite delivered_flat. apply in_flat_map. exists (g, j). split; [exact Hp|].
        unfold delivered, pair_results. cbn [fst snd]. rewrite Hg, E2, Hq. apply in_map_iff.
        exists (r, NR (local_id_ e) (pforce penalty nodes faces (g, j)) (pbary nodes faces (g, j)) true). split; [reflexivity|].
        apply filter_In. split; [right; left; reflexivity|apply Nat.eqb_refl].
      + unfold names. cbn [nr_node local_index]. rewrite Hi, Nat2Z.id, Nat.eqb_refl. reflexivity.
  Qed.
  Lemma named_face order g e i : Permutation order (delivered r (flat_map pair_results pairs)) ->
    nth_error faces g = Some (r, e) -> local_id_ e = Z.of_nat i ->
    existsb (names false i) order = true <-> exists j, In (j, g) pairs /\ touching (map snd nodes) (map snd faces) j g.
  Proof.
    intros HO Hg Hi. rewrite existsb_exists. split.
    - intros (x & Hx & Hm). apply (Permutation_in _ HO) in Hx. rewrite delivered_flat in Hx. apply in_flat_map in Hx as ((j & g') & Hp & Hx).
      unfold delivered, pair_results in Hx. cbn [fst snd] in Hx. destruct (nth_error nodes j) as [(rn & node)|] eqn:E1; [|contradiction].
      destruct (nth_error faces g') as [(rf & face)|] eqn:E2; [|contradiction]. destruct (pin nodes faces (j, g')) eqn:Hq; [|contradiction].
      apply in_map_iff in Hx as ((r' & x') & E3 & Hx). cbn in E3. subst x'. apply filter_In in Hx as (Hx & Hr). cbn in Hr. apply Nat.eqb_eq in Hr. subst r'.
      unfold names in Hm. apply andb_true_iff in Hm as (M1 & M2). apply eqb_prop in M1. apply Nat.eqb_eq in M2.
      destruct Hx as [Hx|[Hx|[]]]; injection Hx as -> <-; cbn [nr_node local_index] in *; [|discriminate].
      destruct (mine_at Nf E2) as (i' & Ei & _). assert (Hgg : g' = g) by (apply (mine_inj Nf E2 Hg); rewrite Ei, Hi; rewrite Ei, Nat2Z.id in M2; now subst).
      subst g'. exists j. split; [exact Hp|]. apply (@pin_iff nodes faces (j, g) rn node r face (conj E1 E2)) in Hq as (b & Hb).
      exists node, face, b. rewrite !nth_error_map, E1, E2. auto.
    - intros (j & Hp & node & face & b & A & B & Hb). rewrite nth_error_map in A, B. rewrite Hg in B. cbn in B. injection B as <-.
      destruct (nth_error nodes j) as [(rn & node')|] eqn:E2; [|discriminate]. cbn in A. injection A as ->.
      assert (Hq : pin nodes faces (j, g) = true) by (apply (@pin_iff nodes faces (j, g) rn node r e (conj E2 Hg)); now exists b).
      exists (NR (local_id_ e) (pforce penalty nodes faces (j, g)) (pbary nodes faces (j, g)) false). split.
      + apply (Permutation_in _ (Permutation_sym HO)). rewrite delivered_flat. apply in_flat_map. exists (j, g). split; [exact Hp|].
        unfold delivered, pair_results. cbn [fst snd]. rewrite Hg, E2, Hq. apply in_map_iff.
        exists (r, NR (local_id_ e) (pforce penalty nodes faces (j, g)) (pbary nodes faces (j, g)) false). split; [reflexivity|].
        apply filter_In. split; [left; reflexivity|apply Nat.eqb_refl].
      + unfold names. cbn [nr_node local_index]. rewrite Hi, Nat2Z.id, Nat.eqb_refl. reflexivity.
  Qed.
End Pairs.

(** *** Property C85 *)
(** Every rank's force is the sum of the node halves and the face halves of all reported pairs whose node or
    face it owns, whatever the order in which the library hands out the results, and the statuses are those
    of the entities that touch. *)
Theorem C85_bvh_forces penalty nodes faces pairs :
  Forall (fun n => entity_type_ (snd n) = NODE) nodes -> Forall (fun f => entity_type_ (snd f) = TRIANGLE) faces ->
  numbered nodes -> numbered faces ->
  Forall (fun p => (fst p < length nodes)%nat /\ (snd p < length faces)%nat) pairs ->
  exists results, all_results penalty nodes faces pairs = Ok results /\
  forall r order, Permutation order (delivered r results) ->
  exists s, bvh_enforce nodes faces r order = Ok s /\
    (forall k, exists vs ws,
       Forall2 (fun p v => forall rn node rf face, pair_at nodes faces p rn node rf face -> (rn = r -> node_half penalty node face k v) /\ (rn <> r -> v = vzero)) pairs vs /\
       Forall2 (fun p w => forall rn node rf face, pair_at nodes faces p rn node rf face -> (rf = r -> face_half penalty node face k w) /\ (rf <> r -> w = vzero)) pairs ws /\
       node_vec (cs_force s) k = vadd (vsum vs) (vsum ws)) /\
    (forall g e, nth_error nodes g = Some (r, e) -> exists e', nth_error (cs_nodes s) (Z.to_nat (local_id_ e)) = Some e' /\
       (contact_status_ e' = true <-> exists j, In (g, j) pairs /\ touching (map snd nodes) (map snd faces) g j)) /\
    (forall g e, nth_error faces g = Some (r, e) -> exists e', nth_error (cs_faces s) (Z.to_nat (local_id_ e)) = Some e' /\
       (contact_status_ e' = true <-> exists j, In (j, g) pairs /\ touching (map snd nodes) (map snd faces) j g)).
Proof.
  intros Hn Hf Nn Nf HP. exists (flat_map (pair_results penalty nodes faces) pairs). split; [now apply all_results_eq|].
  intros r order HO. destruct (@rank_main penalty nodes faces pairs Hn Hf Nn Nf r order HO) as (s & E & G & P1 & P2).
  exists s. split; [exact E|]. split; [|split].
  - intros k. exists (map (nside penalty nodes faces r k) pairs), (map (fside penalty nodes faces r k) pairs). split; [|split; [|apply G]].
    + clear. induction pairs as [|p l IH]; cbn [map]; constructor; [|exact IH]. intros rn node rf face PA. pose proof PA as (E1 & E2). unfold nside. rewrite E1. destruct (Nat.eqb_spec rn r) as [->|Hne]; [|split; [contradiction|reflexivity]].
      split; [intros _|contradiction]. pose proof (@halves penalty nodes faces p r node rf face PA (fun _ => - hit (node_id_for_node_1_ node) k)) as HH. unfold node_half.
      destruct (pin nodes faces p) eqn:EP; [exact HH|]. rewrite pforce_out, vscal_zero by exact EP. exact HH.
    + clear. induction pairs as [|p l IH]; cbn [map]; constructor; [|exact IH]. intros rn node rf face PA. pose proof PA as (E1 & E2). unfold fside. rewrite E2. destruct (Nat.eqb_spec rf r) as [->|Hne]; [|split; [contradiction|reflexivity]].
      split; [intros _|contradiction]. cbn [andb]. exact (@halves penalty nodes faces p rn node r face PA (fun b => share face b k)).
  - intros g e Hg. destruct (mine_at Nn Hg) as (i & Ei & Hi). rewrite Ei, Nat2Z.id.
    destruct (proj2 P1 i _ (@N_at nodes r _ _ Hi)) as (e' & A & _ & B). exists e'. split; [exact A|]. rewrite B. cbn [reset_node snd with_status contact_status_ orb].
    now apply (@named_node penalty nodes faces pairs Nn r order g e i).
  - intros g e Hg. destruct (mine_at Nf Hg) as (i & Ei & Hi). rewrite Ei, Nat2Z.id.
    destruct (proj2 P2 i _ (@F_at faces r _ _ Hi)) as (e' & A & _ & B). exists e'. split; [exact A|]. rewrite B. cbn [reset_face snd with_status contact_status_ orb].
    now apply (@named_face penalty nodes faces pairs Nf r order g e i).
Qed.

(** The forces of all ranks together sum to zero, also when a pair is reported more than once *)
Theorem C85_bvh_action_reaction penalty nodes faces pairs (num_nodes : nat -> nat) ranks :
  Forall (fun n => (fst n < ranks)%nat /\ node_of_submodel (num_nodes (fst n)) (snd n)) nodes ->
  Forall (fun f => (fst f < ranks)%nat /\ face_of_submodel (num_nodes (fst f)) (snd f)) faces ->
  numbered nodes -> numbered faces ->
  Forall (fun p => (fst p < length nodes)%nat /\ (snd p < length faces)%nat) pairs ->
  exists results, all_results penalty nodes faces pairs = Ok results /\
  forall order, (forall r, Permutation (order r) (delivered r results)) ->
  exists s, (forall r, bvh_enforce nodes faces r (order r) = Ok (s r)) /\
    vsum (map (fun r => total_force (num_nodes r) (cs_force (s r))) (seq 0 ranks)) = vzero.
Proof.
  intros Hn Hf Nn Nf HP.
  assert (Hn' : Forall (fun n => entity_type_ (snd n) = NODE) nodes) by (eapply Forall_impl; [|exact Hn]; intros n H; apply H).
  assert (Hf' : Forall (fun f => entity_type_ (snd f) = TRIANGLE) faces) by (eapply Forall_impl; [|exact Hf]; intros f H; apply H).
  exists (flat_map (pair_results penalty nodes faces) pairs). split; [now apply all_results_eq|]. intros order HO.
  pose (dflt := CS [] [] zero_force). pose (s := fun r => match bvh_enforce nodes faces r (order r) with Ok x => x | _ => dflt end).
  assert (Hs : forall r, bvh_enforce nodes faces r (order r) = Ok (s r) /\
     forall k, node_vec (cs_force (s r)) k = vadd (vsum (map (nside penalty nodes faces r k) pairs)) (vsum (map (fside penalty nodes faces r k) pairs))).
  { intros r. destruct (@rank_main penalty nodes faces pairs Hn' Hf' Nn Nf r (order r) (HO r)) as (x & E & G & _). unfold s. rewrite E. auto. }
  exists s. split; [intros r; apply Hs|]. rewrite Forall_forall in Hn, Hf.
  rewrite (@vsum_map_ext _ (fun r => total_force (num_nodes r) (cs_force (s r))) (fun r => vsum (map (fun p => vadd (vsum_nodes (num_nodes r) (fun k => nside penalty nodes faces r k p)) (vsum_nodes (num_nodes r) (fun k => fside penalty nodes faces r k p))) pairs))).
  - rewrite <- (vsum_nodes_list ranks (fun r => vsum (map (fun p => vadd (vsum_nodes (num_nodes r) (fun k => nside penalty nodes faces r k p)) (vsum_nodes (num_nodes r) (fun k => fside penalty nodes faces r k p))) pairs))).
    rewrite (vsum_nodes_vsum ranks (fun r p => vadd (vsum_nodes (num_nodes r) (fun k => nside penalty nodes faces r k p)) (vsum_nodes (num_nodes r) (fun k => fside penalty nodes faces r k p)))).
    apply vsum_all_zero. apply Forall_forall. intros p Hi. destruct (@pres_at nodes faces pairs HP p Hi) as (rn & node & rf & face & (E1 & E2) & _).
    destruct (Hn _ (nth_error_In _ _ E1)) as (R1 & _ & N1). destruct (Hf _ (nth_error_In _ _ E2)) as (R2 & F2). cbn [fst snd] in *. destruct (face_sub_parts F2) as (A & B & C & D).
    rewrite vsum_nodes_add. rewrite !vsum_nodes_list.
    rewrite (@vsum_map_ext _ _ (fun r => if Nat.eqb rn r then vscal (-1) (pforce penalty nodes faces p) else vzero)).
    + rewrite vsum_ranks_pick by exact R1.
      rewrite (@vsum_map_ext _ _ (fun r => if Nat.eqb rf r then pforce penalty nodes faces p else vzero)).
      * rewrite vsum_ranks_pick by exact R2. apply V3_eq; unfold vadd, vscal, vzero; cbn [vx vy vz]; ring.
      * intros r _. unfold fside. rewrite E2. destruct (Nat.eqb_spec rf r) as [->|Hne]; cbn [andb]; [|apply vsum_nodes_zero].
        destruct (pin nodes faces p) eqn:EP; [|rewrite pforce_out by exact EP; apply vsum_nodes_zero].
        rewrite (@vsum_share (num_nodes r) face (pbary nodes faces p) (fun _ => pforce penalty nodes faces p) A B C).
        pose proof (@bary_one nodes faces pairs HP p Hi EP) as S1. unfold bary_sum in S1.
        destruct (node_ids_for_fictitious_node_ face) as [|a [|b [|c [|d [|]]]]]; try discriminate D. cbn [map vsum fold_right].
        set (Fo := pforce penalty nodes faces p). set (b0 := pbary nodes faces p) in *. assert (X : vx b0 = 1 - vy b0 - vz b0) by lra.
        apply V3_eq; unfold vadd, vscal, vzero; cbn [vx vy vz]; rewrite X; field.
    + intros r _. unfold nside. rewrite E1. destruct (Nat.eqb_spec rn r) as [->|Hne]; [|apply vsum_nodes_zero].
      rewrite (@vsum_nodes_ext (num_nodes r) _ (fun k => vscal (hit (node_id_for_node_1_ node) k) (vscal (-1) (pforce penalty nodes faces p)))).
      * now rewrite (vsum_hit (fun _ => vscal (-1) (pforce penalty nodes faces p)) N1).
      * intros k _. apply V3_eq; unfold vscal; cbn [vx vy vz]; ring.
  - intros r _. unfold total_force. rewrite (@vsum_nodes_ext (num_nodes r) _ (fun k => vadd (vsum (map (nside penalty nodes faces r k) pairs)) (vsum (map (fside penalty nodes faces r k) pairs))) (fun k _ => proj2 (Hs r) k)).
    rewrite vsum_nodes_add, !vsum_nodes_vsum, vsum_map_add. reflexivity.
Qed.

(** Two ranks: a node of rank 1 (below) touches a face of rank 0, and the pair is reported twice *)
Definition nodeE : nat * entity := (1%nat, make_node 9 0 (mkV3 (1 / 4) (1 / 2) (-1 / 10)) 1 6).
Definition faceE : nat * entity := (0%nat, make_triangle 1 0 (mkV3 0 0 0) (mkV3 1 0 0) (mkV3 0 1 0) 1 0 1 [2; 3; 4; 5]%nat).
Lemma numbered_single r e : local_id_ e = 0%Z -> numbered [(r, e)].
Proof.
  intros H r' i e' Hi. cbn [filter fst] in Hi. destruct (Nat.eqb r r'); cbn in Hi; [|destruct i; discriminate].
  destruct i as [|i]; cbn in Hi; [injection Hi as <-; exact H|destruct i; discriminate].
Qed.
Example C85_bvh_used :
  Forall (fun n => (fst n < 2)%nat /\ node_of_submodel 7 (snd n)) [nodeE] /\
  Forall (fun f => (fst f < 2)%nat /\ face_of_submodel 7 (snd f)) [faceE] /\
  numbered [nodeE] /\ numbered [faceE] /\
  Forall (fun p : nat * nat => (fst p < length [nodeE])%nat /\ (snd p < length [faceE])%nat) [(0, 0); (0, 0)]%nat /\
  touching (map snd [nodeE]) (map snd [faceE]) 0 0 /\
  exists results, all_results 100 [nodeE] [faceE] [(0, 0); (0, 0)]%nat = Ok results /\
    length (delivered 1 results) = 2%nat /\ length (delivered 0 results) = 2%nat.
Proof.
  assert (T : touching (map snd [nodeE]) (map snd [faceE]) 0 0).
  { exists (snd nodeE), (snd faceE), (mkV3 (1 / 4) (1 / 4) (1 / 2)). split; [reflexivity|]. split; [reflexivity|].
    apply (@PropContact.node0_penetrates (-1 / 10) 6 0 1). lra. }
  assert (N1 : numbered [nodeE]) by (now apply numbered_single).
  assert (N2 : numbered [faceE]) by (now apply numbered_single).
  assert (P : Forall (fun p : nat * nat => (fst p < length [nodeE])%nat /\ (snd p < length [faceE])%nat) [(0, 0); (0, 0)]%nat) by (repeat constructor).
  split; [repeat constructor; cbn; lia|].
  split; [repeat constructor; cbn; lia|].
  split; [exact N1|]. split; [exact N2|]. split; [exact P|]. split; [exact T|].
  eexists. split; [apply (@all_results_eq 100 [nodeE] [faceE] [(0, 0); (0, 0)]%nat P)|].
  assert (Q : pin [nodeE] [faceE] (0, 0)%nat = true).
  { destruct T as (n & f & b & A & B & C). apply (@pin_iff [nodeE] [faceE] (0, 0)%nat 1 (snd nodeE) 0 (snd faceE) (conj eq_refl eq_refl)).
    cbn in A, B. injection A as <-. injection B as <-. now exists b. }
  assert (E : pair_results 100 [nodeE] [faceE] (0, 0)%nat = [(0%nat, NR 0 (pforce 100 [nodeE] [faceE] (0, 0)%nat) (pbary [nodeE] [faceE] (0, 0)%nat) false); (1%nat, NR 0 (pforce 100 [nodeE] [faceE] (0, 0)%nat) (pbary [nodeE] [faceE] (0, 0)%nat) true)]).
  { unfold pair_results. cbn [fst snd nth_error]. rewrite Q. reflexivity. }
  cbn [flat_map]. rewrite E. split; reflexivity.
Qed.

(** *** The entities the manager creates (C57) meet these hypotheses *)
(** [sm] is what CreateContactEntities makes on a rank whose skins are quadrilaterals of its own mesh *)
Definition created (rank : nat) (sm : submodel) : Prop :=
  exists boundary global_ids x y z primary face_ids secondary junk1 junk2,
    length (snd boundary) = length (fst boundary) /\ length face_ids = length primary /\
    (forall f, In f primary -> length f = 4%nat) /\ (forall n, node_of secondary n -> (n < length global_ids)%nat) /\
    create_submodel rank boundary global_ids x y z primary face_ids secondary junk1 junk2 = Ok sm.
(** the entities of all ranks, rank by rank *)
Fixpoint owned_from (r0 : nat) (lists : list (list entity)) : list (nat * entity) :=
  match lists with [] => [] | l :: rest => map (pair r0) l ++ owned_from (S r0) rest end.
Definition owned (lists : list (list entity)) := owned_from 0 lists.

Lemma mine_own r l : mine r (map (pair r) l) = l.
Proof. unfold mine. induction l as [|e l IH]; [reflexivity|]. cbn [map filter fst]. rewrite Nat.eqb_refl. cbn [map snd]. now rewrite IH. Qed.
Lemma mine_other r r' l : r' <> r -> mine r (map (pair r') l) = [].
Proof. intros H. unfold mine. induction l as [|e l IH]; [reflexivity|]. cbn [map filter fst]. destruct (Nat.eqb_spec r' r); [contradiction|exact IH]. Qed.
Lemma mine_app r l l' : mine r (l ++ l') = mine r l ++ mine r l'.
Proof. unfold mine. now rewrite filter_app, map_app. Qed.
Lemma mine_before lists : forall r0 r, (r < r0)%nat -> mine r (owned_from r0 lists) = [].
Proof.
  induction lists as [|l rest IH]; intros r0 r H; [reflexivity|]. cbn [owned_from]. rewrite mine_app, mine_other by lia. apply IH. lia.
Qed.
Lemma mine_owned lists : forall r0 i, mine (r0 + i) (owned_from r0 lists) = match nth_error lists i with Some l => l | None => [] end.
Proof.
  induction lists as [|l rest IH]; intros r0 i; [destruct i; reflexivity|]. cbn [owned_from]. rewrite mine_app. destruct i as [|i]; cbn [nth_error].
  - rewrite Nat.add_0_r, mine_own, mine_before by lia. apply app_nil_r.
  - rewrite mine_other by lia. replace (r0 + S i)%nat with (S r0 + i)%nat by lia. apply IH.
Qed.
Lemma owned_In lists : forall r0 r e, In (r, e) (owned_from r0 lists) -> exists i l, r = (r0 + i)%nat /\ nth_error lists i = Some l /\ In e l.
Proof.
  induction lists as [|l rest IH]; intros r0 r e H; [destruct H|]. cbn [owned_from] in H. apply in_app_or in H as [H|H].
  - apply in_map_iff in H as (x & E & Hx). injection E as <- <-. exists 0%nat, l. split; [lia|]. auto.
  - destruct (IH _ _ _ H) as (i & l' & -> & A & B). exists (S i), l'. split; [lia|]. auto.
Qed.

Theorem C85_created_entities : forall sms,
  (forall r sm, nth_error sms r = Some sm -> created r sm) ->
  let num_nodes r := match nth_error sms r with Some sm => length (sm_node_ids sm) | None => 0%nat end in
  let nodes := owned (map sm_nodes sms) in let faces := owned (map sm_faces sms) in
  Forall (fun n => (fst n < length sms)%nat /\ node_of_submodel (num_nodes (fst n)) (snd n)) nodes /\
  Forall (fun f => (fst f < length sms)%nat /\ face_of_submodel (num_nodes (fst f)) (snd f)) faces /\
  numbered nodes /\ numbered faces.
Proof.
  intros sms H num_nodes nodes faces.
  assert (Fit : forall r sm, nth_error sms r = Some sm -> Forall (node_of_submodel (num_nodes r)) (sm_nodes sm) /\ Forall (face_of_submodel (num_nodes r)) (sm_faces sm)).
  { intros r sm E. unfold num_nodes. rewrite E. destruct (H r sm E) as (b & g & x & y & z & p & fi & s & j1 & j2 & A & B & C & D & F).
    destruct (@PropSubmodel.C57_entities_fit r b g x y z p fi s j1 j2 sm A B C D F) as (_ & _ & X & Y). auto. }
  assert (Num : forall r sm, nth_error sms r = Some sm ->
    (forall i e, nth_error (sm_nodes sm) i = Some e -> local_id_ e = Z.of_nat i) /\ (forall i e, nth_error (sm_faces sm) i = Some e -> local_id_ e = Z.of_nat i)).
  { intros r sm E. destruct (H r sm E) as (b & g & x & y & z & p & fi & s & j1 & j2 & A & B & C & D & F).
    destruct (@PropSubmodel.C57_submodel r b g x y z p fi s j1 j2 A B C D) as (sm' & E' & _ & _ & _ & L & T & _ & _ & N).
    assert (sm' = sm) by congruence. subst sm'. split.
    - intros i e Hi. destruct (N i e Hi) as (_ & _ & _ & _ & _ & X). exact X.
    - intros q e Hq. assert (Lq : (q < 4 * length p)%nat) by (rewrite <- L; apply nth_error_Some; congruence).
      assert (Eq4 : q = (4 * (q / 4) + q mod 4)%nat) by (apply Nat.div_mod; lia). assert (Lt : (q mod 4 < 4)%nat) by (apply Nat.mod_upper_bound; lia).
      destruct (nth_error p (q / 4)) as [face|] eqn:Ef; [|apply nth_error_None in Ef; lia].
      destruct (nth_error fi (q / 4)) as [id|] eqn:Eid; [|apply nth_error_None in Eid; lia].
      destruct (T (q / 4)%nat (q mod 4)%nat face id Ef Eid Lt) as (e' & Ee & _ & _ & X). rewrite <- Eq4 in Ee, X. congruence. }
  assert (At : forall (f : submodel -> list entity) n, In n (owned (map f sms)) -> exists sm, nth_error sms (fst n) = Some sm /\ In (snd n) (f sm)).
  { intros f (r & e) Hn. destruct (owned_In _ _ _ _ Hn) as (i & l & -> & A & B). rewrite nth_error_map in A. cbn [fst snd Nat.add].
    destruct (nth_error sms i) as [sm|]; [|discriminate]. cbn in A. injection A as <-. now exists sm. }
  assert (Nb : forall f : submodel -> list entity, (forall r sm, nth_error sms r = Some sm -> forall i e, nth_error (f sm) i = Some e -> local_id_ e = Z.of_nat i) -> numbered (owned (map f sms))).
  { intros f Hf r i e Hi. change (nth_error (mine (0 + r) (owned_from 0 (map f sms))) i = Some e) in Hi. rewrite mine_owned, nth_error_map in Hi.
    destruct (nth_error sms r) as [sm|] eqn:E; cbn in Hi; [now apply (Hf r sm E)|destruct i; discriminate]. }
  split; [|split; [|split]].
  - apply Forall_forall. intros n Hn. destruct (At sm_nodes n Hn) as (sm & E & Hi). split; [apply nth_error_Some; congruence|].
    destruct (Fit _ _ E) as (X & _). rewrite Forall_forall in X. now apply X.
  - apply Forall_forall. intros n Hn. destruct (At sm_faces n Hn) as (sm & E & Hi). split; [apply nth_error_Some; congruence|].
    destruct (Fit _ _ E) as (_ & X). rewrite Forall_forall in X. now apply X.
  - apply Nb. intros r sm E. apply (Num r sm E).
  - apply Nb. intros r sm E. apply (Num r sm E).
Qed.
Print Assumptions C85_bvh_forces.
Print Assumptions C85_bvh_action_reaction.
Print Assumptions C85_created_entities.

(** Two ranks: a face on rank 0, four contact nodes on rank 1 *)
Example C85_created_used : exists sms, (forall r sm, nth_error sms r = Some sm -> created r sm) /\
  length (owned (map sm_faces sms)) = 4%nat /\ owned (map sm_nodes sms) <> [].
Proof.
  pose (x := fun n : nat => INR n). pose (face := [0; 1; 2; 3]%nat).
  assert (N : forall l n, node_of l n -> l = [] \/ l = [face] -> (n < length [10; 11; 12; 13]%Z)%nat).
  { intros l n (f & Hf & Hn) [-> | ->]; [destruct Hf|]. destruct Hf as [<-|[]]. cbn in *. lia. }
  destruct (@PropSubmodel.C57_submodel 0 ([], []) [10; 11; 12; 13]%Z x x x [face] [32%Z] [] x x) as (s0 & E0 & _ & _ & _ & L0 & _ & _ & A0 & _).
  { reflexivity. } { reflexivity. } { intros f [<-|[]]. reflexivity. } { intros n Hn. eapply N; eauto. }
  destruct (@PropSubmodel.C57_submodel 1 ([], []) [10; 11; 12; 13]%Z x x x [] [] [face] x x) as (s1 & E1 & _ & _ & _ & L1 & _ & _ & A1 & _).
  { reflexivity. } { reflexivity. } { intros f []. } { intros n Hn. eapply N; eauto. }
  exists [s0; s1]. split; [|split].
  - intros [|[|r]] sm E; [| |destruct r; discriminate]; injection E as <-.
    + exists ([], []), [10; 11; 12; 13]%Z, x, x, x, [face], [32%Z], [], x, x. repeat split; auto; [intros f [<-|[]]; reflexivity|intros n Hn; eapply N; eauto].
    + exists ([], []), [10; 11; 12; 13]%Z, x, x, x, [], [], [face], x, x. repeat split; auto; [intros f []|intros n Hn; eapply N; eauto].
  - cbn [map owned owned_from]. rewrite !app_length, !map_length, L0, L1. reflexivity.
  - destruct (proj1 (A1 0%nat)) as (e & He & _).
    { split; [exists face; cbn; auto|]. intros (i & m & F & _). destruct i; discriminate. }
    intros E. unfold owned in E. cbn [map owned_from] in E. apply app_eq_nil in E as (_ & E). apply app_eq_nil in E as (E & _).
    destruct (sm_nodes s1); [destruct He|discriminate].
Qed.

(** The two parallel back ends exert the same forces: if they find the same pairs, in whatever order, and
    none twice, then every node of every rank gets the same force from both. *)
Theorem C85_same_as_arborx penalty nodes faces pairs pairs' : 0 < penalty ->
  Forall (fun n => entity_type_ (snd n) = NODE) nodes -> Forall (fun f => entity_type_ (snd f) = TRIANGLE) faces ->
  numbered nodes -> numbered faces ->
  Forall (fun p => (fst p < length nodes)%nat /\ (snd p < length faces)%nat) pairs ->
  NoDup pairs -> Permutation pairs pairs' ->
  exists nodes' faces' force results,
    parallel_contact penalty nodes faces pairs = Ok (nodes', faces', force) /\
    all_results penalty nodes faces pairs' = Ok results /\
    forall r order, Permutation order (delivered r results) ->
    exists s, bvh_enforce nodes faces r order = Ok s /\ forall k, node_vec (cs_force s) k = node_vec (force r) k.
Proof.
  intros Hp Hn Hf Nn Nf HP HD HQ.
  assert (HP' : Forall (fun p => (fst p < length nodes)%nat /\ (snd p < length faces)%nat) pairs') by (eapply Permutation_Forall; eauto).
  destruct (@parallel_main penalty nodes faces pairs Hp Hn Hf HP pairs HD (fun p => iff_refl _)) as (nodes' & faces' & force & E & HF & _).
  exists nodes', faces', force, (flat_map (pair_results penalty nodes faces) pairs'). split; [exact E|]. split; [now apply all_results_eq|].
  intros r order HO. destruct (@rank_main penalty nodes faces pairs' Hn Hf Nn Nf r order HO) as (s & Es & G & _).
  exists s. split; [exact Es|]. intros k. rewrite G, HF.
  rewrite (vsum_perm (Permutation_map (nside penalty nodes faces r k) HQ)), (vsum_perm (Permutation_map (fside penalty nodes faces r k) HQ)). reflexivity.
Qed.
Print Assumptions C85_same_as_arborx.

(** One rank that owns everything gets what the serial back end computes, for the same reports (also with
    repetitions) in any order. *)
Definition alone (l : list entity) : list (nat * entity) := map (pair 0%nat) l.
Lemma contrib_sides penalty nodes faces k p :
  contrib penalty nodes faces k p = vadd (nside penalty (alone nodes) (alone faces) 0 k p) (fside penalty (alone nodes) (alone faces) 0 k p).
Proof.
  unfold contrib, pair_result, nside, fside, pin, pforce, pbary, pres, alone. rewrite !nth_error_map.
  destruct (nth_error nodes (fst p)) as [n|]; cbn [option_map]; destruct (nth_error faces (snd p)) as [f|]; cbn [option_map fst snd Nat.eqb andb].
  2:{ rewrite vscal_zero. symmetry. apply vadd_zero. }
  2,3: symmetry; apply vadd_zero.
  destruct (pr_in _).
  - unfold pair_add. apply V3_eq; unfold vadd, vscal; cbn [vx vy vz]; ring.
  - rewrite vscal_zero. symmetry. apply vadd_zero.
Qed.
Theorem C85_same_as_serial penalty nodes faces pairs pairs' : 0 < penalty ->
  Forall (fun e => entity_type_ e = NODE) nodes -> Forall (fun e => entity_type_ e = TRIANGLE) faces ->
  (forall i e, nth_error nodes i = Some e -> local_id_ e = Z.of_nat i) ->
  (forall i e, nth_error faces i = Some e -> local_id_ e = Z.of_nat i) ->
  Forall (fun p => (fst p < length nodes)%nat /\ (snd p < length faces)%nat) pairs -> Permutation pairs pairs' ->
  exists s results, serial_contact penalty nodes faces pairs = Ok s /\
    all_results penalty (alone nodes) (alone faces) pairs' = Ok results /\
    forall order, Permutation order (delivered 0 results) ->
    exists s', bvh_enforce (alone nodes) (alone faces) 0 order = Ok s' /\
      (forall k, node_vec (cs_force s') k = node_vec (cs_force s) k) /\
      (forall i e, nth_error (cs_nodes s) i = Some e -> exists e', nth_error (cs_nodes s') i = Some e' /\ contact_status_ e' = contact_status_ e) /\
      (forall j e, nth_error (cs_faces s) j = Some e -> exists e', nth_error (cs_faces s') j = Some e' /\ contact_status_ e' = contact_status_ e).
Proof.
  intros Hp Hn Hf Nn Nf HP HQ.
  assert (Hn' : Forall (fun n => entity_type_ (snd n) = NODE) (alone nodes)) by (apply Forall_map; exact Hn).
  assert (Hf' : Forall (fun n => entity_type_ (snd n) = TRIANGLE) (alone faces)) by (apply Forall_map; exact Hf).
  assert (Num : forall l, (forall i e, nth_error l i = Some e -> local_id_ e = Z.of_nat i) -> numbered (alone l)).
  { intros l H r i e Hi. change (nth_error (mine r (map (pair 0%nat) l)) i = Some e) in Hi.
    destruct (Nat.eq_dec 0 r) as [<-|Hr]; [rewrite mine_own in Hi; now apply H|rewrite mine_other in Hi by exact Hr; destruct i; discriminate]. }
  assert (HP' : Forall (fun p => (fst p < length (alone nodes))%nat /\ (snd p < length (alone faces))%nat) pairs').
  { unfold alone. rewrite !map_length. eapply Permutation_Forall; eauto. }
  destruct (@serial_run penalty nodes faces Hf Hp pairs HP) as (s & E & (L1 & L2) & I1 & I2 & I3).
  exists s, (flat_map (pair_results penalty (alone nodes) (alone faces)) pairs'). split; [exact E|]. split; [now apply all_results_eq|].
  intros order HO. destruct (@rank_main penalty (alone nodes) (alone faces) pairs' Hn' Hf' (Num _ Nn) (Num _ Nf) 0 order HO) as (s' & Es & G & P1 & P2).
  exists s'. split; [exact Es|].
  assert (TM : forall l, map snd (alone l) = l) by (intros l; unfold alone; rewrite map_map; apply map_id).
  split; [|split].
  - intros k. rewrite G, I3, (vsum_perm (Permutation_map (contrib penalty nodes faces k) HQ)), <- vsum_map_add.
    f_equal. apply map_ext. intros p. symmetry. apply contrib_sides.
  - intros i e' He'. assert (Li : (i < length nodes)%nat) by (rewrite <- L1; apply nth_error_Some; congruence).
    destruct (nth_error nodes i) as [e|] eqn:En; [|apply nth_error_None in En; lia].
    assert (Hm : nth_error (mine 0 (alone nodes)) i = Some e) by (unfold alone; now rewrite mine_own).
    destruct (proj2 P1 i _ (@N_at (alone nodes) 0 _ _ Hm)) as (x & A & _ & B). exists x. split; [exact A|]. rewrite B.
    rewrite (I1 _ _ En) in He'. injection He' as <-. cbn [reset_node snd with_status contact_status_ orb].
    assert (Hg : nth_error (alone nodes) i = Some (0%nat, e)) by (unfold alone; now rewrite nth_error_map, En).
    apply eq_true_iff_eq. rewrite (@named_node penalty (alone nodes) (alone faces) pairs' (Num _ Nn) 0 order i e i HO Hg (Nn _ _ En)), node_on_touch, !TM.
    split; intros (j & Hj & T); exists j; (split; [|exact T]); [exact (Permutation_in _ (Permutation_sym HQ) Hj)|exact (Permutation_in _ HQ Hj)].
  - intros i e' He'. assert (Li : (i < length faces)%nat) by (rewrite <- L2; apply nth_error_Some; congruence).
    destruct (nth_error faces i) as [e|] eqn:En; [|apply nth_error_None in En; lia].
    assert (Hm : nth_error (mine 0 (alone faces)) i = Some e) by (unfold alone; now rewrite mine_own).
    destruct (proj2 P2 i _ (@F_at (alone faces) 0 _ _ Hm)) as (x & A & _ & B). exists x. split; [exact A|]. rewrite B.
    rewrite (I2 _ _ En) in He'. injection He' as <-. cbn [reset_face snd with_status contact_status_ orb].
    assert (Hg : nth_error (alone faces) i = Some (0%nat, e)) by (unfold alone; now rewrite nth_error_map, En).
    apply eq_true_iff_eq. rewrite (@named_face penalty (alone nodes) (alone faces) pairs' (Num _ Nf) 0 order i e i HO Hg (Nf _ _ En)), face_on_touch, !TM.
    split; intros (j & Hj & T); exists j; (split; [|exact T]); [exact (Permutation_in _ (Permutation_sym HQ) Hj)|exact (Permutation_in _ HQ Hj)].
Qed.
Print Assumptions C85_same_as_serial.

(** *** The force on the mesh does not depend on how the entities are distributed *)
(** the entity with its node ids renamed *)
Definition relabel (g : nat -> nat) (e : entity) : entity :=
  Entity (entity_type_ e) (num_nodes_ e) (coord_1 e) (coord_2 e) (coord_3 e) (force_1 e) (force_2 e) (force_3 e) (inflation_factor e) (char_len_ e)
    (bounding_box_min e) (bounding_box_max e) (centroid_ e) (g (node_id_for_node_1_ e)) (g (node_id_for_node_2_ e))
    (map g (node_ids_for_fictitious_node_ e)) (contact_entity_global_id_ e) (local_id_ e) (contact_status_ e).
(** the same entities on one rank that has the whole mesh; [g r k] is the mesh node of node k of rank r *)
Definition whole (g : nat -> nat -> nat) (l : list (nat * entity)) : list entity := map (fun x => relabel (g (fst x)) (snd x)) l.

Lemma vsum_hit_scal (g : nat -> nat) G F l : vsum (map (fun a => vscal (hit (g a) G) F) l) = vscal (fold_right Rplus 0 (map (fun a => hit a G) (map g l))) F.
Proof.
  induction l as [|a l IH]; cbn [map vsum fold_right]; [symmetry; apply vscal_zero_l || (apply V3_eq; unfold vscal, vzero; cbn [vx vy vz]; ring)|].
  change (vadd (vscal (hit (g a) G) F) (vsum (map (fun a => vscal (hit (g a) G) F) l)) = vscal (hit (g a) G + fold_right Rplus 0 (map (fun a0 => hit a0 G) (map g l))) F).
  rewrite IH. apply V3_eq; unfold vscal, vadd; cbn [vx vy vz]; ring.
Qed.
Section Whole.
  Variable penalty : R.
  Variables nodes faces : list (nat * entity).
  Variable g : nat -> nat -> nat.
  Variable num_nodes : nat -> nat.
  Variable ranks : nat.
  Hypothesis Hn : forall n, In n nodes -> (fst n < ranks)%nat /\ node_of_submodel (num_nodes (fst n)) (snd n).
  Hypothesis Hf : forall f, In f faces -> (fst f < ranks)%nat /\ face_of_submodel (num_nodes (fst f)) (snd f).
  Lemma pair_whole G p rn node rf face : pair_at nodes faces p rn node rf face ->
    vsum (map (fun r => vsum_nodes (num_nodes r) (fun k => vscal (hit (g r k) G) (vadd (nside penalty nodes faces r k p) (fside penalty nodes faces r k p)))) (seq 0 ranks))
    = contrib penalty (whole g nodes) (whole g faces) G p.
  Proof.
    intros (E1 & E2). destruct (Hn _ (nth_error_In _ _ E1)) as (R1 & _ & N1). destruct (Hf _ (nth_error_In _ _ E2)) as (R2 & F2). cbn [fst snd] in *.
    destruct (face_sub_parts F2) as (A & B & C & D). set (Fo := pforce penalty nodes faces p). set (b := pbary nodes faces p).
    rewrite (@vsum_map_ext _ _ (fun r => vadd (if Nat.eqb rn r then vscal (- hit (g rn (node_id_for_node_1_ node)) G) Fo else vzero)
                                              (if Nat.eqb rf r then (if pin nodes faces p then vscal (share (relabel (g rf) face) b G) Fo else vzero) else vzero))).
    - rewrite vsum_map_add, !vsum_ranks_pick by assumption.
      unfold contrib, pair_result, whole. rewrite !nth_error_map, E1, E2. cbn [option_map fst snd].
      change (projection (relabel (g rn) node) (relabel (g rf) face) 0 vzero vzero default_tol) with (projection node face 0 vzero vzero default_tol).
      unfold Fo, b, pforce, pin, pbary, pres. rewrite E1, E2. cbn [snd]. destruct (pr_in _).
      + unfold pair_add. cbn [relabel node_id_for_node_1_]. apply V3_eq; unfold vadd, vscal; cbn [vx vy vz]; ring.
      + rewrite vscal_zero. apply vadd_zero.
    - intros r _. rewrite (@vsum_nodes_ext (num_nodes r) _ (fun k => vadd (vscal (hit (g r k) G) (nside penalty nodes faces r k p)) (vscal (hit (g r k) G) (fside penalty nodes faces r k p))))
        by (intros k _; apply V3_eq; unfold vadd, vscal; cbn [vx vy vz]; ring).
      rewrite vsum_nodes_add. f_equal.
      + unfold nside. rewrite E1. fold Fo. destruct (Nat.eqb_spec rn r) as [->|Hne].
        * rewrite (@vsum_nodes_ext (num_nodes r) _ (fun k => vscal (hit (node_id_for_node_1_ node) k) (vscal (- hit (g r k) G) Fo))) by (intros k _; apply V3_eq; unfold vscal; cbn [vx vy vz]; ring).
          apply (vsum_hit (fun k => vscal (- hit (g r k) G) Fo) N1).
        * rewrite (@vsum_nodes_ext (num_nodes r) _ (fun _ => vzero)) by (intros k _; apply vscal_zero). apply vsum_nodes_zero.
      + unfold fside. rewrite E2. fold Fo b. destruct (Nat.eqb_spec rf r) as [->|Hne]; cbn [andb].
        2:{ rewrite (@vsum_nodes_ext (num_nodes r) _ (fun _ => vzero)) by (intros k _; apply vscal_zero). apply vsum_nodes_zero. }
        destruct (pin nodes faces p).
        2:{ rewrite (@vsum_nodes_ext (num_nodes r) _ (fun _ => vzero)) by (intros k _; apply vscal_zero). apply vsum_nodes_zero. }
        rewrite (@vsum_nodes_ext (num_nodes r) _ (fun k => vscal (share face b k) (vscal (hit (g r k) G) Fo))) by (intros k _; apply V3_eq; unfold vscal; cbn [vx vy vz]; ring).
        rewrite (@vsum_share (num_nodes r) face b (fun k => vscal (hit (g r k) G) Fo) A B C), vsum_hit_scal.
        unfold share. cbn [relabel node_id_for_node_1_ node_id_for_node_2_ node_ids_for_fictitious_node_].
        apply V3_eq; unfold vadd, vscal; cbn [vx vy vz]; field.
  Qed.
End Whole.

(** Added up over the ranks' nodes that stand for a mesh node (this is what the reduction after the
    contact evaluation does), the forces are those the serial back end computes for the whole mesh. *)
Theorem C86_contact_distribution_independent penalty nodes faces pairs (g : nat -> nat -> nat) (num_nodes : nat -> nat) ranks : 0 < penalty ->
  Forall (fun n => (fst n < ranks)%nat /\ node_of_submodel (num_nodes (fst n)) (snd n)) nodes ->
  Forall (fun f => (fst f < ranks)%nat /\ face_of_submodel (num_nodes (fst f)) (snd f)) faces ->
  numbered nodes -> numbered faces ->
  Forall (fun p => (fst p < length nodes)%nat /\ (snd p < length faces)%nat) pairs ->
  exists results whole_mesh, all_results penalty nodes faces pairs = Ok results /\
  serial_contact penalty (whole g nodes) (whole g faces) pairs = Ok whole_mesh /\
  forall order, (forall r, Permutation (order r) (delivered r results)) ->
  exists s, (forall r, bvh_enforce nodes faces r (order r) = Ok (s r)) /\
    forall G, vsum (map (fun r => vsum_nodes (num_nodes r) (fun k => if Nat.eqb (g r k) G then node_vec (cs_force (s r)) k else vzero)) (seq 0 ranks))
              = node_vec (cs_force whole_mesh) G.
Proof.
  intros Hp Hn Hf Nn Nf HP.
  assert (Hn' : Forall (fun n => entity_type_ (snd n) = NODE) nodes) by (eapply Forall_impl; [|exact Hn]; intros n H; apply H).
  assert (Hf' : Forall (fun f => entity_type_ (snd f) = TRIANGLE) faces) by (eapply Forall_impl; [|exact Hf]; intros f H; apply H).
  assert (HW : Forall (fun e => entity_type_ e = TRIANGLE) (whole g faces)) by (apply Forall_map; exact Hf').
  assert (HPW : Forall (fun p => (fst p < length (whole g nodes))%nat /\ (snd p < length (whole g faces))%nat) pairs) by (unfold whole; rewrite !map_length; exact HP).
  destruct (@serial_run penalty (whole g nodes) (whole g faces) HW Hp pairs HPW) as (w & Ew & _ & _ & _ & I3).
  exists (flat_map (pair_results penalty nodes faces) pairs), w. split; [now apply all_results_eq|]. split; [exact Ew|]. intros order HO.
  pose (dflt := CS [] [] zero_force). pose (s := fun r => match bvh_enforce nodes faces r (order r) with Ok x => x | _ => dflt end).
  assert (Hs : forall r, bvh_enforce nodes faces r (order r) = Ok (s r) /\
     forall k, node_vec (cs_force (s r)) k = vadd (vsum (map (nside penalty nodes faces r k) pairs)) (vsum (map (fside penalty nodes faces r k) pairs))).
  { intros r. destruct (@rank_main penalty nodes faces pairs Hn' Hf' Nn Nf r (order r) (HO r)) as (x & E & G & _). unfold s. rewrite E. auto. }
  exists s. split; [intros r; apply Hs|]. intros G. rewrite I3.
  rewrite (@vsum_map_ext _ _ (fun r => vsum (map (fun p => vsum_nodes (num_nodes r) (fun k => vscal (hit (g r k) G) (vadd (nside penalty nodes faces r k p) (fside penalty nodes faces r k p)))) pairs))).
  - rewrite <- (vsum_nodes_list ranks (fun r => vsum (map (fun p => vsum_nodes (num_nodes r) (fun k => vscal (hit (g r k) G) (vadd (nside penalty nodes faces r k p) (fside penalty nodes faces r k p)))) pairs))).
    rewrite (vsum_nodes_vsum ranks (fun r p => vsum_nodes (num_nodes r) (fun k => vscal (hit (g r k) G) (vadd (nside penalty nodes faces r k p) (fside penalty nodes faces r k p))))).
    apply vsum_map_ext. intros p Hi. rewrite vsum_nodes_list. destruct (@pres_at nodes faces pairs HP p Hi) as (rn & node & rf & face & PA & _).
    rewrite Forall_forall in Hn, Hf. now apply (@pair_whole penalty nodes faces g num_nodes ranks Hn Hf G p rn node rf face).
  - intros r _. rewrite <- vsum_nodes_vsum. apply vsum_nodes_ext. intros k _. rewrite vsum_map_scal, vsum_map_add, <- (proj2 (Hs r) k).
    unfold hit. destruct (Nat.eqb (g r k) G); apply V3_eq; unfold vscal, vzero; cbn [vx vy vz]; ring.
Qed.
Print Assumptions C86_contact_distribution_independent.

(** Both statements' hypotheses are met by the two ranks of C85_bvh_used (there with the pair reported
    twice), where the mesh numbers rank 0's nodes 0 .. 6 and rank 1's from 7 on, say; and by one rank that
    owns both entities *)
Example C86_used : 0 < 100 /\
  (exists results whole_mesh, all_results 100 [nodeE] [faceE] [(0, 0); (0, 0)]%nat = Ok results /\
     serial_contact 100 (whole (fun r k => (7 * r + k)%nat) [nodeE]) (whole (fun r k => (7 * r + k)%nat) [faceE]) [(0, 0); (0, 0)]%nat = Ok whole_mesh) /\
  NoDup [(0, 0)%nat] /\
  (forall i e, nth_error [snd nodeE] i = Some e -> local_id_ e = Z.of_nat i) /\
  (forall i e, nth_error [snd faceE] i = Some e -> local_id_ e = Z.of_nat i).
Proof.
  assert (H0 : 0 < 100) by lra. destruct C85_bvh_used as (A & B & C & D & E & _). split; [exact H0|].
  split; [|split; [repeat constructor; intros []|]].
  - destruct (@C86_contact_distribution_independent 100 [nodeE] [faceE] [(0, 0); (0, 0)]%nat (fun r k => (7 * r + k)%nat) (fun _ => 7%nat) 2 H0 A B C D E) as (x & w & X & W & _). eauto.
  - split; intros [|i] e Hi; cbn in Hi; try (destruct i; discriminate); injection Hi as <-; reflexivity.
Qed.
