(** C57: the contact submodel. *)
From Verif Require Import Base ListLemmas Loops MpiSpec ContactModel ContactSpec ContactProofs ContactProofs2 SubmodelModel SubmodelSpec SubmodelProofs SubmodelProofs2 SubmodelProofs3.
From Coq Require Import Reals Lra Sorted.
Local Open Scope R_scope.

(** The submodel holds exactly the nodes of the contact faces, at their mesh positions; face i of the
    primary surface becomes the triangles 4i .. 4i+3; the contact nodes are exactly the nodes of the
    secondary surface that are not another rank's, each once. *)
Theorem C57_submodel : forall rank boundary global_ids x y z primary face_ids secondary junk1 junk2,
  length (snd boundary) = length (fst boundary) -> length face_ids = length primary ->
  (forall f, In f primary -> length f = 4%nat) -> (forall n, node_of secondary n -> (n < length global_ids)%nat) ->
  let pos n := mkV3 (x n) (y n) (z n) in
  exists sm, create_submodel rank boundary global_ids x y z primary face_ids secondary junk1 junk2 = Ok sm /\
  let ids := sm_node_ids sm in
  StronglySorted lt ids /\ (forall n, In n ids <-> node_of (primary ++ secondary) n) /\
  (forall j n, nth_error ids j = Some n -> node_vec (sm_coord sm) j = pos n /\ node_vec (sm_model_coord sm) j = pos n) /\
  length (sm_faces sm) = (4 * length primary)%nat /\
  (forall i t face id, nth_error primary i = Some face -> nth_error face_ids i = Some id -> (t < 4)%nat ->
    exists e, nth_error (sm_faces sm) (4 * i + t) = Some e /\ is_triangle_of ids pos face t e /\
      contact_entity_global_id_ e = Z.lor id (Z.of_nat t) /\ local_id_ e = Z.of_nat (4 * i + t)) /\
  NoDup (map node_id_for_node_1_ (sm_nodes sm)) /\
  (forall n, node_of secondary n /\ ~ foreign rank boundary n <-> exists e, In e (sm_nodes sm) /\ nth_error ids (node_id_for_node_1_ e) = Some n) /\
  (forall i e, nth_error (sm_nodes sm) i = Some e -> exists n g, nth_error global_ids n = Some g /\ is_contact_node ids pos secondary n e /\
      contact_entity_global_id_ e = (g + 1)%Z /\ local_id_ e = Z.of_nat i).
Proof. intros. now apply submodel_main. Qed.
Print Assumptions C57_submodel.

(** A primary face without four nodes stops the program *)
Theorem C57_other_faces_abort : forall rank boundary global_ids x y z primary face_ids secondary junk1 junk2,
  length (snd boundary) = length (fst boundary) -> length face_ids = length primary ->
  (exists f, In f primary /\ length f <> 4%nat) -> (forall n, node_of secondary n -> (n < length global_ids)%nat) ->
  create_submodel rank boundary global_ids x y z primary face_ids secondary junk1 junk2 = Abort.
Proof.
  intros rank boundary gids x y z primary fids secondary j1 j2 Hb Hp (f & Hf & L) Hg. unfold create_submodel.
  destruct (@ghosted_local_spec rank boundary Hb) as (gl & -> & _). cbn [obind].
  set (ids := submodel_node_ids primary secondary). pose proof (node_ids_NoDup primary secondary) as ND. fold ids in ND.
  assert (Hin : forall n, In n ids <-> node_of (primary ++ secondary) n) by (intros n; apply node_ids_In).
  destruct (@renumber_spec ids primary ND) as (primary' & Ep & Fp). { intros n H. apply Hin, node_of_app. auto. }
  destruct (@renumber_spec ids secondary ND) as (secondary' & Es & Fs). { intros n H. apply Hin, node_of_app. auto. }
  rewrite Ep. cbn [obind]. rewrite Es. cbn [obind].
  match goal with |- context [secondary_nodes ?a ?b ?c ?d ?e] => destruct (@sec_all_inv a b c (stream d e)) as (sec & Esec & I); [|rewrite secondary_stream, Esec] end.
  { intros [j l] H. unfold stream in H. apply in_flat_map in H as (f' & Hf' & H). apply in_map_iff in H as (j' & E & Hj). injection E as <- <-.
    destruct (In_nth_error _ _ Hf') as (i & Ei). destruct (@Forall2_nth_r _ _ _ _ _ _ _ Fs Ei) as (f0 & Ef & M).
    destruct (In_nth_error _ _ Hj) as (i' & Ei'). destruct (@Forall2_nth_r _ _ _ _ _ _ _ M Ei') as (n & En & Rn). exists n. split; [exact Rn|]. apply Hg. exists f0. split; eapply nth_error_In; eauto. }
  cbn [obind]. match goal with |- context [create_faces ?c _ _] => enough (E : create_faces c primary' fids = Abort) by now rewrite E end.
  unfold create_faces, oloop.
  assert (G : forall l out, (forall i, In i l -> (i < length primary')%nat) -> (exists i, In i l /\ length (nth i primary' []) <> 4%nat) ->
     ofold (fun s k => (fun i out => let face := nth i primary' [] in if negb (Nat.eqb (length face) 4) then Abort else
        let len := primary_length (submodel_coord ids x y z j2) face in do id <- vget fids i; let index := length out in
        Ok (out ++ [face_triangle (submodel_coord ids x y z j2) face id len index 0 1 0; face_triangle (submodel_coord ids x y z j2) face id len (index + 1) 1 2 1;
                    face_triangle (submodel_coord ids x y z j2) face id len (index + 2) 2 3 2; face_triangle (submodel_coord ids x y z j2) face id len (index + 3) 3 0 3])) k s) l out = Abort).
  { pose proof (@Forall2_len _ _ _ _ _ Fp) as EL.
    induction l as [|a l IH]; intros out Hl (i & Hi & Li); [destruct Hi|]. cbn [ofold].
    destruct (Nat.eqb_spec (length (nth a primary' [])) 4) as [E|N]; cbn [negb obind]; [|reflexivity].
    specialize (Hl a (or_introl eq_refl)) as Ha. unfold vget. destruct (nth_error fids a) eqn:Ea; [|apply nth_error_None in Ea; lia]. cbn [obind].
    apply IH; [intros; apply Hl; cbn; auto|]. exists i. destruct Hi as [->|Hi]; [contradiction|auto]. }
  apply G.
  - intros i Hi. apply in_seq in Hi. lia.
  - destruct (In_nth_error _ _ Hf) as (i & Ei). destruct (@Forall2_nth_l _ _ _ _ _ _ _ Fp Ei) as (f' & Ef & M). exists i.
    assert (i < length primary')%nat by (apply nth_error_Some; congruence). split; [apply in_seq; lia|]. rewrite (nth_error_nth _ _ [] Ef), <- (matches_len M). exact L.
Qed.
Print Assumptions C57_other_faces_abort.

(** The entities are positioned as the contact evaluation (C36) expects *)
Theorem C57_entities_fit : forall rank boundary global_ids x y z primary face_ids secondary junk1 junk2 sm,
  length (snd boundary) = length (fst boundary) -> length face_ids = length primary ->
  (forall f, In f primary -> length f = 4%nat) -> (forall n, node_of secondary n -> (n < length global_ids)%nat) ->
  create_submodel rank boundary global_ids x y z primary face_ids secondary junk1 junk2 = Ok sm ->
  Forall (sits_on_node (sm_coord sm) (length (sm_node_ids sm))) (sm_nodes sm) /\
  Forall (sits_on_triangle (sm_coord sm) (length (sm_node_ids sm))) (sm_faces sm) /\
  Forall (node_of_submodel (length (sm_node_ids sm))) (sm_nodes sm) /\
  Forall (face_of_submodel (length (sm_node_ids sm))) (sm_faces sm).
Proof.
  intros rank boundary gids x y z primary fids secondary j1 j2 sm Hb Hp H4 Hg E.
  destruct (@submodel_main rank boundary gids x y z primary fids secondary j1 j2 Hb Hp H4 Hg) as (sm' & E' & S1 & S2 & S3 & S4 & S5 & S6 & S7 & S8).
  assert (sm' = sm) by congruence. subst sm'. clear E'.
  assert (HN : forall e, In e (sm_nodes sm) -> sits_on_node (sm_coord sm) (length (sm_node_ids sm)) e).
  { intros e He. destruct (In_nth_error _ _ He) as (i & Ei). destruct (S8 i e Ei) as (n & g & _ & (T & _ & En & Ec & _) & _). split; [exact T|].
    split; [apply nth_error_Some; congruence|]. rewrite Ec. symmetry. now apply (S3 _ n). }
  assert (HF : forall e, In e (sm_faces sm) -> sits_on_triangle (sm_coord sm) (length (sm_node_ids sm)) e).
  { intros e He. destruct (In_nth_error _ _ He) as (q & Eq). assert (Lq : (q < 4 * length primary)%nat). { rewrite <- S4. apply nth_error_Some. congruence. }
    assert (Eq4 : q = (4 * (q / 4) + q mod 4)%nat) by (apply Nat.div_mod; lia). assert (Lt : (q mod 4 < 4)%nat) by (apply Nat.mod_upper_bound; lia).
    set (i := (q / 4)%nat) in *. set (t := (q mod 4)%nat) in *. assert (Li : (i < length primary)%nat) by lia.
    destruct (nth_error primary i) as [face|] eqn:Ef; [|apply nth_error_None in Ef; lia]. destruct (nth_error fids i) as [id|] eqn:Eid; [|apply nth_error_None in Eid; lia].
    destruct (S5 i t face id Ef Eid Lt) as (e' & Ee & (a & b & Ea & Eb & T & _ & N1 & N2 & NF & C1 & C2 & C3 & _) & _). rewrite <- Eq4 in Ee. assert (e' = e) by congruence. subst e'.
    split; [exact T|]. split; [apply nth_error_Some; congruence|]. split; [apply nth_error_Some; congruence|].
    split; [rewrite C1; symmetry; now apply (S3 _ a)|]. split; [rewrite C2; symmetry; now apply (S3 _ b)|].
    assert (L4 : length face = 4%nat) by (apply H4; eapply nth_error_In; eauto).
    destruct face as [|p [|q' [|r [|s [|]]]]]; try discriminate L4. cbn [map] in NF.
    destruct (node_ids_for_fictitious_node_ e) as [|j0 [|j1' [|j2' [|j3 [|]]]]]; try discriminate NF. cbn [map] in NF. injection NF as N_0 N_1 N_2 N_3.
    exists j0, j1', j2', j3. split; [reflexivity|]. do 4 (split; [apply nth_error_Some; congruence|]).
    rewrite (C3 p q' r s eq_refl), (proj1 (S3 _ _ N_0)), (proj1 (S3 _ _ N_1)), (proj1 (S3 _ _ N_2)), (proj1 (S3 _ _ N_3)). reflexivity. }
  rewrite !Forall_forall. split; [exact HN|]. split; [exact HF|]. split.
  - intros e He. destruct (HN e He) as (T & L & _). split; assumption.
  - intros e He. unfold face_of_submodel. destruct (HF e He) as (T & L1 & L2 & _ & _ & a & b & c & d & -> & La & Lb & Lc & Ld & _). split; [exact T|]. split; [exact L1|]. split; [exact L2|]. split; [reflexivity|]. repeat constructor; assumption.
Qed.
Print Assumptions C57_entities_fit.

(** The four triangles cover the face: their area vectors add up to those of the quadrilateral cut
    along either diagonal, whatever the four points *)
Theorem C57_triangles_cover : forall p q r s, let m := mean4 p q r s in
  let total := vadd (vadd (triangle_normal p q m) (triangle_normal q r m)) (vadd (triangle_normal r s m) (triangle_normal s p m)) in
  total = vadd (triangle_normal p q r) (triangle_normal p r s) /\ total = vadd (triangle_normal p q s) (triangle_normal q r s).
Proof.
  intros p q r s m total. unfold total, m, triangle_normal, mean4, vcross, vminus, vadd, vscal. cbn [vx vy vz].
  split; apply V3_eq; cbn [vx vy vz]; field.
Qed.
Print Assumptions C57_triangles_cover.

(** On all ranks: rank r has a contact node for mesh node g exactly when r is the lowest of the ranks
    whose mesh contains g and g is on r's own secondary surface; so no node is a contact node twice. *)
Theorem C57_owner : forall ranks, let ids := map cr_global_ids ranks in all_nodup ids ->
  (forall k, In k ranks -> length (cr_primary_ids k) = length (cr_primary k) /\ (forall f, In f (cr_primary k) -> length f = 4%nat) /\
     (forall n, node_of (cr_secondary k) n -> (n < length (cr_global_ids k))%nat)) ->
  exists sms, create_all ranks = Ok sms /\ length sms = length ranks /\
  (forall r k sm g, nth_error ranks r = Some k -> nth_error sms r = Some sm ->
    (has_contact_node (sm_nodes sm) g <->
      (exists n, nth_error (cr_global_ids k) n = Some g /\ node_of (cr_secondary k) n) /\ (forall r', holds ids r' g -> (r <= r')%nat))) /\
  (forall r r' sm sm' g, nth_error sms r = Some sm -> nth_error sms r' = Some sm' ->
    has_contact_node (sm_nodes sm) g -> has_contact_node (sm_nodes sm') g -> r = r').
Proof.
  intros ranks ids Hnd Hv. destruct (@create_all_main ranks Hnd Hv) as (sms & E & L & H). fold ids in H. exists sms. split; [exact E|]. split; [exact L|].
  assert (M : forall r k sm g, nth_error ranks r = Some k -> nth_error sms r = Some sm ->
    (has_contact_node (sm_nodes sm) g <->
      (exists n, nth_error (cr_global_ids k) n = Some g /\ node_of (cr_secondary k) n) /\ (forall r', holds ids r' g -> (r <= r')%nat))).
  { intros r k sm g Ek Esm. destruct (H r k sm Ek Esm) as (b & Lb & Ec & Hf).
    destruct (Hv k (nth_error_In _ _ Ek)) as (V1 & V2 & V3).
    destruct (@submodel_main r b (cr_global_ids k) (cr_x k) (cr_y k) (cr_z k) (cr_primary k) (cr_primary_ids k) (cr_secondary k) (cr_junk1 k) (cr_junk2 k) Lb V1 V2 V3) as (sm' & E' & _ & _ & _ & _ & _ & _ & S7 & S8).
    assert (sm' = sm) by congruence. subst sm'.
    assert (NDk : NoDup (cr_global_ids k)). { unfold all_nodup in Hnd. rewrite Forall_forall in Hnd. apply Hnd. unfold ids. apply in_map, (nth_error_In _ _ Ek). }
    assert (FN : forall n, nth_error (cr_global_ids k) n = Some g -> (~ foreign r b n <-> forall r', holds ids r' g -> (r <= r')%nat)).
    { intros n En. rewrite (Hf n g En). split.
      - intros N r' Hr. destruct (Nat.le_gt_cases r r') as [|Lt]; [assumption|]. exfalso. apply N. exists r'. auto.
      - intros A (r' & Hr & Lt). specialize (A r' Hr). lia. }
    split.
    - intros (e & He & Eg). destruct (In_nth_error _ _ He) as (i & Ei). destruct (S8 i e Ei) as (n & g' & En & (_ & _ & Eid & _) & Eg' & _). assert (g' = g) by lia. subst g'.
      destruct (proj2 (S7 n)) as (A & B). { exists e. auto. } split; [exists n; auto|]. now apply (FN n En).
    - intros ((n & En & Hn) & Hm). destruct (proj1 (S7 n)) as (e & He & Eid). { split; [exact Hn|]. now apply (FN n En). }
      exists e. split; [exact He|]. destruct (In_nth_error _ _ He) as (i & Ei). destruct (S8 i e Ei) as (n' & g' & En' & (_ & _ & Eid' & _) & Eg' & _). assert (n' = n) by congruence. subst n'. assert (g' = g) by congruence. now subst. }
  split; [exact M|]. intros r r' sm sm' g E1 E2 C1 C2.
  assert (K : forall r sm, nth_error sms r = Some sm -> exists k, nth_error ranks r = Some k).
  { intros q s Eq. destruct (nth_error ranks q) eqn:Er; [eauto|]. apply nth_error_None in Er. assert (q < length sms)%nat by (apply nth_error_Some; congruence). lia. }
  destruct (K _ _ E1) as (k & Ek). destruct (K _ _ E2) as (k' & Ek').
  pose proof (proj1 (M _ _ _ _ Ek E1) C1) as ((n & N1 & _) & P1). pose proof (proj1 (M _ _ _ _ Ek' E2) C2) as ((n' & N2 & _) & P2).
  assert (Hh : forall q kk m, nth_error ranks q = Some kk -> nth_error (cr_global_ids kk) m = Some g -> holds ids q g).
  { intros q kk m Eq Em. unfold holds, ids. assert (Q : nth_error (map cr_global_ids ranks) q = Some (cr_global_ids kk)) by now rewrite nth_error_map, Eq. rewrite (nth_error_nth _ _ [] Q). eapply nth_error_In; eauto. }
  specialize (P1 r' (Hh _ _ _ Ek' N2)). specialize (P2 r (Hh _ _ _ Ek N1)). lia.
Qed.
Print Assumptions C57_owner.

(** Refuted corner: a node on the secondary surface of the whole mesh need not be a contact node of any
    rank: rank 0 contains the node, but not in a secondary face of its own *)
Definition lost0 : contact_rank := CR [0; 1; 2; 3]%Z (fun _ => 0) (fun _ => 0) (fun _ => 0) [] [] [] (fun _ => 0) (fun _ => 0).
Definition lost1 : contact_rank := CR [0; 1; 2; 3]%Z (fun _ => 0) (fun _ => 0) (fun _ => 0) [] [] [[0; 1; 2; 3]%nat] (fun _ => 0) (fun _ => 0).
Lemma lost_valid : all_nodup (map cr_global_ids [lost0; lost1]) /\ forall k, In k [lost0; lost1] -> length (cr_primary_ids k) = length (cr_primary k) /\ (forall f, In f (cr_primary k) -> length f = 4%nat) /\
     (forall n, node_of (cr_secondary k) n -> (n < length (cr_global_ids k))%nat).
Proof.
  split.
  - assert (N : NoDup [0; 1; 2; 3]%Z) by (repeat constructor; cbn; lia). constructor; [exact N|]. constructor; [exact N|constructor].
  - intros k [<-|[<-|[]]]; cbn; (split; [reflexivity|]); (split; [intros f []|]); intros n (f & Hf & Hn).
    + destruct Hf.
    + destruct Hf as [<-|[]]. cbn in Hn. lia.
Qed.
Theorem C57_lost_node_refuted : exists ranks sms g r k n,
  all_nodup (map cr_global_ids ranks) /\ create_all ranks = Ok sms /\
  nth_error ranks r = Some k /\ nth_error (cr_global_ids k) n = Some g /\ node_of (cr_secondary k) n /\
  forall sm, In sm sms -> ~ has_contact_node (sm_nodes sm) g.
Proof.
  destruct lost_valid as (V1 & V2). destruct (C57_owner [lost0; lost1] V1 V2) as (sms & E & L & H & _).
  exists [lost0; lost1], sms, 0%Z, 1%nat, lost1, 0%nat. split; [exact V1|]. split; [exact E|]. split; [reflexivity|]. split; [reflexivity|].
  split; [exists [0; 1; 2; 3]%nat; cbn; auto|].
  intros sm Hs HC. destruct (In_nth_error _ _ Hs) as (r & Er). assert (Lr : (r < 2)%nat). { change 2%nat with (length [lost0; lost1]). rewrite <- L. apply nth_error_Some. congruence. }
  destruct r as [|[|r]]; [| |lia].
  - destruct (proj1 (H 0%nat lost0 sm 0%Z eq_refl Er) HC) as ((n & _ & f & [] & _) & _).
  - destruct (proj1 (H 1%nat lost1 sm 0%Z eq_refl Er) HC) as (_ & A). specialize (A 0%nat). assert (holds (map cr_global_ids [lost0; lost1]) 0 0%Z) by (cbn; auto). specialize (A H0). lia.
Qed.
Print Assumptions C57_lost_node_refuted.

(** A mesh that meets the hypotheses: two faces sharing an edge, one primary and one secondary, node 4
    another rank's *)
Example C57_example : let secondary := [[1; 4; 5; 2]%nat] in
  length (snd ([4], [0])%nat) = length (fst ([4], [0])%nat) /\ (forall f, In f [[0; 1; 2; 3]%nat] -> length f = 4%nat) /\
  (forall n, node_of secondary n -> (n < length [10; 11; 12; 13; 14; 15]%Z)%nat) /\
  node_of secondary 4 /\ foreign 1 ([4], [0])%nat 4 /\ node_of secondary 5 /\ ~ foreign 1 ([4], [0])%nat 5.
Proof.
  cbn zeta. split; [reflexivity|]. split; [intros f [<-|[]]; reflexivity|].
  split; [intros n (f & [<-|[]] & Hn); cbn in *; lia|]. split; [exists [1; 4; 5; 2]%nat; cbn; auto|].
  split; [exists 0%nat, 0%nat; cbn; auto|]. split; [exists [1; 4; 5; 2]%nat; cbn; auto|].
  intros (i & m & E & _). destruct i as [|[|i]]; discriminate.
Qed.
