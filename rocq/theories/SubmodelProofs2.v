From Verif Require Import Base ListLemmas Loops LinModel PatternProofs MpiModel SkinModel ContactModel ContactSpec ContactProofs ContactProofs5 ContactProofs6 SubmodelModel SubmodelSpec SubmodelProofs.
From Coq Require Import Reals Lra Sorted.
Set Implicit Arguments.
Local Open Scope R_scope.

Lemma ghosted_local_spec rank (b : list nat * list nat) : length (snd b) = length (fst b) ->
  exists gl, ghosted_node_local_ids rank (fst b) (snd b) = Ok gl /\ forall n, In n gl <-> foreign rank b n.
Proof.
  intros L. unfold ghosted_node_local_ids.
  pose (P := fun k (acc : list nat) => forall n, In n acc <-> exists i m, (i < k)%nat /\ nth_error (fst b) i = Some n /\ nth_error (snd b) i = Some m /\ m <> rank).
  match goal with |- exists gl, oloop _ _ ?f _ = _ /\ _ => assert (H : exists s', oloop 0 (length (fst b)) f [] = Ok s' /\ P (length (fst b)) s') end.
  { apply (@oloop_ind _ P); [lia| |].
    - intros n. split; [intros []|]. intros (i & m & H & _). lia.
    - intros k acc Hk IH. unfold vget.
      destruct (nth_error (snd b) k) as [m|] eqn:Em; [|apply nth_error_None in Em; lia]. cbn [obind].
      destruct (nth_error (fst b) k) as [nd|] eqn:En; [|apply nth_error_None in En; lia]. cbn [obind].
      destruct (Nat.eqb_spec m rank) as [E|N].
      + eexists. split; [reflexivity|]. intros n. rewrite (IH n). split; intros (i & m' & H1 & H2 & H3 & H4); exists i, m'; (split; [|auto]); [lia|].
        assert (i <> k) by (intros ->; congruence). lia.
      + eexists. split; [reflexivity|]. intros n. rewrite in_app_iff, (IH n). cbn [In]. split.
        * intros [(i & m' & H1 & H2)|[<-|[]]]; [exists i, m'; split; [lia|exact H2]|exists k, m; split; [lia|auto]].
        * intros (i & m' & H1 & H2 & H3 & H4). destruct (Nat.eq_dec i k) as [->|Nk]; [right; left; congruence|left; exists i, m'; split; [lia|auto]]. }
  destruct H as (gl & E & HP). exists gl. split; [exact E|]. intros n. rewrite (HP n). unfold foreign. split.
  - intros (i & m & _ & H). exists i, m. exact H.
  - intros (i & m & H). exists i, m. split; [|exact H]. apply nth_error_Some. destruct H as (-> & _). discriminate.
Qed.
Lemma ghosted_contact_spec ids gl j : NoDup ids ->
  In j (ghosted_contact_node_ids (submodel_map ids) gl) <-> exists n, In n gl /\ nth_error ids j = Some n.
Proof.
  intros ND. unfold ghosted_contact_node_ids.
  assert (G : forall acc, In j (fold_left (fun acc id => match assoc Nat.eqb id (submodel_map ids) with Some j => acc ++ [j] | None => acc end) gl acc) <-> In j acc \/ exists n, In n gl /\ nth_error ids j = Some n).
  { induction gl as [|a gl IH]; intros acc; cbn [fold_left].
    - split; [auto|]. intros [H|(n & [] & _)]; exact H.
    - rewrite IH. pose proof (submodel_map_spec ND a) as HM. destruct (assoc Nat.eqb a (submodel_map ids)) as [k|].
      + rewrite in_app_iff. cbn [In]. split.
        * intros [[H|[<-|[]]]|(n & H & E)]; [auto|right; exists a; split; [auto|now apply HM]|right; exists n; auto].
        * intros [H|(n & [<-|H] & E)]; [auto|left; right; left; apply HM in E; congruence|right; exists n; auto].
      + split.
        * intros [H|(n & H & E)]; [auto|right; exists n; cbn; auto].
        * intros [H|(n & [<-|H] & E)]; [auto|apply HM in E; discriminate|right; exists n; auto]. }
  rewrite G. cbn [In]. tauto.
Qed.
Lemma mem_In l n : mem l n = true <-> In n l.
Proof. unfold mem. rewrite existsb_exists. split; [intros (x & H & E); apply Nat.eqb_eq in E; now subst|]. intros H. exists n. split; [exact H|apply Nat.eqb_refl]. Qed.

Section Sec.
  Variables (ids gh : list nat) (gids : list Z).
  Definition sec_step (s : sec_state) (nl : nat * R) : outcome sec_state := visit_secondary_node ids gh gids (snd nl) s (fst nl).
  Definition stream (c : arr) (faces : list (list nat)) : list (nat * R) := flat_map (fun f => map (fun n => (n, secondary_length c f)) f) faces.
  Lemma secondary_stream c faces : secondary_nodes ids gh gids c faces = ofold sec_step (stream c faces) (Sec [] [] []).
  Proof.
    unfold secondary_nodes. generalize (Sec [] [] []). induction faces as [|f faces IH]; intros s; [reflexivity|].
    cbn [ofold stream flat_map]. rewrite ofold_app.
    assert (G : forall l s, ofold (visit_secondary_node ids gh gids (secondary_length c f)) l s = ofold sec_step (map (fun n => (n, secondary_length c f)) l) s).
    { clear. induction l as [|a l IH]; intros s; cbn [ofold map]; [reflexivity|]. unfold sec_step at 1. cbn [fst snd]. destruct (visit_secondary_node ids gh gids (secondary_length c f) s a); cbn [obind]; auto. }
    rewrite G. destruct (ofold sec_step (map _ f) s); cbn [obind]; auto.
  Qed.

  Definition sec_inv (done : list (nat * R)) (s : sec_state) : Prop :=
    NoDup (sec_ids s) /\ (forall j, In j (sec_ids s) <-> ~ In j gh /\ exists l, In (j, l) done) /\
    Forall2 (fun j g => exists n x, nth_error ids j = Some n /\ nth_error gids n = Some x /\ g = (x + 1)%Z) (sec_ids s) (sec_entity_ids s) /\
    (forall j, In j (sec_ids s) -> exists l, assoc Nat.eqb j (sec_lens s) = Some l /\ greatest (fun l => In (j, l) done) l).
  Lemma sec_step_inv done s nl : (exists n, nth_error ids (fst nl) = Some n /\ (n < length gids)%nat) ->
    sec_inv done s -> exists s', sec_step s nl = Ok s' /\ sec_inv (done ++ [nl]) s'.
  Proof.
    intros (n & En & Ln) (I1 & I2 & I3 & I4). destruct nl as [j l]. cbn [fst] in En. unfold sec_step, visit_secondary_node. cbn [fst snd].
    assert (Hdone : forall j' (Q : R -> Prop), (exists l', In (j', l') (done ++ [(j, l)]) /\ Q l') <-> (exists l', In (j', l') done /\ Q l') \/ (j' = j /\ Q l)).
    { intros j' Q. split.
      - intros (l' & H & HQ). apply in_app_iff in H as [H|[H|[]]]; [left; eauto|right]. injection H as <- <-. auto.
      - intros [(l' & H & HQ)|(-> & HQ)]; [exists l'|exists l]; rewrite in_app_iff; cbn; auto. }
    assert (Hother : forall j', j' <> j -> forall l', In (j', l') (done ++ [(j, l)]) <-> In (j', l') done).
    { intros j' N l'. rewrite in_app_iff. cbn [In]. split; [intros [H|[H|[]]]; [exact H|congruence]|auto]. }
    destruct (mem gh j) eqn:Eg.
    - apply mem_In in Eg. eexists. split; [reflexivity|]. split; [exact I1|]. split; [|split; [exact I3|]].
      + intros j'. rewrite (I2 j'). split; intros (H1 & l' & H2).
        * split; [exact H1|]. exists l'. apply in_app_iff. auto.
        * split; [exact H1|]. exists l'. apply Hother in H2; [exact H2|]. intros ->. contradiction.
      + intros j' Hj. destruct (I4 j' Hj) as (l' & E & G1 & G2). exists l'. split; [exact E|].
        assert (j' <> j). { intros ->. apply I2 in Hj. tauto. } split; [now apply Hother|]. intros x Hx. apply G2. now apply Hother in Hx.
    - assert (Ng : ~ In j gh). { intros H. apply mem_In in H. congruence. }
      destruct (mem (sec_ids s) j) eqn:Em.
      + apply mem_In in Em. destruct (I4 j Em) as (old & Eo & G1 & G2). rewrite Eo.
        assert (I2' : forall j', In j' (sec_ids s) <-> ~ In j' gh /\ exists l', In (j', l') (done ++ [(j, l)])).
        { intros j'. rewrite (I2 j'). split; intros (H1 & l' & H2); (split; [exact H1|]).
          - exists l'. apply in_app_iff. auto.
          - destruct (Nat.eq_dec j' j) as [->|N]; [eauto|]. exists l'. now apply Hother in H2. }
        destruct (Rlt_dec old l) as [Hlt|Hge]; eexists; (split; [reflexivity|]); (split; [exact I1|]); (split; [exact I2'|]); (split; [exact I3|]).
        * cbn [sec_lens]. intros j' Hj. rewrite nassoc_set. destruct (Nat.eqb_spec j' j) as [->|N].
          -- exists l. split; [reflexivity|]. split; [apply in_app_iff; cbn; auto|]. intros x Hx. apply in_app_iff in Hx as [Hx|[Hx|[]]]; [apply G2 in Hx; lra|]. injection Hx as <-. lra.
          -- destruct (I4 j' Hj) as (l' & E & G1' & G2'). exists l'. split; [exact E|]. split; [now apply Hother|]. intros x Hx. apply G2'. now apply Hother in Hx.
        * intros j' Hj. destruct (I4 j' Hj) as (l' & E & G1' & G2'). exists l'. split; [exact E|]. split; [apply in_app_iff; auto|].
          intros x Hx. apply in_app_iff in Hx as [Hx|[Hx|[]]]; [now apply G2'|]. injection Hx as <- <-. assert (l' = old) by congruence. subst. lra.
      + assert (Nm : ~ In j (sec_ids s)). { intros H. apply mem_In in H. congruence. }
        assert (Nd : forall l', ~ In (j, l') done). { intros l' H. apply Nm. apply I2. split; [exact Ng|]. eauto. }
        unfold vget. rewrite En. cbn [obind]. destruct (nth_error gids n) as [x|] eqn:Ex; [|apply nth_error_None in Ex; lia]. cbn [obind].
        eexists. split; [reflexivity|]. cbn [sec_ids sec_entity_ids sec_lens]. split; [now apply NoDup_app_snoc|]. split; [|split].
        * intros j'. cbn [sec_ids]. rewrite in_app_iff, (I2 j'). cbn [In]. split.
          -- intros [(H1 & l' & H2)|[<-|[]]]; [split; [exact H1|]; exists l'; apply in_app_iff; auto|]. split; [exact Ng|]. exists l. apply in_app_iff. cbn. auto.
          -- intros (H1 & l' & H2). destruct (Nat.eq_dec j' j) as [->|N]; [auto|]. left. split; [exact H1|]. exists l'. now apply Hother in H2.
        * apply Forall2_app; [exact I3|]. constructor; [|constructor]. exists n, x. auto.
        * cbn [sec_ids sec_lens]. intros j' Hj. rewrite nassoc_set. destruct (Nat.eqb_spec j' j) as [->|N].
          -- exists l. split; [reflexivity|]. split; [apply in_app_iff; cbn; auto|]. intros y Hy. apply in_app_iff in Hy as [Hy|[Hy|[]]]; [now apply Nd in Hy|]. injection Hy as <-. lra.
          -- apply in_app_iff in Hj as [Hj|[Hj|[]]]; [|congruence]. destruct (I4 j' Hj) as (l' & E & G1' & G2'). exists l'. split; [exact E|]. split; [now apply Hother|]. intros y Hy. apply G2'. now apply Hother in Hy.
  Qed.
  Lemma sec_all_inv l : (forall nl, In nl l -> exists n, nth_error ids (fst nl) = Some n /\ (n < length gids)%nat) ->
    exists s, ofold sec_step l (Sec [] [] []) = Ok s /\ sec_inv l s.
  Proof.
    intros H. assert (G : forall done s, sec_inv done s -> exists s', ofold sec_step l s = Ok s' /\ sec_inv (done ++ l) s').
    { induction l as [|a l IH]; intros done s I; cbn [ofold].
      - exists s. rewrite app_nil_r. auto.
      - destruct (@sec_step_inv done s a (H a (or_introl eq_refl)) I) as (s1 & E1 & I1). rewrite E1. cbn [obind].
        destruct (IH (fun x Hx => H x (or_intror Hx)) _ _ I1) as (s2 & E2 & I2). exists s2. split; [exact E2|]. now rewrite <- app_assoc in I2. }
    apply (G []). split; [constructor|]. split; [|split; [constructor|]].
    - intros j. cbn. split; [intros []|]. intros (_ & x & []).
    - intros j [].
  Qed.
End Sec.

Lemma create_nodes_spec ids gh gids c l s : sec_inv ids gh gids l s -> exists out, create_nodes c s = Ok out /\ length out = length (sec_ids s) /\
  forall i j, nth_error (sec_ids s) i = Some j -> exists g len, nth_error (sec_entity_ids s) i = Some g /\ assoc Nat.eqb j (sec_lens s) = Some len /\
    nth_error out i = Some (make_node g (Z.of_nat i) (node_vec c j) len j).
Proof.
  intros (I1 & I2 & I3 & I4). pose proof (@Forall2_len _ _ _ _ _ I3) as EL. unfold create_nodes.
  pose (P := fun k (out : list entity) => length out = k /\ forall i j, (i < k)%nat -> nth_error (sec_ids s) i = Some j -> exists g len, nth_error (sec_entity_ids s) i = Some g /\ assoc Nat.eqb j (sec_lens s) = Some len /\
    nth_error out i = Some (make_node g (Z.of_nat i) (node_vec c j) len j)).
  match goal with |- exists out, oloop _ _ ?f _ = _ /\ _ => assert (H : exists s', oloop 0 (length (sec_ids s)) f [] = Ok s' /\ P (length (sec_ids s)) s') end.
  { apply (@oloop_ind _ P); [lia| |].
    - split; [reflexivity|]. intros; lia.
    - intros k out Hk (HL & HP). unfold vat.
      destruct (nth_error (sec_ids s) k) as [j|] eqn:Ej; [|apply nth_error_None in Ej; lia]. cbn [obind].
      destruct (nth_error (sec_entity_ids s) k) as [g|] eqn:Eg; [|apply nth_error_None in Eg; lia]. cbn [obind].
      destruct (I4 j (nth_error_In _ _ Ej)) as (len & Elen & _). rewrite Elen. cbn [obind]. eexists. split; [reflexivity|]. split.
      + rewrite app_length. cbn [length]. lia.
      + intros i j' Hi Ej'. destruct (Nat.eq_dec i k) as [->|N].
        * assert (j' = j) by congruence. subst j'. exists g, len. split; [exact Eg|]. split; [exact Elen|]. rewrite <- HL. rewrite nth_error_snoc_last. now rewrite at3_node.
        * destruct (HP i j' ltac:(lia) Ej') as (g' & len' & H1 & H2 & H3). exists g', len'. split; [exact H1|]. split; [exact H2|]. rewrite nth_error_app1; [exact H3|lia]. }
  destruct H as (out & E & HL & HP). exists out. split; [exact E|]. split; [exact HL|]. intros i j Ej. apply HP; [|exact Ej]. apply nth_error_Some. congruence.
Qed.

Section Main.
  Variables (rank : nat) (boundary : list nat * list nat) (gids : list Z) (x y z : arr).
  Variables (primary : list (list nat)) (pids : list Z) (secondary : list (list nat)) (junk1 junk2 : arr).
  Let pos (n : nat) : V3 := mkV3 (x n) (y n) (z n).
  Hypothesis Hb : length (snd boundary) = length (fst boundary).
  Hypothesis Hp : length pids = length primary.
  Hypothesis H4 : forall f, In f primary -> length f = 4%nat.
  Hypothesis Hg : forall n, node_of secondary n -> (n < length gids)%nat.
  Lemma submodel_main : exists sm, create_submodel rank boundary gids x y z primary pids secondary junk1 junk2 = Ok sm /\
    let ids := sm_node_ids sm in
    StronglySorted lt ids /\ (forall n, In n ids <-> node_of (primary ++ secondary) n) /\
    (forall j n, nth_error ids j = Some n -> node_vec (sm_coord sm) j = pos n /\ node_vec (sm_model_coord sm) j = pos n) /\
    length (sm_faces sm) = (4 * length primary)%nat /\
    (forall i t face id, nth_error primary i = Some face -> nth_error pids i = Some id -> (t < 4)%nat ->
      exists e, nth_error (sm_faces sm) (4 * i + t) = Some e /\ is_triangle_of ids pos face t e /\
        contact_entity_global_id_ e = Z.lor id (Z.of_nat t) /\ local_id_ e = Z.of_nat (4 * i + t)) /\
    NoDup (map node_id_for_node_1_ (sm_nodes sm)) /\
    (forall n, node_of secondary n /\ ~ foreign rank boundary n <-> exists e, In e (sm_nodes sm) /\ nth_error ids (node_id_for_node_1_ e) = Some n) /\
    (forall i e, nth_error (sm_nodes sm) i = Some e -> exists n g, nth_error gids n = Some g /\ is_contact_node ids pos secondary n e /\
        contact_entity_global_id_ e = (g + 1)%Z /\ local_id_ e = Z.of_nat i).
  Proof.
    unfold create_submodel. destruct (@ghosted_local_spec rank boundary Hb) as (gl & Egl & Hgl). rewrite Egl. cbn [obind].
    set (ids := submodel_node_ids primary secondary). pose proof (node_ids_NoDup primary secondary) as ND. fold ids in ND.
    assert (Hin : forall n, In n ids <-> node_of (primary ++ secondary) n) by (intros n; apply node_ids_In).
    destruct (@renumber_spec ids primary ND) as (primary' & Ep & Fp). { intros n H. apply Hin, node_of_app. auto. }
    destruct (@renumber_spec ids secondary ND) as (secondary' & Es & Fs). { intros n H. apply Hin, node_of_app. auto. }
    rewrite Ep. cbn [obind]. rewrite Es. cbn [obind].
    set (gh := ghosted_contact_node_ids (submodel_map ids) gl).
    set (mc := submodel_coord ids x y z junk1). set (c := submodel_coord ids x y z junk2).
    assert (Hc : forall j n, nth_error ids j = Some n -> node_vec c j = pos n) by (intros; now apply coord_spec).
    assert (Hmc : forall j n, nth_error ids j = Some n -> node_vec mc j = pos n) by (intros; now apply coord_spec).
    assert (Hst : forall j l, In (j, l) (stream c secondary') <-> exists face face', In face secondary /\ In face' secondary' /\ matches ids face face' /\ In j face' /\ l = secondary_length c face').
    { intros j l. unfold stream. rewrite in_flat_map. split.
      - intros (f' & Hf & H). apply in_map_iff in H as (j' & E & Hj). injection E as <- <-. destruct (In_nth_error _ _ Hf) as (i & Ei).
        destruct (@Forall2_nth_r _ _ _ _ _ _ _ Fs Ei) as (f & Ef & M). exists f, f'. split; [eapply nth_error_In; eauto|]. auto.
      - intros (f & f' & _ & Hf & _ & Hj & ->). exists f'. split; [exact Hf|]. apply in_map_iff. eauto. }
    assert (Mn : forall f f', matches ids f f' -> forall j, In j f' -> exists n, In n f /\ nth_error ids j = Some n).
    { intros f f' M j Hj. destruct (In_nth_error _ _ Hj) as (i & Ei). destruct (@Forall2_nth_r _ _ _ _ _ _ _ M Ei) as (n & En & Rn). exists n. split; [eapply nth_error_In; eauto|exact Rn]. }
    assert (Mj : forall f f', matches ids f f' -> forall j n, nth_error ids j = Some n -> In n f -> In j f').
    { intros f f' M j n Ej Hn. destruct (In_nth_error _ _ Hn) as (i & Ei). destruct (@Forall2_nth_l _ _ _ _ _ _ _ M Ei) as (j' & Ej' & Rj). replace j with j'; [eapply nth_error_In; eauto|].
      rewrite NoDup_nth_error in ND. apply ND; [apply nth_error_Some; congruence|congruence]. }
    destruct (@sec_all_inv ids gh gids (stream c secondary')) as (sec & Esec & I).
    { intros [j l] H. apply Hst in H as (f & f' & Hf & _ & M & Hj & _). destruct (Mn _ _ M j Hj) as (n & Hn & En). exists n. split; [exact En|]. apply Hg. exists f. auto. }
    rewrite secondary_stream, Esec. cbn [obind].
    destruct (@create_faces_spec ids pos c Hc primary primary' pids Fp Hp H4) as (faces & Ef & Lf & Pf). rewrite Ef. cbn [obind].
    destruct (@create_nodes_spec ids gh gids c _ _ I) as (nodes & En & Ln & Pn). rewrite En. cbn [obind].
    eexists. split; [reflexivity|]. cbn [sm_node_ids sm_coord sm_model_coord sm_faces sm_nodes].
    split; [apply node_ids_sorted|]. split; [exact Hin|]. split; [intros j n E; split; [now apply Hc|now apply Hmc]|].
    split; [exact Lf|]. split; [exact Pf|].
    destruct I as (I1 & I2 & I3 & I4).
    assert (Eids : map node_id_for_node_1_ nodes = sec_ids sec).
    { assert (G : forall i, nth_error (map node_id_for_node_1_ nodes) i = nth_error (sec_ids sec) i).
      { intros i. destruct (nth_error (sec_ids sec) i) as [j|] eqn:Ej.
        - destruct (Pn i j Ej) as (g & len & _ & _ & E). rewrite nth_error_map, E. reflexivity.
        - apply nth_error_None. rewrite map_length, Ln. now apply nth_error_None. }
      clear - G. revert G. generalize (map node_id_for_node_1_ nodes). generalize (sec_ids sec). intros l1 l2. revert l1.
      induction l2 as [|a l2 IH]; intros [|b l1] G; auto; [specialize (G 0%nat); discriminate|specialize (G 0%nat); discriminate|]. pose proof (G 0%nat) as G0. cbn in G0. injection G0 as ->. f_equal. apply IH. intros i. apply (G (S i)). }
    split; [now rewrite Eids|].
    assert (Hsec : forall j n, nth_error ids j = Some n -> (In j (sec_ids sec) <-> node_of secondary n /\ ~ foreign rank boundary n)).
    { intros j n Ej. rewrite (I2 j). unfold gh. rewrite (@ghosted_contact_spec ids gl j ND). split.
      - intros (H1 & l & H2). apply Hst in H2 as (f & f' & Hf & _ & M & Hj & _). destruct (Mn _ _ M j Hj) as (n' & Hn & En'). assert (n' = n) by congruence. subst n'.
        split; [exists f; auto|]. intros F. apply H1. exists n. split; [now apply Hgl|exact Ej].
      - intros ((f & Hf & Hn) & NF). split.
        + intros (n' & Hn' & E'). apply NF, Hgl. congruence.
        + destruct (In_nth_error _ _ Hf) as (i & Ei). destruct (@Forall2_nth_l _ _ _ _ _ _ _ Fs Ei) as (f' & Ef' & M). exists (secondary_length c f'). apply Hst. exists f, f'.
          split; [exact Hf|]. split; [eapply nth_error_In; eauto|]. split; [exact M|]. split; [|reflexivity]. eapply Mj; eauto. }
    split.
    - intros n. split.
      + intros H. assert (Hn : In n ids). { apply Hin, node_of_app. tauto. } destruct (In_nth_error _ _ Hn) as (j & Ej). pose proof (proj2 (Hsec j n Ej) H) as Hj.
        destruct (In_nth_error _ _ Hj) as (i & Ei). destruct (Pn i j Ei) as (g & len & _ & _ & E). eexists. split; [eapply nth_error_In; exact E|]. exact Ej.
      + intros (e & He & Ee). apply (Hsec (node_id_for_node_1_ e) n Ee). rewrite <- Eids. apply in_map_iff. eauto.
    - intros i e Ee. assert (Ej : nth_error (sec_ids sec) i = Some (node_id_for_node_1_ e)). { rewrite <- Eids, nth_error_map, Ee. reflexivity. }
      destruct (Pn i _ Ej) as (g & len & E1 & E2 & E3). assert (E : e = make_node g (Z.of_nat i) (node_vec c (node_id_for_node_1_ e)) len (node_id_for_node_1_ e)) by congruence.
      destruct (@Forall2_nth_l _ _ _ _ _ _ _ I3 Ej) as (g' & Eg' & n & xx & En' & Ex & Egg). assert (g' = g) by congruence. subst g'.
      exists n, xx. split; [exact Ex|]. set (j := node_id_for_node_1_ e) in *. split; [|split; [rewrite E; cbn; congruence|rewrite E; reflexivity]].
      destruct (I4 j (nth_error_In _ _ Ej)) as (len' & El & G1 & G2). assert (len' = len) by congruence. subst len'.
      assert (El' : char_len_ e = len) by (rewrite E; reflexivity).
      split; [rewrite E; reflexivity|]. split; [rewrite E; reflexivity|]. split; [exact En'|]. split; [rewrite E; change (node_vec c j = pos n); now apply Hc|].
      split; [|rewrite E; reflexivity]. rewrite El'. split.
      + apply Hst in G1 as (f & f' & Hf & _ & M & Hj & ->). destruct (Mn _ _ M j Hj) as (n' & Hn & En2). assert (n' = n) by congruence. subst n'.
        exists f. split; [exact Hf|]. split; [exact Hn|]. apply (@secondary_length_spec ids pos c Hc); [exact M|]. destruct f; [destruct Hn|cbn; lia].
      + intros l (f & Hf & Hn & HL). destruct (In_nth_error _ _ Hf) as (i' & Ei). destruct (@Forall2_nth_l _ _ _ _ _ _ _ Fs Ei) as (f' & Ef' & M).
        pose proof (@secondary_length_spec ids pos c Hc f f' M ltac:(destruct f; [destruct Hn|cbn; lia])) as (S1 & S2). apply Rle_trans with (secondary_length c f').
        * apply S2. apply HL.
        * apply G2. apply Hst. exists f, f'. split; [exact Hf|]. split; [eapply nth_error_In; eauto|]. split; [exact M|]. split; [eapply Mj; eauto|reflexivity].
  Qed.
End Main.
