From Verif Require Import Base ListLemmas Loops LinModel PatternProofs MpiModel MpiSpec MpiSetupProofs MpiFinal SkinModel ContactModel ContactSpec SubmodelModel SubmodelSpec SubmodelProofs SubmodelProofs2.
From Coq Require Import Reals Lra Sorted.
Set Implicit Arguments.

Lemma nth_error_const {A B} (l : list A) (m : B) i a : nth_error l i = Some a -> nth_error (map (fun _ => m) l) i = Some m.
Proof. intros E. rewrite nth_error_map, E. reflexivity. Qed.

Lemma get_all_indices_spec cliques : (forall c, In c cliques -> comm_members (cl_comm c) <> []) ->
  exists b, get_all_indices cliques = Ok b /\ length (snd b) = length (fst b) /\
  forall n m, (exists i, nth_error (fst b) i = Some n /\ nth_error (snd b) i = Some m) <->
    exists c, In c cliques /\ In n (cl_indices c) /\ nth_error (get_world_ranks c) 0 = Some m.
Proof.
  intros H. unfold get_all_indices.
  assert (G : forall done acc, length (snd acc) = length (fst acc) ->
    (forall n m, (exists i, nth_error (fst acc) i = Some n /\ nth_error (snd acc) i = Some m) <-> exists c, In c done /\ In n (cl_indices c) /\ nth_error (get_world_ranks c) 0 = Some m) ->
    exists b, ofold (fun (acc : list nat * list nat) c => do min_rank <- vget (get_world_ranks c) 0; Ok (fst acc ++ cl_indices c, snd acc ++ map (fun _ => min_rank) (cl_indices c))) cliques acc = Ok b /\ length (snd b) = length (fst b) /\
    forall n m, (exists i, nth_error (fst b) i = Some n /\ nth_error (snd b) i = Some m) <-> exists c, In c (done ++ cliques) /\ In n (cl_indices c) /\ nth_error (get_world_ranks c) 0 = Some m).
  { induction cliques as [|c cliques IH]; intros done acc L S.
    - exists acc. split; [reflexivity|]. split; [exact L|]. intros n m. rewrite app_nil_r. apply S.
    - cbn [ofold]. assert (Hne : exists m0, nth_error (get_world_ranks c) 0 = Some m0).
      { pose proof (H c (or_introl eq_refl)) as N. unfold get_world_ranks. destruct (isort Nat.leb (comm_members (cl_comm c))) as [|m0 l] eqn:E; [|exists m0; reflexivity].
        exfalso. apply N. destruct (comm_members (cl_comm c)) as [|a l]; [reflexivity|]. exfalso.
        assert (Hin : In a (isort Nat.leb (a :: l))). { apply (Permutation.Permutation_in _ (isort_perm Nat.leb (a :: l))). cbn. auto. } rewrite E in Hin. destruct Hin. }
      destruct Hne as (m0 & E0). unfold vget at 1. rewrite E0. cbn [obind].
      destruct (IH (fun c0 Hc => H c0 (or_intror Hc)) (done ++ [c]) (fst acc ++ cl_indices c, snd acc ++ map (fun _ => m0) (cl_indices c))) as (b & Eb & Lb & Sb).
      + cbn [fst snd]. rewrite !app_length, map_length. lia.
      + cbn [fst snd]. intros n m. split.
        * intros (i & E1 & E2). destruct (Nat.lt_ge_cases i (length (fst acc))) as [Hi|Hi].
          -- rewrite nth_error_app1 in E1 by lia. rewrite nth_error_app1 in E2 by lia. destruct (proj1 (S n m)) as (c0 & Hc & H1). { exists i; auto. } exists c0. rewrite in_app_iff. auto.
          -- rewrite nth_error_app2 in E1 by lia. rewrite nth_error_app2 in E2 by lia. rewrite L in E2. rewrite (nth_error_const _ m0 _ E1) in E2. injection E2 as <-.
             exists c. rewrite in_app_iff. cbn. split; [auto|]. split; [eapply nth_error_In; eauto|exact E0].
        * intros (c0 & Hc & Hn & Em). apply in_app_iff in Hc as [Hc|[<-|[]]].
          -- destruct (proj2 (S n m)) as (i & E1 & E2). { exists c0; auto. } exists i. rewrite !nth_error_app1; auto; apply nth_error_Some; congruence.
          -- destruct (In_nth_error _ _ Hn) as (i & Ei). exists (length (fst acc) + i). rewrite !nth_error_app2 by lia. rewrite L. replace (length (fst acc) + i - length (fst acc)) with i by lia.
             split; [exact Ei|]. rewrite (nth_error_const _ m0 _ Ei). congruence.
      + exists b. split; [exact Eb|]. split; [exact Lb|]. intros n m. rewrite (Sb n m), <- app_assoc. reflexivity. }
  destruct (G [] ([], [])) as (b & Hb); [reflexivity| |exists b; exact Hb].
  intros n m. split; [intros (i & E & _); destruct i; discriminate|intros (c & [] & _)].
Qed.

Section Ranks.
  Variable ranks : list contact_rank.
  Let ids := map cr_global_ids ranks.
  Hypothesis Hnd : all_nodup ids.
  Hypothesis Hvalid : forall k, In k ranks -> length (cr_primary_ids k) = length (cr_primary k) /\ (forall f, In f (cr_primary k) -> length f = 4) /\
    (forall n, node_of (cr_secondary k) n -> n < length (cr_global_ids k)).

  Lemma foreign_iff r cliques b k n g : nth_error ranks r = Some k -> generate_reduction_info ids = Ok cliques ->
    (forall n m, (exists i, nth_error (fst b) i = Some n /\ nth_error (snd b) i = Some m) <->
      exists c, In c (nth r cliques []) /\ In n (cl_indices c) /\ nth_error (get_world_ranks c) 0 = Some m) ->
    nth_error (cr_global_ids k) n = Some g -> (foreign r b n <-> exists r', holds ids r' g /\ r' < r).
  Proof.
    intros Ek Ec Hb En. destruct (node_cliques ids Hnd) as (cls & num & E & Lc & HC). assert (cls = cliques) by congruence. subst cls.
    assert (Er : nth r ids [] = cr_global_ids k). { unfold ids. apply nth_error_nth. rewrite nth_error_map, Ek. reflexivity. }
    destruct (HC r n g ltac:(rewrite Er; exact En)) as (C1 & C2 & _).
    assert (Hr : holds ids r g). { unfold holds. rewrite Er. eapply nth_error_In; eauto. }
    assert (Hmin : forall c m, In c (nth r cliques []) -> In n (cl_indices c) -> nth_error (get_world_ranks c) 0 = Some m -> holds ids m g /\ forall r', holds ids r' g -> m <= r').
    { intros c m Hc Hn Em. destruct (In_nth_error _ _ Hc) as (i & Ei). destruct (C1 i c Ei Hn) as (_ & Ecm). unfold get_world_ranks in Em. rewrite Ecm in Em. cbn [comm_members] in Em.
      pose proof (@isort_sorted _ Nat.leb ltac:(intros a d; rewrite !Nat.leb_le; lia) ltac:(intros a d e; rewrite !Nat.leb_le; lia) (holders ids g)) as SS.
      destruct (isort Nat.leb (holders ids g)) as [|m0 l] eqn:EI; [discriminate|]. cbn in Em. injection Em as ->.
      assert (HI : forall q, In q (m :: l) <-> holds ids q g). { intros q. rewrite <- EI, isort_In. apply holders_In. }
      split; [apply HI; cbn; auto|]. intros r' H'. apply HI in H' as [->|H']; [lia|]. inversion SS as [|? ? _ F]; subst. rewrite Forall_forall in F. apply Nat.leb_le. now apply F. }
    split.
    - intros (i & m & E1 & E2 & N). destruct (proj1 (Hb n m)) as (c & Hc & Hn & Em). { exists i; auto. }
      destruct (Hmin c m Hc Hn Em) as (M1 & M2). specialize (M2 r Hr). exists m. split; [exact M1|lia].
    - intros (r' & Hr' & Lt). assert (H2 : 1 < length (holders ids g)).
      { destruct (holders ids g) as [|a [|a' l]] eqn:EH; cbn; try lia.
        - exfalso. assert (In r (holders ids g)) by now apply holders_In. rewrite EH in H. destruct H.
        - exfalso. assert (A : In r (holders ids g)) by now apply holders_In. assert (B : In r' (holders ids g)) by now apply holders_In. rewrite EH in A, B. cbn in A, B. lia. }
      destruct (C2 H2) as (i & c & Ei & Hn). assert (Hc : In c (nth r cliques [])) by (eapply nth_error_In; eauto).
      destruct (C1 i c Ei Hn) as (_ & Ecm).
      destruct (nth_error (get_world_ranks c) 0) as [m|] eqn:Em.
      + destruct (proj2 (Hb n m)) as (i' & E1 & E2). { exists c; auto. } exists i', m. split; [exact E1|]. split; [exact E2|].
        destruct (Hmin c m Hc Hn Em) as (_ & M2). specialize (M2 r' Hr'). lia.
      + exfalso. unfold get_world_ranks in Em. rewrite Ecm in Em. cbn [comm_members] in Em. apply nth_error_None in Em. rewrite isort_length in Em. lia.
  Qed.

  Lemma create_all_main : exists sms, create_all ranks = Ok sms /\ length sms = length ranks /\
    forall r k sm, nth_error ranks r = Some k -> nth_error sms r = Some sm ->
    exists b, length (snd b) = length (fst b) /\
      create_submodel r b (cr_global_ids k) (cr_x k) (cr_y k) (cr_z k) (cr_primary k) (cr_primary_ids k) (cr_secondary k) (cr_junk1 k) (cr_junk2 k) = Ok sm /\
      forall n g, nth_error (cr_global_ids k) n = Some g -> (foreign r b n <-> exists r', holds ids r' g /\ r' < r).
  Proof.
    unfold create_all. fold ids. pose proof (setup_ok ids Hnd) as Es. rewrite Es. cbn [obind].
    set (cliques := map (fun r => map (the_clique ids r) (rank_cliques ids r)) (seq 0 (length ids))) in *.
    assert (Hi : forall r k, nth_error ranks r = Some k -> exists b, get_all_indices (nth r cliques []) = Ok b /\ length (snd b) = length (fst b) /\
      forall n g, nth_error (cr_global_ids k) n = Some g -> (foreign r b n <-> exists r', holds ids r' g /\ r' < r)).
    { intros r k Ek. assert (Hr : r < length ids). { unfold ids. rewrite map_length. apply nth_error_Some. congruence. }
      destruct (@get_all_indices_spec (nth r cliques [])) as (b & Eb & Lb & Sb).
      - intros c Hc. unfold cliques in Hc. rewrite setup_nth in Hc by exact Hr. apply in_map_iff in Hc as (x & <- & Hx). cbn [the_clique cl_comm comm_members].
        intros E. apply members_In in Hx. rewrite E in Hx. destruct Hx.
      - exists b. split; [exact Eb|]. split; [exact Lb|]. intros n g En. eapply foreign_iff; eauto. }
    assert (G : forall l, (forall r, In r l -> r < length ranks) -> exists sms, omapM (fun r => do k <- vget ranks r; do boundary <- get_all_indices (nth r cliques []);
        create_submodel r boundary (cr_global_ids k) (cr_x k) (cr_y k) (cr_z k) (cr_primary k) (cr_primary_ids k) (cr_secondary k) (cr_junk1 k) (cr_junk2 k)) l = Ok sms /\
      Forall2 (fun r sm => forall k, nth_error ranks r = Some k -> exists b, length (snd b) = length (fst b) /\
      create_submodel r b (cr_global_ids k) (cr_x k) (cr_y k) (cr_z k) (cr_primary k) (cr_primary_ids k) (cr_secondary k) (cr_junk1 k) (cr_junk2 k) = Ok sm /\
      forall n g, nth_error (cr_global_ids k) n = Some g -> (foreign r b n <-> exists r', holds ids r' g /\ r' < r)) l sms).
    { induction l as [|r l IH]; intros Hl; cbn [omapM]; [exists []; split; [reflexivity|constructor]|].
      destruct (IH (fun q Hq => Hl q (or_intror Hq))) as (sms & E & F).
      destruct (nth_error ranks r) as [k|] eqn:Ek; [|apply nth_error_None in Ek; specialize (Hl r (or_introl eq_refl)); lia].
      unfold vget at 1. rewrite Ek. cbn [obind]. destruct (Hi r k Ek) as (b & Eb & Lb & Sb). rewrite Eb. cbn [obind].
      destruct (Hvalid k (nth_error_In _ _ Ek)) as (V1 & V2 & V3).
      destruct (@submodel_main r b (cr_global_ids k) (cr_x k) (cr_y k) (cr_z k) (cr_primary k) (cr_primary_ids k) (cr_secondary k) (cr_junk1 k) (cr_junk2 k) Lb V1 V2 V3) as (sm & Esm & _).
      rewrite Esm. cbn [obind]. rewrite E. cbn [obind]. eexists. split; [reflexivity|]. constructor; [|exact F].
      intros k' Ek'. assert (k' = k) by congruence. subst k'. exists b. auto. }
    destruct (G (seq 0 (length ranks))) as (sms & E & F). { intros r Hr. apply in_seq in Hr. lia. }
    exists sms. split; [exact E|]. pose proof (@Forall2_len _ _ _ _ _ F) as L. rewrite seq_length in L. split; [lia|].
    intros r k sm Ek Esm. destruct (@Forall2_nth_r _ _ _ _ _ _ _ F Esm) as (r' & Er & H). rewrite nth_error_seq in Er. destruct (r <? length ranks); [|discriminate]. injection Er as <-. now apply H.
  Qed.
End Ranks.
