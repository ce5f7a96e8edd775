(** Proofs about GenerateReductionInfo (set-up of the cliques on all ranks). *)
From Verif Require Import Base ListLemmas MpiSpec MpiModel MpiCliqueProofs.
From Coq Require Import Permutation Sorted.
Local Open Scope Z_scope.

Lemma partition_concat {A} (ls : list (list A)) :
  partition_into_arrayviews (concat ls) (map (@length A) ls) = ls.
Proof.
  induction ls as [|l ls IH]; simpl; auto.
  rewrite firstn_app, Nat.sub_diag, firstn_all. simpl. rewrite app_nil_r.
  rewrite skipn_app, Nat.sub_diag, skipn_all. simpl. now rewrite IH.
Qed.

Lemma partition_map {A B} (f : A -> B) (l : list A) cs :
  partition_into_arrayviews (map f l) cs = map (map f) (partition_into_arrayviews l cs).
Proof.
  revert l; induction cs as [|c cs IH]; intros l; simpl; auto.
  now rewrite firstn_map, skipn_map, IH.
Qed.

Lemma clique_assignments_eq ids :
  clique_assignments ids =
  (map (map (fst (fill_clique_lookup ids))) ids, snd (fill_clique_lookup ids)).
Proof.
  unfold clique_assignments. rewrite partition_concat.
  destruct (fill_clique_lookup ids) as [L n] eqn:E. simpl.
  now rewrite partition_map, partition_concat.
Qed.

(** ** Colours *)
Lemma ofold_colors_ok cids cols :
  Forall (fun c => 0 <= c < Z.of_nat (length cols)) cids ->
  exists cols',
    ofold (fun colors i => if i <? 0 then UB else vset colors (Z.to_nat i) true) cids cols = Ok cols' /\
    length cols' = length cols /\
    forall i, nth i cols' false = true <-> nth i cols false = true \/ In (Z.of_nat i) cids.
Proof.
  revert cols; induction cids as [|c cids IH]; intros cols H; cbn [ofold].
  - exists cols. repeat split; auto. intros [?|[]]; auto.
  - inversion H; subst. unfold vset.
    destruct (Z.ltb_spec c 0); [lia|].
    destruct (Nat.ltb_spec (Z.to_nat c) (length cols)); [|lia].
    cbn [obind].
    destruct (IH (list_set cols (Z.to_nat c) true)) as (cols' & E & Hl & Hi).
    { rewrite list_set_length. auto. }
    exists cols'. split; [exact E|]. rewrite list_set_length in Hl. split; auto.
    intros i. rewrite Hi, nth_list_set.
    destruct (Nat.eqb_spec i (Z.to_nat c)) as [->|Hne]; simpl.
    + destruct (Nat.ltb_spec (Z.to_nat c) (length cols)); [|lia]. 
      split; auto. intros _. right. left. lia.
    + simpl. intuition lia.
Qed.

Lemma clique_colors_ok num cids :
  0 <= num -> Forall (fun c => 0 <= c < num) cids ->
  exists cols, clique_colors_of num cids = Ok cols /\ length cols = Z.to_nat num /\
    forall i, nth i cols false = true <-> In (Z.of_nat i) cids.
Proof.
  intros Hn H. unfold clique_colors_of.
  destruct (ofold_colors_ok cids (repeat false (Z.to_nat num))) as (cols & E & Hl & Hi).
  { rewrite repeat_length. eapply Forall_impl; [|exact H]. simpl; intros; lia. }
  exists cols. rewrite repeat_length in Hl. repeat split; auto.
  - intros Hx. apply Hi in Hx as [Hx|]; auto. rewrite nth_repeat in Hx. discriminate.
  - intros Hx. apply Hi; auto.
Qed.

Lemma omapM_ok {A B} (f : A -> outcome B) (g : A -> B) l :
  (forall a, In a l -> f a = Ok (g a)) -> omapM f l = Ok (map g l).
Proof.
  induction l as [|a l IH]; simpl; intros H; auto.
  rewrite (H a), IH; simpl; auto.
Qed.

(** ** Shape of the set-up *)
Section Setup.
  Variable ids : list (list Z).
  Hypothesis Hnd : all_nodup ids.
  Let n := length ids.
  Let L := fst (fill_clique_lookup ids).
  Let num := snd (fill_clique_lookup ids).

  Lemma table : table_inv (Z.of_nat n) ids L num.
  Proof. exact (fill_clique_lookup_inv ids Hnd). Qed.

  Definition rank_cliques (r : nat) : list Z := clique_ids_of (map L (nth r ids [])).
  Definition members (c : Z) : list nat :=
    filter (fun q => existsb (Z.eqb c) (map L (nth q ids []))) (seq 0 n).
  Definition il (r : nat) (c : Z) : list nat :=
    index_list n (map L (nth r ids [])) (nth r ids []) c.
  Definition the_clique (r : nat) (c : Z) : clique :=
    Clique (il r c) (length (il r c) * 3) (Comm (Z.to_nat c) (members c)).

  Lemma rank_cliques_In r c : In c (rank_cliques r) <-> exists g, holds ids r g /\ L g = c.
  Proof.
    unfold rank_cliques, clique_ids_of. rewrite zsort_uniq_In, in_map_iff.
    unfold holds. split; intros (g & H1 & H2); exists g; auto.
  Qed.

  Lemma rank_cliques_pos r c : In c (rank_cliques r) -> 1 <= c < num.
  Proof.
    intros H. apply rank_cliques_In in H as (g & Hg & <-).
    pose proof (ti_range _ _ _ _ table g). pose proof (ti_zero _ _ _ _ table g).
    assert (L g <> 0) by (intros e; apply (proj1 H0 e r Hg)). lia.
  Qed.

  Lemma rank_cliques_sorted r : StronglySorted Z.lt (rank_cliques r).
  Proof. apply zsort_uniq_sorted. Qed.

  Lemma rank_cliques_NoDup r : NoDup (rank_cliques r).
  Proof. apply zsort_uniq_NoDup. Qed.

  Lemma members_In c q : In q (members c) <-> In c (rank_cliques q).
  Proof.
    unfold members. rewrite filter_In, in_seq, existsb_exists, rank_cliques_In.
    split.
    - intros (_ & x & Hx & E). apply Z.eqb_eq in E; subst x.
      apply in_map_iff in Hx as (g & Hg & Hi). exists g; auto.
    - intros (g & Hg & <-). split.
      + apply holds_lt in Hg. unfold n. lia.
      + exists (L g). split; [apply in_map, Hg|apply Z.eqb_refl].
  Qed.

  Lemma nth_map_ids r : nth r (map (map L) ids) [] = map L (nth r ids []).
  Proof. change (@nil Z) with (map L []) at 1. apply map_nth. Qed.

  Lemma nth_map_d {A B} (f : A -> B) (l : list A) i d d' :
    (i < length l)%nat -> nth i (map f l) d' = f (nth i l d).
  Proof.
    intros H. rewrite (nth_indep _ _ (f d)) by (rewrite map_length; auto). apply map_nth.
  Qed.

  Lemma setup_colors :
    exists colors,
      omapM (fun a => clique_colors_of num (clique_ids_of a)) (map (map L) ids) = Ok colors /\
      length colors = n /\
      (forall r, (r < n)%nat -> length (nth r colors []) = Z.to_nat num) /\
      (forall r i, (r < n)%nat ->
         (nth i (nth r colors []) false = true <-> In (Z.of_nat i) (rank_cliques r))).
  Proof.
    assert (Hnum : 0 <= num) by (pose proof (ti_next _ _ _ _ table); lia).
    assert (Hall : forall l, In l ids -> exists cols,
               clique_colors_of num (clique_ids_of (map L l)) = Ok cols /\ length cols = Z.to_nat num /\
               forall i, nth i cols false = true <-> In (Z.of_nat i) (clique_ids_of (map L l))).
    { intros l Hl. apply clique_colors_ok; auto.
      apply (In_nth _ _ []) in Hl as (r & Hr & <-).
      apply Forall_forall. intros c Hc. apply (rank_cliques_pos r) in Hc. lia. }
    assert (G : exists colors,
      omapM (fun a => clique_colors_of num (clique_ids_of a)) (map (map L) ids) = Ok colors /\
      Forall2 (fun l cols => length cols = Z.to_nat num /\
        forall i, nth i cols false = true <-> In (Z.of_nat i) (clique_ids_of (map L l))) ids colors).
    { clear -Hall. clearbody L num. induction ids as [|l ls IH]; simpl.
      - exists []. split; [reflexivity|constructor].
      - destruct (Hall l (or_introl eq_refl)) as (cols & E & H1 & H2).
        destruct IH as (cs & E' & F). { intros; apply Hall; now right. }
        exists (cols :: cs). rewrite E; simpl. rewrite E'; simpl.
        split; [reflexivity|]. constructor; auto. }
    destruct G as (colors & E & F). exists colors. split; [exact E|].
    assert (Hlen : length colors = n) by (symmetry; eapply Forall2_len; eauto).
    assert (HF : forall r, (r < n)%nat ->
       length (nth r colors []) = Z.to_nat num /\
       forall i, nth i (nth r colors []) false = true <-> In (Z.of_nat i) (rank_cliques r)).
    { intros r Hr. unfold rank_cliques. unfold n in Hr. clear -F Hr. fold L. clearbody L num. revert r Hr.
      induction F as [|l cols ls cs H F IH]; intros r Hr; simpl in *; [lia|].
      destruct r as [|r]; [exact H|]. apply IH. lia. }
    split; [exact Hlen|]. split; intros; apply HF; auto.
  Qed.

  Lemma comms_of_eq colors r :
    (r < n)%nat -> length colors = n ->
    (forall r, (r < n)%nat -> length (nth r colors []) = Z.to_nat num) ->
    (forall r i, (r < n)%nat ->
         (nth i (nth r colors []) false = true <-> In (Z.of_nat i) (rank_cliques r))) ->
    comms_of colors r = map (fun c => Comm (Z.to_nat c) (members c)) (rank_cliques r).
  Proof.
    intros Hr Hlen Hl Hc. unfold comms_of.
    assert (Hm : forall i, split_members colors i = members (Z.of_nat i)).
    { intros i. unfold split_members. rewrite Hlen.
      apply StronglySorted_unique with (R := lt); try (intros; lia).
      - apply StronglySorted_filter, StronglySorted_seq.
      - apply StronglySorted_filter, StronglySorted_seq.
      - intros q. rewrite members_In. unfold color_at. rewrite filter_In, in_seq.
        split.
        + intros (Hq & H). apply Hc; [lia|auto].
        + intros H. assert ((q < n)%nat).
          { apply rank_cliques_In in H as (g & Hg & _). apply holds_lt in Hg. auto. }
          split; [lia|]. apply Hc; auto. }
    assert (Hidx : filter (fun call => color_at colors r call) (split_calls colors r)
                   = map Z.to_nat (rank_cliques r)).
    { apply StronglySorted_unique with (R := lt); try (intros; lia).
      - apply StronglySorted_filter, StronglySorted_seq.
      - apply (proj1 (StronglySorted_map lt Z.to_nat _)).
        assert (Hpos : forall c, In c (rank_cliques r) -> 1 <= c) by (intros c H; apply rank_cliques_pos in H; lia).
        pose proof (rank_cliques_sorted r) as Hs.
        induction Hs as [|c l Hs IH Hf]; constructor.
        + apply IH. intros; apply Hpos; now right.
        + apply Forall_forall. intros d Hd. rewrite Forall_forall in Hf.
          specialize (Hf d Hd). pose proof (Hpos c (or_introl eq_refl)). lia.
      - intros i. rewrite filter_In. unfold split_calls, color_at. rewrite in_seq, Hl by auto.
        rewrite Hc by auto. rewrite in_map_iff. split.
        + intros (_ & H). exists (Z.of_nat i). split; [lia|auto].
        + intros (c & <- & H). pose proof (rank_cliques_pos r c H).
          rewrite Z2Nat.id by lia. split; [lia|auto]. }
    rewrite Hidx, map_map. apply map_ext_in. intros c Hci.
    pose proof (rank_cliques_pos r c Hci). rewrite Hm, Z2Nat.id by lia. reflexivity.
  Qed.

  (** The set-up never aborts, throws or indexes out of bounds, and produces exactly one
      clique record per clique number of the rank. *)
  Lemma setup_ok :
    generate_reduction_info ids = Ok (map (fun r => map (the_clique r) (rank_cliques r)) (seq 0 n)).
  Proof.
    unfold generate_reduction_info, rank_colors. rewrite clique_assignments_eq. fold L num n.
    destruct setup_colors as (colors & E & Hlen & Hl & Hc).
    rewrite E. cbn [obind].
    apply omapM_ok. intros r Hr. apply in_seq in Hr.
    rewrite nth_map_ids. unfold reduction_info.
    rewrite comms_of_eq by (auto; lia).
    rewrite map_length. fold (rank_cliques r). rewrite Nat.eqb_refl.
    f_equal. rewrite <- (map_id (rank_cliques r)) at 1.
    assert (Hcomb : forall {X Y Z0} (f : X -> Y) (h : X -> Z0) l,
      combine (map f l) (map h l) = map (fun x => (f x, h x)) l).
    { clear. intros X Y Z0 f h l. induction l; simpl; congruence. }
    rewrite Hcomb, map_map. apply map_ext. intros c. reflexivity.
  Qed.

  Lemma setup_nth r : (r < n)%nat ->
    nth r (map (fun r => map (the_clique r) (rank_cliques r)) (seq 0 n)) []
    = map (the_clique r) (rank_cliques r).
  Proof.
    intros Hr. rewrite nth_map_d with (d := 0%nat) by (rewrite seq_length; auto).
    rewrite seq_nth by auto. reflexivity.
  Qed.

  (** ** Index lists *)
  Definition gid (r i : nat) : Z := nth i (nth r ids []) 0.

  Lemma ids_NoDup r : NoDup (nth r ids []).
  Proof.
    destruct (Nat.lt_ge_cases r n) as [H|H].
    - unfold all_nodup in Hnd. rewrite Forall_forall in Hnd. apply Hnd, nth_In, H.
    - rewrite nth_overflow by auto. constructor.
  Qed.

  Lemma gid_inj r i i' : (i < length (nth r ids []))%nat -> (i' < length (nth r ids []))%nat ->
    gid r i = gid r i' -> i = i'.
  Proof. intros. eapply NoDup_nth; eauto. apply ids_NoDup. Qed.

  Lemma il_In r c i :
    In i (il r c) <-> (i < length (nth r ids []))%nat /\ L (gid r i) = c /\ Z.of_nat n < c.
  Proof.
    unfold il, index_list. rewrite isort_In, filter_In, in_seq, map_length.
    assert (H : (i < length (nth r ids []))%nat -> nth i (map L (nth r ids [])) 0 = L (gid r i)).
    { intros H. unfold gid. now rewrite nth_map_d with (d := 0). }
    split.
    - intros ((_ & Hi) & Hb). rewrite H in Hb by lia.
      apply andb_prop in Hb as [H1 H2]. lia.
    - intros (Hi & Hc & Hgt). rewrite H by auto. subst c. split; [lia|].
      apply andb_true_intro. split; lia.
  Qed.

  Lemma il_NoDup r c : NoDup (il r c).
  Proof. apply isort_NoDup, NoDup_filter, seq_NoDup. Qed.

  Lemma il_private r c : c <= Z.of_nat n -> il r c = [].
  Proof.
    intros H. destruct (il r c) as [|i l] eqn:E; auto.
    assert (Hi : In i (il r c)) by (rewrite E; now left).
    apply il_In in Hi. lia.
  Qed.

  Definition gids (r : nat) (c : Z) : list Z := map (gid r) (il r c).

  Lemma gids_sorted r c : StronglySorted Z.lt (gids r c).
  Proof.
    unfold gids. apply (proj1 (StronglySorted_map Z.lt (gid r) _)).
    pose proof (il_NoDup r c) as Hn.
    assert (Hb : forall i, In i (il r c) -> (i < length (nth r ids []))%nat) by (intros i H; apply il_In in H; tauto).
    assert (Hs : StronglySorted (fun a b => (gid r a <=? gid r b) = true) (il r c)).
    { unfold il, index_list. apply isort_sorted; cbv beta; unfold gid; intros; lia. }
    revert Hn Hb Hs. generalize (il r c) as l. induction l as [|a l IH]; intros Hn Hb Hs; constructor.
    - inversion Hn; inversion Hs; subst. apply IH; auto. intros; apply Hb; now right.
    - inversion Hn as [|? ? Hna Hnl]; inversion Hs as [|? ? Hsl Hf]; subst.
      apply Forall_forall. intros b Hbl. rewrite Forall_forall in Hf. specialize (Hf b Hbl).
      cbv beta in Hf.
      assert (gid r a <> gid r b); [|lia].
      intros e. apply gid_inj in e; [subst; auto| |]; apply Hb; simpl; auto.
  Qed.

  Lemma gids_In r c g : In g (gids r c) <-> holds ids r g /\ L g = c /\ Z.of_nat n < c.
  Proof.
    unfold gids. rewrite in_map_iff. split.
    - intros (i & <- & Hi). apply il_In in Hi as (H1 & H2 & H3).
      repeat split; auto. unfold holds, gid. now apply nth_In.
    - intros (H1 & H2 & H3). unfold holds in H1.
      apply (In_nth _ _ 0) in H1 as (i & Hi & E).
      exists i. split; auto. apply il_In. unfold gid. rewrite E. auto.
  Qed.

  (** All members of a clique list the same global ids in the same order. *)
  Lemma gids_agree r q c : In c (rank_cliques r) -> In c (rank_cliques q) -> gids r c = gids q c.
  Proof.
    intros Hr Hq. apply StronglySorted_unique with (R := Z.lt); try (intros; lia);
      try apply gids_sorted.
    assert (Hone : forall r q g, In c (rank_cliques q) -> holds ids r g -> L g = c -> holds ids q g).
    { clear r q Hr Hq. intros r q g Hq Hg E. apply rank_cliques_In in Hq as (h & Hh & Eh).
      assert (Hs : L g = L h) by congruence. apply (ti_same _ _ _ _ table) in Hs. now apply Hs. }
    intros g. rewrite !gids_In. split; intros (H1 & H2 & H3); repeat split; auto; eapply Hone; eauto.
  Qed.

  Lemma members_holders r g : holds ids r g -> members (L g) = holders ids g.
  Proof.
    intros Hg. unfold holders. apply StronglySorted_unique with (R := lt); try (intros; lia);
      try (apply StronglySorted_filter, StronglySorted_seq).
    intros q. rewrite members_In, filter_In, in_seq, holdsb_spec, rank_cliques_In. split.
    - intros (h & Hh & E). apply (ti_same _ _ _ _ table) in E.
      assert (Hq : holds ids q g) by (apply E; auto).
      split; auto. apply holds_lt in Hq. lia.
    - intros (_ & Hq). eauto.
  Qed.

  Lemma shared_iff r g : holds ids r g ->
    (Z.of_nat n < L g <-> exists r', r' <> r /\ holds ids r' g).
  Proof.
    intros Hg. split.
    - intros Hlt.
      destruct (forallb (fun q => Nat.eqb q r) (holders ids g)) eqn:All.
      + exfalso. rewrite (ti_single _ _ _ _ table g r Hg) in Hlt.
        * apply holds_lt in Hg. unfold n in Hlt. lia.
        * intros r' Hr'. rewrite forallb_forall in All. apply Nat.eqb_eq, All, holders_In, Hr'.
      + assert (exists q, In q (holders ids g) /\ q <> r) as (q & Hq & Hne).
        { clear -All. induction (holders ids g) as [|a t IH]; simpl in All; [discriminate|].
          destruct (Nat.eqb_spec a r); simpl in All.
          - destruct (IH All) as (q & ? & ?). exists q; simpl; auto.
          - exists a; simpl; auto. }
        exists q. split; auto. now apply holders_In.
    - intros (q & Hne & Hq). exact (ti_multi _ _ _ _ table g q r Hq Hg Hne).
  Qed.

  (** Every rank performs the same sequence of collective splits. *)
  Lemma same_split_calls : exists colors, rank_colors ids = Ok colors /\ length colors = n /\
    forall r, (r < n)%nat -> split_calls colors r = seq 0 (Z.to_nat num).
  Proof.
    unfold rank_colors. rewrite clique_assignments_eq. fold L num n.
    destruct setup_colors as (colors & E & Hlen & Hl & Hc).
    exists colors. split; [exact E|]. split; [exact Hlen|].
    intros r Hr. unfold split_calls. now rewrite Hl.
  Qed.

  (** Every shared node of a rank sits in exactly one of its cliques, whose communicator is
      made of exactly the ranks holding the node; private nodes sit in none. *)
  Lemma clique_of_node r i g : nth_error (nth r ids []) i = Some g ->
    let cls := map (the_clique r) (rank_cliques r) in
    (forall k cl, nth_error cls k = Some cl -> In i (cl_indices cl) ->
        (1 < length (holders ids g))%nat /\
        cl_comm cl = Comm (Z.to_nat (L g)) (holders ids g)) /\
    ((1 < length (holders ids g))%nat -> exists k cl, nth_error cls k = Some cl /\ In i (cl_indices cl)) /\
    (forall k k' cl cl', nth_error cls k = Some cl -> nth_error cls k' = Some cl' ->
        In i (cl_indices cl) -> In i (cl_indices cl') -> k = k').
  Proof.
    intros Hi cls.
    assert (Hil : (i < length (nth r ids []))%nat) by (eapply nth_error_Some_lt; eauto).
    assert (Hg : gid r i = g) by (unfold gid; now apply nth_error_nth).
    assert (Hh : holds ids r g) by (unfold holds; eapply nth_error_In; eauto).
    assert (Hcl : forall k cl, nth_error cls k = Some cl -> In i (cl_indices cl) ->
       nth_error (rank_cliques r) k = Some (L g) /\ cl = the_clique r (L g) /\ Z.of_nat n < L g).
    { intros k cl Hk Hin. unfold cls in Hk. rewrite nth_error_map in Hk.
      destruct (nth_error (rank_cliques r) k) as [c|] eqn:Ec; [|discriminate].
      injection Hk as <-. simpl in Hin. apply il_In in Hin as (_ & E & Hgt). rewrite Hg in E. subst c. auto. }
    assert (Hsh : (1 < length (holders ids g))%nat <-> Z.of_nat n < L g).
    { rewrite (shared_iff r g Hh). split.
      - intros Hlt. destruct (holders ids g) as [|a [|b t]] eqn:E; simpl in Hlt; try lia.
        assert (Hab : a <> b).
        { assert (Hn : NoDup (holders ids g)) by (unfold holders; apply NoDup_filter, seq_NoDup).
          rewrite E in Hn. inversion Hn as [|? ? Ha _]; subst. intros ->. apply Ha. now left. }
        assert (Ha : holds ids a g) by (apply holders_In; rewrite E; simpl; auto).
        assert (Hb : holds ids b g) by (apply holders_In; rewrite E; simpl; auto).
        destruct (Nat.eq_dec a r); [exists b|exists a]; split; auto; congruence.
      - intros (r' & Hne & Hr').
        assert (H2 : NoDup [r; r']) by (repeat constructor; simpl; intuition congruence).
        eapply Nat.lt_le_trans with (m := length [r; r']); [simpl; lia|].
        apply NoDup_incl_length; auto. intros x [<-|[<-|[]]]; apply holders_In; auto. }
    repeat split.
    - destruct (Hcl _ _ H H0) as (_ & _ & ?). now apply Hsh.
    - destruct (Hcl _ _ H H0) as (_ & -> & ?). simpl. now rewrite (members_holders r g Hh).
    - intros Hlt. apply Hsh in Hlt.
      assert (Hin : In (L g) (rank_cliques r)) by (apply rank_cliques_In; eauto).
      apply In_nth_error in Hin as (k & Hk).
      exists k, (the_clique r (L g)). split.
      + unfold cls. now rewrite nth_error_map, Hk.
      + simpl. apply il_In. rewrite Hg. auto.
    - intros k k' cl cl' Hk Hk' H1 H2. destruct (Hcl _ _ Hk H1) as (Hk1 & _). destruct (Hcl _ _ Hk' H2) as (Hk2 & _).
      apply (proj1 (NoDup_nth_error (rank_cliques r)) (rank_cliques_NoDup r)).
      + eapply nth_error_Some_lt; eauto.
      + congruence.
  Qed.

End Setup.
