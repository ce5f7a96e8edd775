(** Proofs about the compressed-row container. *)
From Verif Require Import Base ListLemmas Loops LinModel LinSpec.
From Coq Require Import Reals Sorting.Sorted.
Local Open Scope nat_scope.
Set Implicit Arguments.

Lemma sorted_nth {A} (R : A -> A -> Prop) l : StronglySorted R l ->
  forall i j x y, i < j -> nth_error l i = Some x -> nth_error l j = Some y -> R x y.
Proof.
  induction 1 as [|a l Hs IH Hf]; intros i j x y Hij Hi Hj.
  - destruct i; discriminate.
  - destruct j as [|j]; [lia|]. simpl in Hj. destruct i as [|i]; simpl in Hi.
    + injection Hi as <-. eapply Forall_forall in Hf; eauto. eapply nth_error_In; eauto.
    + apply (IH i j); auto. lia.
Qed.

Lemma fold_max_ge l m : m <= fold_left (fun m i => if m <? i then i else m) l m /\
  (forall x, In x l -> x <= fold_left (fun m i => if m <? i then i else m) l m).
Proof.
  revert m; induction l as [|a l IH]; intros m; simpl; [split; [lia|intros ? []]|].
  destruct (IH (if m <? a then a else m)) as [H1 H2].
  destruct (Nat.ltb_spec m a); split; try lia; intros x [->|Hx]; auto; lia.
Qed.
Lemma fold_max_in l m : fold_left (fun m i => if m <? i then i else m) l m = m \/
  In (fold_left (fun m i => if m <? i then i else m) l m) l.
Proof.
  revert m; induction l as [|a l IH]; intros m; simpl; auto.
  destruct (IH (if m <? a then a else m)) as [H|H]; auto.
  rewrite H. destruct (m <? a); auto.
Qed.

Arguments Nat.div : simpl never.
Section Crs.
  Context {T : Type} (zero : T) (pat : list (nat * nat)) (Hpat : good_pattern pat).
  Let n := length pat.
  Let nrows := fold_left (fun m i => if m <? i then i else m) (map fst pat) 0 + 1.

  Lemma ii_nth k : nth_error (map fst pat) k = option_map fst (nth_error pat k).
  Proof. apply nth_error_map. Qed.

  Lemma row_mono a b p q : a <= b -> nth_error pat a = Some p -> nth_error pat b = Some q -> fst p <= fst q.
  Proof.
    intros H Ha Hb. destruct (Nat.eq_dec a b) as [->|]; [assert (p = q) by congruence; subst; lia|].
    pose proof (@sorted_nth _ _ _ (gp_sorted Hpat) a b p q ltac:(lia) Ha Hb) as [H1|[H1 _]]; lia.
  Qed.

  (** k is the first entry of row r *)
  Definition first_of (r k : nat) : Prop :=
    exists j, nth_error pat k = Some (r, j) /\ forall m p, m < k -> nth_error pat m = Some p -> fst p < r.

  Lemma row_lt r j : In (r, j) pat -> r < nrows.
  Proof.
    intros H. unfold nrows. destruct (fold_max_ge (map fst pat) 0) as [_ H2].
    specialize (H2 r). rewrite Nat.add_1_r. apply Nat.lt_succ_r. apply H2.
    change r with (fst (r, j)). now apply in_map.
  Qed.
  Lemma is_row_iff r : is_row pat r <-> r < nrows.
  Proof.
    split.
    - intros (j & H). eapply row_lt; eauto.
    - unfold nrows. intros H. destruct (fold_max_in (map fst pat) 0) as [E|E].
      + rewrite E in H. assert (r = 0) by lia. subst r.
        destruct pat as [|[i j] p] eqn:Ep; [destruct (gp_nonempty Hpat); auto|].
        destruct (@gp_rows _ Hpat 0 i j) as (j' & ?); [now left|lia|]. now exists j'.
      + apply in_map_iff in E as ([i j] & E & Hin). simpl in E. rewrite <- E in H.
        destruct (@gp_rows _ Hpat r i j Hin) as (j' & ?); [lia|]. now exists j'.
  Qed.

  Lemma vec_resize_length {U} (l : list U) k d : length (vec_resize l k d) = k.
  Proof. unfold vec_resize. rewrite app_length, firstn_length, repeat_length. lia. Qed.

  Definition rf_ok (rf : list nat) : Prop :=
    length rf = nrows + 1 /\ nth_error rf nrows = Some n /\
    forall r, r < nrows -> exists k, nth_error rf r = Some k /\ first_of r k.

  Lemma allocate_ok (a : crs T) : exists rf, 
    allocate_nonzeros zero a (map fst pat) (map snd pat) =
    Ok (CRS nrows (vec_resize (data a) n zero) (map fst pat) (map snd pat) rf) /\ rf_ok rf.
  Proof.
    unfold allocate_nonzeros. rewrite map_length. fold nrows. fold n.
    set (rf0 := vec_resize (row_first a) (nrows + 1) 0).
    pose (P := fun (i : nat) (st : list nat * Z) =>
      length (fst st) = nrows + 1 /\
      (i = 0 /\ snd st = (-1)%Z \/ exists p, i <> 0 /\ nth_error pat (i - 1) = Some p /\ snd st = Z.of_nat (fst p)) /\
      forall r, (Z.of_nat r <= snd st)%Z -> exists k, nth_error (fst st) r = Some k /\ first_of r k).
    destruct (@oloop_ind _ P 0 n (fun i st =>
        let '(rf, cur) := st in
        do row <- vget (map fst pat) i;
        if (cur <? Z.of_nat row)%Z then do rf' <- vset rf row i; Ok (rf', Z.of_nat row) else Ok (rf, cur))
        (rf0, (-1)%Z)) as (st & E & HP); [lia| | |].
    - split; [apply vec_resize_length|]. split; [left; auto|]. simpl. intros r Hr. lia.
    - intros k [rf cur] Hk (H1 & H2 & H3). cbn [fst snd] in *.
      destruct (nth_error pat k) as [p|] eqn:Ep.
      2:{ apply nth_error_None in Ep. fold n in Ep. lia. }
      unfold vget. rewrite ii_nth, Ep. simpl obind.
      assert (Hprev : forall m q, m < k -> nth_error pat m = Some q -> (Z.of_nat (fst q) <= cur)%Z).
      { intros m q Hm Hq. destruct H2 as [[-> _]|(p' & Hne & Hp' & ->)]; [lia|].
        apply inj_le. apply (@row_mono m (k - 1)); auto. lia. }
      destruct (Z.ltb_spec cur (Z.of_nat (fst p))) as [Hlt|Hge].
      + assert (Hr : fst p < nrows). { apply (@row_lt _ (snd p)). rewrite <- surjective_pairing. eapply nth_error_In; eauto. }
        unfold vset. rewrite H1. replace (fst p <? nrows + 1) with true by (symmetry; apply Nat.ltb_lt; lia).
        simpl obind. eexists. split; [reflexivity|].
        split; [simpl; now rewrite list_set_length|]. split.
        { right. exists p. split; [lia|]. replace (1 + k - 1) with k by lia. auto. }
        simpl. intros r Hr2. rewrite nth_error_list_set, H1.
        destruct (Nat.eqb_spec r (fst p)) as [->|Hne]; simpl.
        * replace (fst p <? nrows + 1) with true by (symmetry; apply Nat.ltb_lt; lia).
          exists k. split; auto. exists (snd p). rewrite <- surjective_pairing. split; auto.
          intros m q Hm Hq. specialize (Hprev m q Hm Hq). lia.
        * destruct (Z_le_gt_dec (Z.of_nat r) cur) as [Hle|Hgt]; [apply H3; auto|].
          exfalso.
          destruct (@gp_rows _ Hpat r (fst p) (snd p)) as (j & Hin).
          { rewrite <- surjective_pairing. eapply nth_error_In; eauto. }
          { lia. }
          apply In_nth_error in Hin as (m & Hm).
          destruct (Nat.lt_ge_cases m k) as [Hmk|Hmk].
          -- specialize (Hprev m _ Hmk Hm). simpl in Hprev. lia.
          -- pose proof (@row_mono k m p (r, j) Hmk Ep Hm). simpl in H. lia.
      + eexists. split; [reflexivity|]. split; auto. split.
        { right. exists p. split; [lia|]. replace (1 + k - 1) with k by lia. split; auto.
          destruct H2 as [[-> Hc]|(p' & Hne & Hp' & Hc)]; cbn [fst snd] in *; [lia|].
          pose proof (@row_mono (k-1) k p' p ltac:(lia) Hp' Ep). lia. }
        intros r Hr. apply H3. exact Hr.
    - rewrite E. simpl obind. destruct HP as (H1 & H2 & H3).
      unfold vset. rewrite H1. replace (nrows <? nrows + 1) with true by (symmetry; apply Nat.ltb_lt; lia).
      simpl obind. eexists. split; [reflexivity|]. split; [now rewrite list_set_length|]. split.
      + rewrite nth_error_list_set, H1, Nat.eqb_refl.
        replace (nrows <? nrows + 1) with true by (symmetry; apply Nat.ltb_lt; lia). reflexivity.
      + intros r Hr. rewrite nth_error_list_set.
        replace (r =? nrows) with false by (symmetry; apply Nat.eqb_neq; lia). simpl. apply H3.
        destruct H2 as [[Hn0 _]|(p & Hne & Hp & ->)].
        * destruct pat; [destruct (gp_nonempty Hpat); auto|discriminate].
        * assert (Hin := proj2 (is_row_iff r) Hr). destruct Hin as (j & Hin).
          apply In_nth_error in Hin as (m & Hm).
          apply inj_le. assert (m <= n - 1).
          { assert (m < length pat) by (apply nth_error_Some; congruence). unfold n. lia. }
          change r with (fst (r, j)). now apply (@row_mono m (n-1)).
  Qed.

  (** a container with this pattern whose row table is right *)
  Definition shaped (a : crs T) : Prop :=
    num_rows a = nrows /\ i_index a = map fst pat /\ j_index a = map snd pat /\
    length (data a) = n /\ rf_ok (row_first a).

  (** bounds of row r *)
  Lemma row_bounds rf r : rf_ok rf -> r < nrows -> exists b e,
    nth_error rf r = Some b /\ nth_error rf (r + 1) = Some e /\ b < e <= n /\
    (forall k p, nth_error pat k = Some p -> (b <= k < e <-> fst p = r)).
  Proof.
    intros (H1 & H2 & H3) Hr. destruct (H3 r Hr) as (b & Eb & (j & Hb & Hbm)).
    assert (Hbn : b < n) by (apply nth_error_Some; congruence).
    assert (He : exists e, nth_error rf (r + 1) = Some e /\ e <= n /\
       (forall k p, nth_error pat k = Some p -> (k < e <-> fst p < r + 1))).
    { destruct (Nat.eq_dec (r + 1) nrows) as [E|Hne].
      - exists n. rewrite E. split; auto. split; [lia|]. intros k p Hk. split.
        + intros _. rewrite <- E. rewrite E. apply (@row_lt _ (snd p)). rewrite <- surjective_pairing.
          eapply nth_error_In; eauto.
        + intros _. apply nth_error_Some. congruence.
      - destruct (H3 (r + 1)) as (e & Ee & (j' & He & Hem)); [lia|]. exists e. split; auto.
        split; [apply Nat.lt_le_incl; apply nth_error_Some; congruence|].
        intros k p Hk. split; [intros Hke; apply (Hem k p); auto|].
        intros Hlt. destruct (Nat.lt_ge_cases k e) as [|Hge]; auto.
        pose proof (@row_mono e k _ p Hge He Hk). simpl in *. lia. }
    destruct He as (e & Ee & Hen & Hem). exists b, e. repeat split; auto.
    - apply (Hem b _ Hb). simpl. lia.
    - intros [Hk1 Hk2]. apply (Hem k p H) in Hk2.
      pose proof (@row_mono b k _ p Hk1 Hb H). simpl in *. lia.
    - destruct (Nat.lt_ge_cases k b) as [Hlt|]; auto. specialize (Hbm k p Hlt H). lia.
    - apply (Hem k p H). lia.
  Qed.

  Lemma find_loop_found jj j : forall fuel mn mx trial jv t b e,
    (forall k k' v v', b <= k -> k < k' -> k' < e -> nth_error jj k = Some v -> nth_error jj k' = Some v' -> v < v') ->
    e <= length jj -> b <= mn -> mx <= e -> mn <= t < mx -> nth_error jj t = Some j ->
    mx - mn <= fuel -> trial = (mn + mx) / 2 -> nth_error jj trial = Some jv ->
    find_loop jj j fuel mn mx trial jv = Ok t.
  Proof.
    induction fuel as [|fuel IH]; intros mn mx trial jv t b e Hs He Hb Hmx Ht Htj Hf Etr Hjv; [lia|].
    simpl find_loop.
    assert (Htr : mn <= trial < mx).
    { subst trial. split; [apply Nat.div_le_lower_bound; lia|apply Nat.div_lt_upper_bound; lia]. }
    destruct (Nat.eqb_spec jv j) as [->|Hne].
    - f_equal. destruct (Nat.lt_trichotomy trial t) as [H|[H|H]]; auto; exfalso.
      + pose proof (Hs trial t j j ltac:(lia) H ltac:(lia) Hjv Htj). lia.
      + pose proof (Hs t trial j j ltac:(lia) H ltac:(lia) Htj Hjv). lia.
    - destruct (Nat.ltb_spec jv j) as [Hlt|Hge].
      + assert (trial < t).
        { destruct (Nat.lt_trichotomy trial t) as [H|[H|H]]; auto; exfalso.
          - subst t. congruence.
          - pose proof (Hs t trial j jv ltac:(lia) H ltac:(lia) Htj Hjv). lia. }
        assert (Ht2 : trial <= (trial + mx) / 2 < mx).
        { split; [apply Nat.div_le_lower_bound; lia|apply Nat.div_lt_upper_bound; lia]. }
        unfold vget. destruct (nth_error jj ((trial + mx) / 2)) as [v|] eqn:Ev.
        2:{ apply nth_error_None in Ev. lia. }
        simpl. assert (mn < trial).
        { destruct (Nat.eq_dec mn trial) as [->|]; [|lia]. exfalso.
          pose proof (Nat.div_mod (trial + mx) 2 ltac:(lia)). pose proof (Nat.mod_upper_bound (trial + mx) 2 ltac:(lia)). lia. }
        eapply IH; eauto; lia.
      + assert (t < trial).
        { destruct (Nat.lt_trichotomy trial t) as [H|[H|H]]; auto; exfalso.
          - pose proof (Hs trial t jv j ltac:(lia) H ltac:(lia) Hjv Htj). lia.
          - subst t. congruence. }
        assert (Ht2 : mn <= (mn + trial) / 2 < trial).
        { split; [apply Nat.div_le_lower_bound; lia|apply Nat.div_lt_upper_bound; lia]. }
        unfold vget. destruct (nth_error jj ((mn + trial) / 2)) as [v|] eqn:Ev.
        2:{ apply nth_error_None in Ev. lia. }
        simpl. eapply IH; eauto; lia.
  Qed.

  Lemma find_loop_absent jj j b e : e <= length jj ->
    (forall k, b <= k < e -> nth_error jj k <> Some j) ->
    forall fuel mn mx trial jv, b <= mn -> mn < e -> mn <= mx -> mx <= e -> b <= trial < e ->
    nth_error jj trial = Some jv -> trial = (mn + mx) / 2 ->
    find_loop jj j fuel mn mx trial jv = Throw.
  Proof.
    intros He Habs. induction fuel as [|fuel IH]; intros mn mx trial jv H1 H2 H3 H4 H5 Hjv Etr; [reflexivity|].
    simpl. destruct (Nat.eqb_spec jv j) as [->|Hne]; [exfalso; now apply (Habs trial)|].
    assert (Htr : mn <= trial <= mx).
    { subst trial. split; [apply Nat.div_le_lower_bound; lia|]. apply Nat.div_le_upper_bound; lia. }
    destruct (jv <? j).
    - assert (trial <= (trial + mx) / 2 < e).
      { split; [apply Nat.div_le_lower_bound; lia|apply Nat.div_lt_upper_bound; lia]. }
      unfold vget. destruct (nth_error jj ((trial + mx) / 2)) as [v|] eqn:Ev.
      2:{ apply nth_error_None in Ev. lia. }
      simpl. eapply IH; eauto; lia.
    - assert (mn <= (mn + trial) / 2 < e).
      { split; [apply Nat.div_le_lower_bound; lia|apply Nat.div_lt_upper_bound; lia]. }
      unfold vget. destruct (nth_error jj ((mn + trial) / 2)) as [v|] eqn:Ev.
      2:{ apply nth_error_None in Ev. lia. }
      simpl. eapply IH; eauto; lia.
  Qed.

  Lemma find_index_found a k i j : shaped a -> nth_error pat k = Some (i, j) -> find_index a i j = Ok k.
  Proof.
    intros (_ & _ & Ej & _ & Hrf) Hk.
    assert (Hi : i < nrows) by (eapply row_lt; eapply nth_error_In; eauto).
    destruct (row_bounds Hrf Hi) as (b & e & Eb & Ee & Hbe & Hrow).
    unfold find_index, vget. rewrite Eb, Ee, Ej. simpl obind.
    assert (Hlen : length (map snd pat) = n) by apply map_length.
    assert (Htr : b <= (b + e) / 2 < e).
    { split; [apply Nat.div_le_lower_bound; lia|apply Nat.div_lt_upper_bound; lia]. }
    destruct (nth_error (map snd pat) ((b + e) / 2)) as [jv|] eqn:Ejv.
    2:{ apply nth_error_None in Ejv. lia. }
    simpl obind. apply find_loop_found with (b := b) (e := e); auto; try lia.
    - intros k1 k2 v v' H1 H2 H3 Hv Hv'. rewrite nth_error_map in Hv, Hv'.
      destruct (nth_error pat k1) as [p1|] eqn:E1; [|discriminate].
      destruct (nth_error pat k2) as [p2|] eqn:E2; [|discriminate].
      injection Hv as <-. injection Hv' as <-.
      pose proof (@sorted_nth _ _ _ (gp_sorted Hpat) k1 k2 p1 p2 H2 E1 E2) as [Hl|[_ Hl]]; auto.
      assert (fst p1 = i) by (apply (Hrow k1 p1 E1); lia).
      assert (fst p2 = i) by (apply (Hrow k2 p2 E2); lia). lia.
    - apply (Hrow k (i, j) Hk). reflexivity.
    - rewrite nth_error_map, Hk. reflexivity.
  Qed.

  Lemma find_index_absent a i j : shaped a -> is_row pat i -> ~ In (i, j) pat -> find_index a i j = Throw.
  Proof.
    intros (_ & _ & Ej & _ & Hrf) Hi Hn. apply is_row_iff in Hi.
    destruct (row_bounds Hrf Hi) as (b & e & Eb & Ee & Hbe & Hrow).
    unfold find_index, vget. rewrite Eb, Ee, Ej. simpl obind.
    assert (Hlen : length (map snd pat) = n) by apply map_length.
    assert (Htr : b <= (b + e) / 2 < e).
    { split; [apply Nat.div_le_lower_bound; lia|apply Nat.div_lt_upper_bound; lia]. }
    destruct (nth_error (map snd pat) ((b + e) / 2)) as [jv|] eqn:Ejv.
    2:{ apply nth_error_None in Ejv. lia. }
    simpl obind. apply find_loop_absent with (b := b) (e := e); auto; try lia.
    intros k Hk E. rewrite nth_error_map in E. destruct (nth_error pat k) as [p|] eqn:Ep; [|discriminate].
    injection E as E. apply Hn. assert (fst p = i) by (apply (Hrow k p Ep); lia).
    rewrite <- E, <- H, <- surjective_pairing. eapply nth_error_In; eauto.
  Qed.

  (** the container holds the values D *)
  Definition represents (a : crs T) (D : nat -> nat -> T) : Prop :=
    shaped a /\ forall k i j, nth_error pat k = Some (i, j) -> nth_error (data a) k = Some (D i j).

  Lemma shaped_data a d : shaped a -> length d = n -> shaped (with_data a d).
  Proof. intros (H1 & H2 & H3 & H4 & H5) Hd. repeat split; simpl; auto; apply H5. Qed.

  Lemma vset_ok (d : list T) i v : i < length d -> vset d i v = Ok (list_set d i v).
  Proof. intros H. unfold vset. now replace (i <? length d) with true by (symmetry; now apply Nat.ltb_lt). Qed.

  Lemma fill_range b e (d : list T) v : b <= e <= length d ->
    exists d', oloop b e (fun i d => vset d i v) d = Ok d' /\ length d' = length d /\
      forall k, nth_error d' k = if (b <=? k) && (k <? e) then Some v else nth_error d k.
  Proof.
    intros H.
    destruct (@oloop_ind _ (fun i d' => length d' = length d /\
       forall k, nth_error d' k = if (b <=? k) && (k <? i) then Some v else nth_error d k)
       b e (fun i d => vset d i v) d) as (d' & E & HP); [lia| | |eauto].
    - split; auto. intros k. destruct (Nat.leb_spec b k), (Nat.ltb_spec k b); simpl; auto. lia.
    - intros k s Hk (Hl & Hs). rewrite vset_ok by lia. eexists. split; [reflexivity|].
      split; [now rewrite list_set_length|]. intros k'. rewrite nth_error_list_set, Hs, Hl.
      destruct (Nat.eqb_spec k' k) as [->|].
      + replace (k <? length d) with true by (symmetry; apply Nat.ltb_lt; lia).
        replace (b <=? k) with true by (symmetry; apply Nat.leb_le; lia).
        replace (k <? 1 + k) with true by (symmetry; apply Nat.ltb_lt; lia). reflexivity.
      + simpl. destruct (Nat.leb_spec b k'), (Nat.ltb_spec k' k), (Nat.ltb_spec k' (S k)); simpl; auto; lia.
  Qed.

  Lemma op_refines a D o : represents a D -> op_valid pat o ->
    exists a', op_call a o = Ok a' /\ represents a' (op_meaning D o).
  Proof.
    intros [Hsh HD] Hv. pose proof Hsh as (Hn & Hi & Hj & Hd & Hrf). destruct o as [v|r v|c v|i j v]; simpl op_call.
    - eexists. split; [reflexivity|]. split.
      + unfold set_all_values. apply (@shaped_data a (map (fun _ => v) (data a)) Hsh). now rewrite map_length.
      + intros k i j Hk. simpl. rewrite nth_error_map, (HD k i j Hk). reflexivity.
    - simpl in Hv. apply is_row_iff in Hv. destruct (row_bounds Hrf Hv) as (b & e & Eb & Ee & Hbe & Hrow).
      unfold set_row_values, vget. rewrite Eb, Ee. simpl obind.
      destruct (@fill_range b e (data a) v) as (d' & E & El & Hd'); [lia|]. rewrite E. simpl obind.
      eexists. split; [reflexivity|]. split; [apply shaped_data; auto; lia|].
      intros k i j Hk. simpl. rewrite Hd'. specialize (Hrow k (i, j) Hk). simpl in Hrow.
      destruct (Nat.eqb_spec i r) as [->|Hne].
      + destruct (Nat.leb_spec b k), (Nat.ltb_spec k e); simpl; auto; lia.
      + rewrite (HD k i j Hk). destruct (Nat.leb_spec b k), (Nat.ltb_spec k e); simpl; auto. lia.
    - unfold set_column_values. rewrite Hj, map_length. fold n.
      destruct (@oloop_ind _ (fun k0 d' => length d' = n /\
         forall k i j, nth_error pat k = Some (i, j) ->
           nth_error d' k = if (k <? k0) && (j =? c) then Some v else nth_error (data a) k)
         0 n (fun i d => do j <- vget (map snd pat) i; if j =? c then vset d i v else Ok d) (data a))
        as (d' & E & El & Hd'); [lia| | |].
      + split; auto.
      + intros k s Hk (Hl & Hs). unfold vget. rewrite nth_error_map.
        destruct (nth_error pat k) as [[i0 j0]|] eqn:Ep.
        2:{ apply nth_error_None in Ep. fold n in Ep. lia. }
        simpl obind. destruct (Nat.eqb_spec j0 c) as [->|Hne].
        * rewrite vset_ok by lia. eexists. split; [reflexivity|]. split; [now rewrite list_set_length|].
          intros k' i j Hk'. rewrite nth_error_list_set, Hl, (Hs k' i j Hk').
          destruct (Nat.eqb_spec k' k) as [->|Hne'].
          -- replace (k <? n) with true by (symmetry; apply Nat.ltb_lt; lia).
             assert (j = c) by congruence. subst j.
             replace (k <? 1 + k) with true by (symmetry; apply Nat.ltb_lt; lia).
             rewrite Nat.eqb_refl. reflexivity.
          -- rewrite andb_false_l. destruct (Nat.ltb_spec k' k), (Nat.ltb_spec k' (1 + k)); try lia; reflexivity.
        * eexists. split; [reflexivity|]. split; auto. intros k' i j Hk'. rewrite (Hs k' i j Hk').
          destruct (Nat.ltb_spec k' k), (Nat.ltb_spec k' (1 + k)); simpl; auto; try lia.
          assert (k' = k) by lia. subst k'. destruct (Nat.eqb_spec j c); auto. congruence.
      + rewrite E. simpl obind. eexists. split; [reflexivity|]. split; [apply shaped_data; auto|].
        intros k i j Hk. simpl. rewrite (Hd' k i j Hk), (HD k i j Hk).
        assert (k < n) by (apply nth_error_Some; congruence).
        replace (k <? n) with true by (symmetry; apply Nat.ltb_lt; lia). simpl.
        destruct (j =? c); reflexivity.
    - simpl in Hv. apply In_nth_error in Hv as (k & Hk). unfold crs_set.
      rewrite (@find_index_found a k i j Hsh Hk). simpl obind.
      assert (Hkn : k < n) by (apply nth_error_Some; congruence).
      rewrite vset_ok by lia. simpl obind. eexists. split; [reflexivity|].
      split; [apply shaped_data; auto; now rewrite list_set_length|].
      intros k' i' j' Hk'. simpl. rewrite nth_error_list_set, (HD k' i' j' Hk').
      destruct (Nat.eqb_spec k' k) as [->|Hne].
      + assert (i' = i /\ j' = j) as [-> ->] by (split; congruence).
        rewrite !Nat.eqb_refl, Hd. replace (k <? n) with true by (symmetry; apply Nat.ltb_lt; lia). reflexivity.
      + simpl. destruct (Nat.eqb_spec i' i) as [->|]; simpl; auto.
        destruct (Nat.eqb_spec j' j) as [->|]; simpl; auto. exfalso.
        assert (Hnd : NoDup pat).
        { apply (@StronglySorted_NoDup _ lex_lt); [|apply (gp_sorted Hpat)].
          intros [x y] [H|[_ H]]; simpl in H; lia. }
        apply Hne. apply (proj1 (NoDup_nth_error pat) Hnd k' k); [apply nth_error_Some; congruence|congruence].
  Qed.

  Lemma get_represents a D i j : represents a D ->
    (In (i, j) pat -> crs_get a i j = Ok (D i j)) /\
    (is_row pat i -> ~ In (i, j) pat -> crs_get a i j = Throw).
  Proof.
    intros [Hsh HD]. split.
    - intros Hin. apply In_nth_error in Hin as (k & Hk). unfold crs_get.
      rewrite (@find_index_found a k i j Hsh Hk). simpl. unfold vget. now rewrite (HD k i j Hk).
    - intros Hr Hn. unfold crs_get. now rewrite find_index_absent.
  Qed.

  Lemma allocate_represents : exists a0,
    allocate_nonzeros zero crs_new (map fst pat) (map snd pat) = Ok a0 /\ represents a0 (fun _ _ => zero).
  Proof.
    destruct (allocate_ok crs_new) as (rf & E & Hrf). eexists. split; [exact E|].
    split.
    - repeat split; simpl; auto; try apply Hrf. apply vec_resize_length.
    - intros k i j Hk. simpl. unfold vec_resize. rewrite firstn_nil. simpl.
      apply nth_error_repeat. rewrite Nat.sub_0_r. apply nth_error_Some. congruence.
  Qed.

  Lemma history_refines os : Forall (op_valid pat) os -> exists a0 a,
    allocate_nonzeros zero crs_new (map fst pat) (map snd pat) = Ok a0 /\
    ofold op_call os a0 = Ok a /\ represents a (fold_left op_meaning os (fun _ _ => zero)).
  Proof.
    intros Hv. destruct allocate_represents as (a0 & E0 & H0). exists a0.
    assert (G : forall a D, represents a D -> exists a', ofold op_call os a = Ok a' /\
       represents a' (fold_left op_meaning os D)).
    { induction Hv as [|o os Ho _ IH]; intros a D Ha; simpl; [eauto|].
      destruct (@op_refines a D o Ha Ho) as (a1 & E1 & H1). rewrite E1. simpl. apply IH; auto. }
    destruct (G a0 _ H0) as (a & E & H). eauto.
  Qed.
End Crs.

(** ** Matrix-vector product *)
Local Open Scope R_scope.

Lemma floop_zero n (r : nat -> R) i : floop 0 n (fun i r => upd r i 0) r i = if (i <? n)%nat then 0 else r i.
Proof.
  apply (@floop_ind _ (fun k r' => forall i, r' i = if (i <? k)%nat then 0 else r i)); [lia|auto|].
  clear i. intros k s Hk H i. unfold upd.
  destruct (Nat.eqb_spec i k) as [->|Hne].
  - now replace (k <? 1 + k)%nat with true by (symmetry; apply Nat.ltb_lt; lia).
  - rewrite H. destruct (Nat.ltb_spec i k), (Nat.ltb_spec i (1 + k)); auto; lia.
Qed.

(** generic form: the accumulated value of entry r is the sum over its stored entries *)
Lemma mat_vec_sum (a : rcrs) vec result r : (r < num_rows a)%nat ->
  mat_vec a vec result r =
  Rsum (length (data a)) (fun k => if (nth k (i_index a) 0 =? r)%nat
                                   then nth k (data a) 0 * vec (nth k (j_index a) 0%nat) else 0).
Proof.
  intros Hr. unfold mat_vec.
  apply (@floop_ind _ (fun k res => res r = Rsum k (fun k => if (nth k (i_index a) 0 =? r)%nat
                                   then nth k (data a) 0 * vec (nth k (j_index a) 0%nat) else 0))); [lia| |].
  - rewrite floop_zero. simpl. now replace (r <? num_rows a)%nat with true by (symmetry; apply Nat.ltb_lt; lia).
  - intros k s Hk H. simpl. rewrite <- H. unfold upd.
    rewrite (Nat.eqb_sym r). destruct (Nat.eqb_spec (nth k (i_index a) 0%nat) r) as [->|]; [reflexivity|ring].
Qed.

Lemma dense_of_in pat D i j : In (i, j) pat -> dense_of pat D i j = D i j.
Proof. intros H. unfold dense_of. destruct (in_dec _ _ _); [auto|contradiction]. Qed.
Lemma dense_of_out pat D i j : ~ In (i, j) pat -> dense_of pat D i j = 0.
Proof. intros H. unfold dense_of. destruct (in_dec _ _ _); [contradiction|auto]. Qed.

(** Sum over the pattern = dense double sum. *)
Lemma pattern_sum ncols D x r : forall pat : list (nat * nat), NoDup pat ->
  (forall i j, In (i, j) pat -> (j < ncols)%nat) ->
  Rsum (length pat) (fun k => if (fst (nth k pat (0, 0)%nat) =? r)%nat
     then D (fst (nth k pat (0,0)%nat)) (snd (nth k pat (0,0)%nat)) * x (snd (nth k pat (0, 0)%nat)) else 0) =
  Rsum ncols (fun j => dense_of pat D r j * x j).
Proof.
  induction pat as [|[i j] pat IH] using rev_ind; intros Hnd Hc.
  - simpl. symmetry. apply Rsum_zero. intros k _. rewrite dense_of_out by auto. ring.
  - apply NoDup_app_inv in Hnd as (Hnd & _ & Hdisj).
    rewrite app_length. simpl length. rewrite Nat.add_1_r. simpl Rsum.
    rewrite app_nth2, Nat.sub_diag by lia. simpl.
    rewrite (Rsum_ext _ _ (fun k => if (fst (nth k pat (0, 0)%nat) =? r)%nat
       then D (fst (nth k pat (0,0)%nat)) (snd (nth k pat (0,0)%nat)) * x (snd (nth k pat (0, 0)%nat)) else 0)).
    2:{ intros k Hk. now rewrite app_nth1. }
    rewrite IH; auto.
    2:{ intros i' j' H. apply (Hc i'). apply in_or_app. auto. }
    assert (Hnotin : ~ In (i, j) pat) by (intros H; apply (Hdisj (i, j)); [auto|now left]).
    destruct (Nat.eqb_spec i r) as [->|Hne].
    + replace (D r j * x j) with (Rsum ncols (fun j' => if (j' =? j)%nat then D r j * x j else 0)).
      2:{ rewrite (@Rsum_single ncols _ j).
          - now rewrite Nat.eqb_refl.
          - apply (Hc r). apply in_or_app. right. now left.
          - intros k _ Hk. apply Nat.eqb_neq in Hk. now rewrite Hk. }
      rewrite <- Rsum_plus. apply Rsum_ext. intros k Hk.
      destruct (Nat.eqb_spec k j) as [->|Hkj].
      * rewrite (dense_of_out pat D r j Hnotin), dense_of_in by (apply in_or_app; right; now left). ring.
      * destruct (in_dec nn_dec (r, k) pat) as [Hin|Hin].
        -- rewrite !dense_of_in; auto; [ring|]. apply in_or_app. auto.
        -- rewrite !dense_of_out; auto; [ring|]. intros Hx. apply in_app_or in Hx as [Hx|[[= ?]|[]]]; [auto|congruence].
    + rewrite Rplus_0_r. apply Rsum_ext. intros k Hk. f_equal.
      destruct (in_dec nn_dec (r, k) pat) as [Hin|Hin].
      * rewrite !dense_of_in; auto. apply in_or_app. auto.
      * rewrite !dense_of_out; auto. intros Hx. apply in_app_or in Hx as [Hx|[[= ? ?]|[]]]; [auto|congruence].
Qed.

Lemma mat_vec_dense pat (a : rcrs) D ncols x y r : good_pattern pat -> represents pat a D ->
  (forall i j, In (i, j) pat -> (j < ncols)%nat) -> is_row pat r ->
  mat_vec a x y r = mv ncols (dense_of pat D) x r.
Proof.
  intros Hp [(Hn & Hi & Hj & Hd & _) HD] Hc Hr. unfold mv.
  assert (Hnd : NoDup pat).
  { apply (@StronglySorted_NoDup _ lex_lt); [|apply (gp_sorted Hp)].
    intros [u v] [H|[_ H]]; simpl in H; lia. }
  rewrite mat_vec_sum.
  2:{ rewrite Hn. now apply is_row_iff. }
  rewrite Hd, <- pattern_sum by auto. apply Rsum_ext. intros k Hk. rewrite Hi, Hj.
  destruct (nth_error pat k) as [[i j]|] eqn:E.
  2:{ apply nth_error_None in E. lia. }
  rewrite (@nth_error_nth_eq _ (map fst pat) k 0%nat i).
  2:{ rewrite nth_error_map, E. reflexivity. }
  rewrite (@nth_error_nth_eq _ (map snd pat) k 0%nat j).
  2:{ rewrite nth_error_map, E. reflexivity. }
  rewrite (@nth_error_nth_eq _ _ _ (0, 0)%nat _ E). rewrite (@nth_error_nth_eq _ _ _ 0 _ (HD k i j E)). reflexivity.
Qed.
