(** Proofs about DetermineTangentMatrixNonzeroStructure. *)
From Verif Require Import Base ListLemmas Loops LinModel LinSpec CrsProofs.
From Coq Require Import Sorting.Sorted.
Local Open Scope nat_scope.
Set Implicit Arguments.

Lemma set_insert_In x s y : In y (set_insert x s) <-> y = x \/ In y s.
Proof.
  induction s as [|a s IH]; simpl; [intuition|].
  destruct (Nat.ltb_spec x a); [simpl; intuition|].
  destruct (Nat.eqb_spec x a) as [->|]; simpl; [intuition|].
  rewrite IH. intuition.
Qed.
Lemma set_insert_sorted x s : StronglySorted lt s -> StronglySorted lt (set_insert x s).
Proof.
  induction 1 as [|a s Hs IH Hf]; simpl; [repeat constructor|].
  destruct (Nat.ltb_spec x a).
  - constructor; [constructor; auto|]. constructor; auto. eapply Forall_impl; [|exact Hf]. simpl. lia.
  - destruct (Nat.eqb_spec x a) as [->|]; [constructor; auto|].
    constructor; auto. apply Forall_forall. intros y Hy. apply set_insert_In in Hy as [->|Hy]; [lia|].
    eapply Forall_forall in Hf; eauto.
Qed.

(** nz stores exactly the pairs of Rel *)
Record nz_ok (nrows : nat) (nz : list (list nat)) (Rel : nat -> nat -> Prop) : Prop := {
  nz_len : length nz = nrows;
  nz_sorted : Forall (StronglySorted lt) nz;
  nz_in : forall r c, r < nrows -> (In c (nth r nz []) <-> Rel r c) }.

Lemma nz_ok_ext nrows nz (R R' : nat -> nat -> Prop) : (forall r c, r < nrows -> R r c <-> R' r c) -> nz_ok nrows nz R -> nz_ok nrows nz R'.
Proof. intros H [H1 H2 H3]. split; auto. intros r c Hr. rewrite H3 by auto. now apply H. Qed.

Lemma nz_insert_ok nrows nz Rel r c : nz_ok nrows nz Rel -> r < nrows ->
  exists nz', nz_insert nz r c = Ok nz' /\ nz_ok nrows nz' (fun a b => (a = r /\ b = c) \/ Rel a b).
Proof.
  intros [H1 H2 H3] Hr. unfold nz_insert, vget.
  destruct (nth_error nz r) as [s|] eqn:E.
  2:{ apply nth_error_None in E. lia. }
  simpl. unfold vset. rewrite H1. replace (r <? nrows) with true by (symmetry; now apply Nat.ltb_lt).
  eexists. split; [reflexivity|]. split.
  - now rewrite list_set_length.
  - apply Forall_forall. intros t Ht. apply In_nth_error in Ht as (k & Hk).
    rewrite nth_error_list_set in Hk. destruct ((k =? r) && (r <? length nz)).
    + injection Hk as <-. apply set_insert_sorted. eapply Forall_forall in H2; [exact H2|]. eapply nth_error_In; eauto.
    + eapply Forall_forall in H2; [exact H2|]. eapply nth_error_In; eauto.
  - intros a b Ha. rewrite nth_list_set, H1. replace (r <? nrows) with true by (symmetry; now apply Nat.ltb_lt).
    rewrite andb_true_r. destruct (Nat.eqb_spec a r) as [->|Hne].
    + rewrite set_insert_In. rewrite <- H3 by auto. rewrite (nth_error_nth _ _ [] E). intuition.
    + rewrite H3 by auto. intuition.
Qed.

Lemma element_nonzeros_ok nrows dofs nz Rel : nz_ok nrows nz Rel -> Forall (fun d => d < nrows) dofs ->
  exists nz', element_nonzeros dofs nz = Ok nz' /\
    nz_ok nrows nz' (fun a b => (In a dofs /\ In b dofs) \/ Rel a b).
Proof.
  intros H Hd. unfold element_nonzeros.
  assert (Hin : forall x, In x dofs -> x < nrows) by (intros x Hx; eapply Forall_forall in Hd; eauto).
  destruct (@ofold_ind _ _ (fun pre s => nz_ok nrows s (fun a b =>
      (exists p, In p pre /\ ((a = p /\ In b dofs) \/ (b = p /\ In a dofs))) \/ Rel a b))
    (fun nz row => ofold (fun nz col => do nz1 <- nz_insert nz row col; nz_insert nz1 col row) dofs nz) dofs nz)
    as (nz' & E & H').
  - eapply nz_ok_ext; [|exact H]. intros r c _. split; [intuition|]. intros [(p & [] & _)|]; auto.
  - intros pre row post s El Hs.
    assert (Hrow : row < nrows). { apply Hin. rewrite El. apply in_or_app. right. now left. }
    destruct (@ofold_ind _ _ (fun pre2 s2 => nz_ok nrows s2 (fun a b =>
        (exists q, In q pre2 /\ ((a = row /\ b = q) \/ (a = q /\ b = row))) \/
        (exists p, In p pre /\ ((a = p /\ In b dofs) \/ (b = p /\ In a dofs))) \/ Rel a b))
      (fun nz col => do nz1 <- nz_insert nz row col; nz_insert nz1 col row) dofs s) as (s' & E' & Hs').
    + eapply nz_ok_ext; [|exact Hs]. intros r c _. split; [intuition|]. intros [(q & [] & _)|]; auto.
    + intros pre2 col post2 s2 El2 Hs2.
      assert (Hcol : col < nrows). { apply Hin. rewrite El2. apply in_or_app. right. now left. }
      destruct (@nz_insert_ok _ _ _ row col Hs2 Hrow) as (s3 & E3 & Hs3). rewrite E3. simpl.
      destruct (@nz_insert_ok _ _ _ col row Hs3 Hcol) as (s4 & E4 & Hs4). exists s4. split; auto.
      eapply nz_ok_ext; [|exact Hs4]. intros r c _. cbv beta.
      split.
      * intros [[-> ->]|[[-> ->]|[(q & Hq & Hx)|Hx]]]; auto.
        -- left. exists col. split; [apply in_or_app; right; now left|auto].
        -- left. exists col. split; [apply in_or_app; right; now left|auto].
        -- left. exists q. split; [apply in_or_app; now left|auto].
      * intros [(q & Hq & Hx)|Hx]; [|auto]. apply in_app_or in Hq as [Hq|[<-|[]]].
        -- right. right. left. eauto.
        -- intuition.
    + exists s'. split; auto. eapply nz_ok_ext; [|exact Hs']. intros r c _. split.
      * intros [(q & Hq & [[-> ->]|[-> ->]])|[(p & Hp & Hx)|Hx]]; auto.
        -- left. exists row. split; [apply in_or_app; right; now left|auto].
        -- left. exists row. split; [apply in_or_app; right; now left|auto].
        -- left. exists p. split; [apply in_or_app; now left|auto].
      * intros [(p & Hp & Hx)|Hx]; [|auto]. apply in_app_or in Hp as [Hp|[<-|[]]].
        -- right. left. eauto.
        -- left. destruct Hx as [[-> Hx]|[-> Hx]]; eauto.
  - exists nz'. split; auto. eapply nz_ok_ext; [|exact H']. intros r c _. split.
    + intros [(p & Hp & [[-> Hx]|[-> Hx]])|]; auto.
    + intros [[Ha Hb]|]; auto. left. exists r. auto.
Qed.

Lemma element_dofs_ok dim lsn e : Forall (fun a => a < length lsn) e ->
  exists dofs, element_dofs dim lsn e = Ok dofs /\
    (forall r, In r dofs <-> exists a, In a e /\ owns dim lsn a r).
Proof.
  intros H. unfold element_dofs.
  rewrite (@omapM_ok _ _ _ (fun a => nth a lsn 0)).
  2:{ intros a Ha. eapply Forall_forall in H; eauto. unfold vget. now rewrite (nth_error_nth' lsn 0). }
  simpl. eexists. split; [reflexivity|]. intros r. rewrite in_flat_map. split.
  - intros (l & Hl & Hr). apply in_map_iff in Hl as (a & <- & Ha). apply in_map_iff in Hr as (d & <- & Hd).
    apply in_seq in Hd. exists a. split; auto. exists (nth a lsn 0), d. repeat split; [|lia].
    apply nth_error_nth'. eapply Forall_forall in H; eauto.
  - intros (a & Ha & l & d & Hl & Hd & ->). exists l. split.
    + apply in_map_iff. exists a. split; auto. now apply nth_error_nth_eq.
    + apply in_map_iff. exists d. split; auto. apply in_seq. lia.
Qed.

Lemma lex_rows_sorted nz : forall s, Forall (StronglySorted lt) nz ->
  StronglySorted lex_lt (concat (map (fun rc : nat * list nat => map (fun c => (fst rc, c)) (snd rc)) (combine (seq s (length nz)) nz))).
Proof.
  induction nz as [|row nz IH]; intros s H; simpl; [constructor|].
  inversion H as [|? ? Hr Hn]; subst. specialize (IH (S s) Hn).
  set (rest := concat _) in *.
  assert (Hrest : Forall (fun p => s < fst p) rest).
  { apply Forall_forall. intros [a b] Hab. unfold rest in Hab. apply in_concat in Hab as (l & Hl & Hab).
    apply in_map_iff in Hl as ([r cs] & <- & Hin). apply in_map_iff in Hab as (c & [= <- <-] & _).
    apply in_combine_l in Hin. apply in_seq in Hin. simpl. lia. }
  clearbody rest. induction Hr as [|c row Hrs IHr Hf]; simpl; auto.
  constructor.
  - apply IHr; constructor; auto.
  - apply Forall_app. split.
    + apply Forall_forall. intros [a b] Hab. apply in_map_iff in Hab as (c' & [= <- <-] & Hc').
      right. simpl. split; auto. eapply Forall_forall in Hf; eauto.
    + eapply Forall_impl; [|exact Hrest]. intros [a b] Hab. left. exact Hab.
Qed.

Lemma pairs_in nz : forall s r c,
  In (r, c) (concat (map (fun rc : nat * list nat => map (fun c => (fst rc, c)) (snd rc)) (combine (seq s (length nz)) nz))) <->
  s <= r /\ r - s < length nz /\ In c (nth (r - s) nz []).
Proof.
  induction nz as [|row nz IH]; intros s r c; simpl; [split; [intros []|intros (_ & H & _); lia]|].
  rewrite in_app_iff, IH. split.
  - intros [H|(H1 & H2 & H3)].
    + apply in_map_iff in H as (c' & [= <- <-] & Hc). rewrite Nat.sub_diag. repeat split; auto; lia.
    + replace (r - s) with (S (r - S s)) by lia. repeat split; auto; lia.
  - intros (H1 & H2 & H3). destruct (Nat.eq_dec r s) as [->|Hne].
    + rewrite Nat.sub_diag in H3. left. apply in_map_iff. eauto.
    + right. replace (r - s) with (S (r - S s)) in * by lia. repeat split; auto; lia.
Qed.

Lemma tangent_structure_ok dim lsn elems :
  Forall (Forall (fun a => a < length lsn)) elems -> Forall (fun l => l < length lsn) lsn ->
  exists pat, tangent_structure dim lsn elems = Ok (map fst pat, map snd pat) /\
    StronglySorted lex_lt pat /\
    (forall r c, In (r, c) pat <-> coupled dim lsn elems r c).
Proof.
  intros He Hl. unfold tangent_structure. cbv zeta. set (nrows := length lsn * dim).
  assert (Hown : forall a r, owns dim lsn a r -> r < nrows).
  { intros a r (l & d & H1 & H2 & ->). apply nth_error_In in H1. eapply Forall_forall in Hl; eauto.
    simpl in Hl. unfold nrows. nia. }
  destruct (@ofold_ind _ _ (fun pre s => nz_ok nrows s (fun r c => coupled dim lsn pre r c))
     (fun nz e => do dofs <- element_dofs dim lsn e; element_nonzeros dofs nz) elems (repeat [] nrows)) as (nz & E & H).
  - split; [apply repeat_length| |].
    + apply Forall_forall. intros x Hx. apply repeat_spec in Hx. subst. constructor.
    + intros r c Hr. rewrite nth_repeat. split; [intros []|]. intros (e & a & b & [] & _).
  - intros pre e post s El Hs.
    assert (Hee : Forall (fun a => a < length lsn) e).
    { eapply Forall_forall in He; [exact He|]. rewrite El. apply in_or_app. right. now left. }
    destruct (@element_dofs_ok dim lsn e Hee) as (dofs & Ed & Hd). rewrite Ed. simpl.
    destruct (@element_nonzeros_ok _ dofs _ _ Hs) as (s' & Es & Hs').
    { apply Forall_forall. intros d Hdd. apply Hd in Hdd as (a & _ & Ho). eauto. }
    exists s'. split; auto. eapply nz_ok_ext; [|exact Hs']. intros r c _. cbv beta. rewrite !Hd. split.
    + intros [[(a & Ha & Hoa) (b & Hb & Hob)]|(e' & a & b & Hx & Hy)].
      * exists e, a, b. repeat split; auto. apply in_or_app. right. now left.
      * exists e', a, b. split; auto. apply in_or_app. now left.
    + intros (e' & a & b & Hx & Ha & Hb & Hoa & Hob). apply in_app_or in Hx as [Hx|[<-|[]]].
      * right. exists e', a, b. auto.
      * left. split; eauto.
  - rewrite E. simpl obind. destruct H as [H1 H2 H3]. replace (seq 0 nrows) with (seq 0 (length nz)) by (now rewrite H1).
    eexists. split; [reflexivity|]. split; [now apply lex_rows_sorted|].
    intros r c. rewrite pairs_in, Nat.sub_0_r, H1. split.
    + intros (_ & Hr & Hc). now apply H3.
    + intros Hc. assert (Hr : r < nrows).
      { destruct Hc as (e & a & b & _ & _ & _ & Ho & _). eauto. }
      repeat split; auto; [lia|]. now apply H3.
Qed.

(** If every linear-system node is used by an element, the pattern suits the sparse matrix. *)
Lemma tangent_structure_good dim lsn elems :
  Forall (Forall (fun a => a < length lsn)) elems -> Forall (fun l => l < length lsn) lsn ->
  0 < dim -> lsn <> [] ->
  (forall l, l < length lsn -> exists e a, In e elems /\ In a e /\ nth_error lsn a = Some l) ->
  exists pat, tangent_structure dim lsn elems = Ok (map fst pat, map snd pat) /\ good_pattern pat /\
    (forall i, i < length lsn * dim <-> is_row pat i).
Proof.
  intros He Hl Hdim Hne Hcov. destruct (tangent_structure_ok dim He Hl) as (pat & E & Hs & Hin).
  assert (Hrow : forall r, r < length lsn * dim -> In (r, r) pat).
  { intros r Hr. apply Hin. destruct (Hcov (r / dim)) as (e & a & Hea & Ha & Hla).
    { apply Nat.div_lt_upper_bound; lia. }
    assert (Ho : owns dim lsn a r).
    { exists (r / dim), (r mod dim). repeat split; auto.
      - apply Nat.mod_upper_bound. lia.
      - rewrite Nat.mul_comm. apply Nat.div_mod. lia. }
    exists e, a, a. auto. }
  assert (Hlt : forall i j, In (i, j) pat -> i < length lsn * dim).
  { intros i j H. apply Hin in H as (e & a & b & _ & _ & _ & (l & d & Hn & Hd & ->) & _).
    apply nth_error_In in Hn. eapply Forall_forall in Hl; eauto. simpl in Hl. nia. }
  exists pat. split; auto. split; [split; auto|].
  - intros ->. apply (Hrow 0). destruct lsn; [congruence|simpl; lia].
  - intros r i j H Hr. exists r. apply Hrow. specialize (Hlt i j H). lia.
  - intros i. split; [intros H; exists i; auto|]. intros (j & H). eauto.
Qed.

(** two quadrilaterals sharing an edge, one dof per node *)
Example ex_tangent : tangent_structure 1 [0; 1; 2; 3; 4; 5] [[0; 1; 2; 3]; [2; 3; 4; 5]] =
  Ok ([0;0;0;0; 1;1;1;1; 2;2;2;2;2;2; 3;3;3;3;3;3; 4;4;4;4; 5;5;5;5],
      [0;1;2;3; 0;1;2;3; 0;1;2;3;4;5; 0;1;2;3;4;5; 2;3;4;5; 2;3;4;5]).
Proof. reflexivity. Qed.
