(** From the ring exchange to the faces each rank keeps; the skin of a distributed mesh. *)
From Verif Require Import Base ListLemmas SkinModel SkinSpec SkinProofs RingProofs.
From Coq Require Import Permutation Sorted.
Set Implicit Arguments.
Local Open Scope nat_scope.

Definition gkey (inp : rank_input) (f : list Z) : list Z := isort Z.leb (global_nodes (ri_global inp) f).
Definition rkeys (inp : rank_input) : list (list Z) := map (gkey inp) (ri_faces inp).
Lemma global_key_ok inp f : Forall (fun n => (0 <= n < Z.of_nat (length (ri_global inp)))%Z) f -> global_key (ri_global inp) f = Ok (gkey inp f).
Proof.
  intros H. unfold global_key. rewrite (@omapM_ok _ _ _ (global_node (ri_global inp))); [reflexivity|].
  intros n Hn. rewrite Forall_forall in H. specialize (H n Hn). destruct (Z.ltb_spec n 0); [lia|]. unfold vget, global_node. erewrite nth_error_nth'; [reflexivity|lia].
Qed.
Lemma rank_keys_ok inp : rank_ok inp -> omapM (global_key (ri_global inp)) (ri_faces inp) = Ok (rkeys inp).
Proof.
  intros (_ & H & _). apply omapM_ok. intros f Hf. rewrite Forall_forall in H. apply global_key_ok. now apply H.
Qed.
Lemma all_keys_ok inputs : Forall rank_ok inputs -> omapM (fun inp => omapM (global_key (ri_global inp)) (ri_faces inp)) inputs = Ok (map rkeys inputs).
Proof. intros H. apply omapM_ok. intros inp Hi. rewrite Forall_forall in H. apply rank_keys_ok. now apply H. Qed.
Lemma rkeys4 inputs : Forall rank_ok inputs -> Forall (Forall (fun k => length k = 4)) (map rkeys inputs).
Proof.
  intros H. apply Forall_forall. intros k Hk. apply in_map_iff in Hk as (inp & <- & Hi). rewrite Forall_forall in H. destruct (H inp Hi) as (_ & H2 & _).
  apply Forall_forall. intros x Hx. apply in_map_iff in Hx as (f & <- & Hf). unfold gkey. rewrite isort_length. unfold global_nodes. rewrite map_length.
  rewrite Forall_forall in H2. now apply H2.
Qed.
Lemma rkeys_nodup inp : rank_ok inp -> NoDup (rkeys inp).
Proof.
  intros (_ & _ & H). unfold rkeys. induction H as [|f l H1 H2 IH]; [constructor|]. cbn [map]. constructor; [|exact IH].
  intros Hin. apply in_map_iff in Hin as (g & E & Hg). rewrite Forall_forall in H1. apply (H1 g Hg). apply isort_key. symmetry. exact E.
Qed.

Lemma keep_filter {A} (hash : list bool) (l : list A) (b : A -> bool) : length hash = length l ->
  (forall i a, nth_error l i = Some a -> nth i hash false = negb (b a)) -> keep hash l = filter b l.
Proof.
  revert l; induction hash as [|h hash IH]; intros [|a l] Hl H; try discriminate; [reflexivity|]. cbn [keep filter].
  pose proof (H 0 a eq_refl) as H0. cbn in H0. subst h. rewrite IH; [|simpl in Hl; lia|intros i x Hx; apply (H (S i) x Hx)]. now destruct (b a).
Qed.
Lemma keep_combine {A B} (hash : list bool) (l : list A) (l' : list B) : length hash = length l -> length l' = length l ->
  keep hash l = map fst (keep hash (combine l l')) /\ keep hash l' = map snd (keep hash (combine l l')).
Proof.
  revert l l'; induction hash as [|h hash IH]; intros [|a l] [|b l'] H1 H2; try discriminate; [split; reflexivity|]. cbn [keep combine].
  destruct (IH l l' ltac:(simpl in *; lia) ltac:(simpl in *; lia)) as [I1 I2]. destruct h; cbn [map fst snd]; split; congruence.
Qed.
Lemma keep_none {A} (hash : list bool) (l : list A) : length hash = length l -> (forall i, i < length l -> nth i hash false = false) -> keep hash l = l.
Proof.
  revert l; induction hash as [|h hash IH]; intros [|a l] Hl H; try discriminate; [reflexivity|]. cbn [keep].
  pose proof (H 0 ltac:(simpl; lia)) as H0. cbn in H0. subst h. f_equal. apply IH; [simpl in Hl; lia|]. intros i Hi. apply (H (S i)). simpl. lia.
Qed.
Lemma combine_nth_error {A B} (l : list A) (l' : list B) i : nth_error (combine l l') i = match nth_error l i, nth_error l' i with Some a, Some b => Some (a, b) | _, _ => None end.
Proof. revert l' i; induction l as [|a l IH]; intros [|b l'] [|i]; simpl; auto. now destruct (nth_error l i). Qed.

Section Final.
  Variable inputs : list rank_input.
  Hypothesis ok : Forall rank_ok inputs.
  Let keys := map rkeys inputs.
  Let n := length keys.
  Definition sharedb (r : nat) (inp : rank_input) (f : list Z) : bool :=
    existsb (fun q => negb (q =? r) && existsb (key_eqb (gkey inp f)) (K keys q)) (seq 0 n).
  Lemma K_nth q inp : nth_error inputs q = Some inp -> K keys q = rkeys inp.
  Proof. intros H. unfold K, keys. apply nth_error_nth_eq. now apply map_nth_error. Qed.
  Lemma sharedb_spec r inp f : nth_error inputs r = Some inp -> (sharedb r inp f = true <-> shared inputs r f).
  Proof.
    intros Hr. unfold sharedb, shared. rewrite existsb_exists. split.
    - intros (q & Hq & H). apply in_seq in Hq. apply andb_true_iff in H as [H1 H2]. apply negb_true_iff, Nat.eqb_neq in H1.
      apply existsb_exists in H2 as (k & Hk & E). apply key_eqb_eq in E. subst k.
      assert (exists inp', nth_error inputs q = Some inp') as [inp' Hq'].
      { destruct (nth_error inputs q) eqn:E; [eauto|]. apply nth_error_None in E. unfold n, keys in Hq. rewrite map_length in Hq. lia. }
      rewrite (K_nth _ Hq') in Hk. unfold rkeys in Hk. apply in_map_iff in Hk as (f' & E & Hf').
      exists q, inp, inp', f'. repeat (split; [assumption|]). apply isort_key. symmetry. exact E.
    - intros (q & inp1 & inp' & f' & Nq & E1 & Hq & Hf' & P). rewrite Hr in E1. injection E1 as <-.
      exists q. split; [apply in_seq; apply nth_error_Some_lt in Hq; unfold n, keys; rewrite map_length; lia|].
      apply andb_true_iff. split; [now apply negb_true_iff, Nat.eqb_neq|]. apply existsb_exists. exists (gkey inp' f'). split.
      + rewrite (K_nth _ Hq). unfold rkeys. now apply in_map.
      + apply key_eqb_eq. unfold gkey. now apply isort_key.
  Qed.
  Lemma final_rank w r inp : good keys w -> nth_error inputs r = Some inp -> n <= es_shift (R w r) ->
    rank_result inp (R w r) = (map fst (filter (fun p => negb (sharedb r inp (fst p))) (combine (ri_faces inp) (ri_ids inp))),
                               map snd (filter (fun p => negb (sharedb r inp (fst p))) (combine (ri_faces inp) (ri_ids inp)))).
  Proof.
    intros G Hr Hend. assert (Hrn : r < n) by (apply nth_error_Some_lt in Hr; unfold n, keys; rewrite map_length; lia).
    pose proof (g_each G Hrn) as [Gerr Gshift Gstage Gend Glen Ghash Grem Gsize].
    assert (Rok : rank_ok inp) by (rewrite Forall_forall in ok; apply ok; now apply nth_error_In in Hr).
    pose proof (K_nth _ Hr) as EK. rewrite EK in Glen, Ghash, Grem.
    assert (Lk : length (rkeys inp) = length (ri_faces inp)) by (unfold rkeys; apply map_length).
    destruct Rok as (Li & Rok'). 
    assert (Hh : forall i p, nth_error (combine (ri_faces inp) (ri_ids inp)) i = Some p -> nth i (es_hash (R w r)) false = negb (negb (sharedb r inp (fst p)))).
    { intros i [f id] E. rewrite combine_nth_error in E. destruct (nth_error (ri_faces inp) i) as [f0|] eqn:Ef; [|discriminate]. destruct (nth_error (ri_ids inp) i) as [id0|]; [|discriminate]. injection E as -> ->.
      cbn [fst]. rewrite negb_involutive. rewrite Ghash by (apply nth_error_Some_lt in Ef; lia).
      fold n. unfold sharedb. apply existsb_ext'. intros q Hq. apply in_seq in Hq.
      destruct (Nat.eqb_spec q r) as [->|Nq]; [reflexivity|]. cbn [negb andb].
      replace (dist n q r <? es_shift (R w r)) with true; [|symmetry; apply Nat.ltb_lt; pose proof (@dist_range n q r ltac:(lia) Hrn Nq); lia]. cbn [andb].
      apply existsb_ext'. intros k _. unfold hits.
      assert (Ek : nth_error (rkeys inp) i = Some (gkey inp f)) by (unfold rkeys; now apply map_nth_error).
      apply Bool.eq_iff_eq_true. rewrite key_eqb_eq. split.
      - destruct (first_index k (rkeys inp) 0) as [j|] eqn:Ei; [|discriminate]. intros H. apply Nat.eqb_eq in H. subst j.
        apply first_index_spec in Ei as [_ Ei]. rewrite Nat.sub_0_r in Ei. congruence.
      - intros <-. rewrite (@first_index_nodup _ _ 0 i); [now rewrite Nat.add_0_l, Nat.eqb_refl|apply rkeys_nodup; split; assumption|exact Ek]. }
    assert (Lc : length (es_hash (R w r)) = length (combine (ri_faces inp) (ri_ids inp))) by (rewrite combine_length; lia).
    rewrite <- (@keep_filter _ (es_hash (R w r)) _ (fun p => negb (sharedb r inp (fst p))) Lc Hh).
    destruct (@keep_combine _ _ (es_hash (R w r)) (ri_faces inp) (ri_ids inp)) as [C1 C2]; [lia|lia|].
    rewrite <- C1, <- C2. unfold rank_result. destruct (Nat.eqb_spec (es_removals (R w r)) 0) as [E0|]; [|reflexivity].
    specialize (Grem E0). rewrite !keep_none; [reflexivity| | | |]; rewrite ?Li; try lia; intros i Hi; apply Grem; lia.
  Qed.

  Lemma not_error w : good keys w -> existsb es_error (w_ranks w) = false.
  Proof.
    intros G. apply not_true_iff_false. intros H. apply existsb_exists in H as (s & Hs & He). apply In_nth_error in Hs as [r Hr].
    assert (Hrn : r < n) by (apply nth_error_Some_lt in Hr; pose proof (g_ranks G) as X; unfold n; lia).
    pose proof (g_err (g_each G Hrn)) as E. assert (Es : R w r = s) by (unfold R; now apply nth_error_nth_eq). congruence.
  Qed.
  Lemma finished_or w : good keys w -> (forallb (fun s => n <=? es_shift s) (w_ranks w) = true /\ forall r, r < n -> n <= es_shift (R w r)) \/
     (forallb (fun s => n <=? es_shift s) (w_ranks w) = false /\ exists r, r < n /\ es_shift (R w r) < n).
  Proof.
    intros G. pose proof (g_ranks G) as Hl. fold n in Hl. destruct (forallb _ _) eqn:E.
    - left. split; [reflexivity|]. intros r Hr. rewrite forallb_forall in E. apply Nat.leb_le. apply E. unfold R. apply nth_In. lia.
    - right. split; [reflexivity|]. apply not_true_iff_false in E.
      assert (X : ~ forall r, r < n -> n <= es_shift (R w r)).
      { intros H. apply E. apply forallb_forall. intros s Hs. apply In_nth_error in Hs as [r Hr]. apply Nat.leb_le.
        assert (Hrn : r < n) by (apply nth_error_Some_lt in Hr; lia). specialize (H r Hrn). assert (Es : R w r = s) by (unfold R; now apply nth_error_nth_eq). congruence. }
      clear - X. induction n as [|m IH]; [exfalso; apply X; intros; lia|].
      assert (D : forall m0, (forall r, r < m0 -> S m <= es_shift (R w r)) \/ exists r, r < m0 /\ es_shift (R w r) < S m).
      { induction m0 as [|m0 [I|I]]; [left; intros; lia| |right; destruct I as (r & ? & ?); exists r; lia].
        destruct (le_lt_dec (S m) (es_shift (R w m0))); [left; intros r Hr; destruct (Nat.eq_dec r m0) as [->|]; [assumption|apply I; lia]|right; exists m0; lia]. }
      destruct (D (S m)) as [D1|D1]; [contradiction|exact D1].
  Qed.
  (** the result of a finished run *)
  Lemma result_ok sched : remove_internal_skin_faces inputs sched = Ok None \/
    exists results, remove_internal_skin_faces inputs sched = Ok (Some results) /\ length results = length inputs /\
      forall r inp, nth_error inputs r = Some inp -> nth_error results r =
         Some (map fst (filter (fun p => negb (sharedb r inp (fst p))) (combine (ri_faces inp) (ri_ids inp))),
               map snd (filter (fun p => negb (sharedb r inp (fst p))) (combine (ri_faces inp) (ri_ids inp)))).
  Proof.
    unfold remove_internal_skin_faces. rewrite (all_keys_ok ok). cbn [obind]. fold keys.
    pose proof (@run_good keys (rkeys4 ok) sched) as G. set (w := run_exchange keys sched) in *. rewrite (not_error G). fold n.
    destruct (finished_or G) as [[E F]|[E _]]; rewrite E; [right|left; reflexivity].
    eexists. split; [reflexivity|].
    assert (Hl : length (w_ranks w) = length inputs) by (rewrite (g_ranks G); unfold keys; apply map_length).
    split; [rewrite map_length, combine_length; lia|].
    intros r inp Hr. assert (Hrn : r < n) by (apply nth_error_Some_lt in Hr; unfold n, keys; rewrite map_length; lia).
    assert (Ew : nth_error (w_ranks w) r = Some (R w r)) by (unfold R; apply nth_error_nth'; rewrite (g_ranks G); exact Hrn).
    erewrite map_nth_error; [|rewrite combine_nth_error, Hr, Ew; reflexivity]. cbn [fst snd]. f_equal. apply final_rank; auto.
  Qed.
  Lemma complete_when_done sched : (forall r, r < n -> n <= es_shift (R (run_exchange keys sched) r)) -> exists results, remove_internal_skin_faces inputs sched = Ok (Some results).
  Proof.
    intros H. unfold remove_internal_skin_faces. rewrite (all_keys_ok ok). cbn [obind]. fold keys.
    pose proof (@run_good keys (rkeys4 ok) sched) as G. rewrite (not_error G). fold n.
    destruct (finished_or G) as [[E F]|[E (r & Hr & X)]]; rewrite E; [eauto|]. specialize (H r Hr). lia.
  Qed.

  (** total progress *)
  Definition total (w : world) : nat := fold_right plus 0 (map (fun r => prog (R w r)) (seq 0 n)).
  Lemma sum_le (f g : nat -> nat) l : (forall x, In x l -> f x <= g x) -> fold_right plus 0 (map f l) <= fold_right plus 0 (map g l).
  Proof. induction l as [|x l IH]; intros H; simpl; [lia|]. pose proof (H x (or_introl eq_refl)). assert (forall y, In y l -> f y <= g y) by (intros; apply H; now right). specialize (IH H1). lia. Qed.
  Lemma sum_const c l : fold_right plus 0 (map (fun _ : nat => c) l) = length l * c.
  Proof. induction l; simpl; lia. Qed.
  Lemma total_bound w : good keys w -> total w <= n * (4 * (n - 1)).
  Proof.
    intros G. unfold total. etransitivity; [apply (@sum_le _ (fun _ => 4 * (n - 1)))|rewrite sum_const, seq_length; lia].
    intros r Hr. apply in_seq in Hr. pose proof (@g_each _ _ G r ltac:(fold n; lia)) as [_ H1 H2 H3 _ _ _ _]. fold n in H1, H3. unfold prog.
    destruct (Nat.eq_dec (es_shift (R w r)) n) as [E|]; [rewrite (H3 E); lia|lia].
  Qed.
  Lemma total_step w r : good keys w -> world_step keys w r <> w -> total (world_step keys w r) = S (total w).
  Proof.
    intros G N. destruct (@step_good keys (rkeys4 ok) w r G) as [_ [E|(Hr & Hp & Hx)]]; [contradiction|]. unfold total. fold n in Hr.
    assert (E : forall l, NoDup l -> fold_right plus 0 (map (fun x => prog (R (world_step keys w r) x)) l) = fold_right plus 0 (map (fun x => prog (R w x)) l) + (if in_dec Nat.eq_dec r l then 1 else 0)).
    { induction l as [|x l IH]; intros Hn; [reflexivity|]. inversion Hn as [|? ? N1 N2]; subst. cbn [map fold_right]. rewrite (IH N2).
      destruct (Nat.eq_dec x r) as [->|Nx].
      - destruct (in_dec Nat.eq_dec r l); [contradiction|]. destruct (in_dec Nat.eq_dec r (r :: l)) as [|X]; [lia|exfalso; apply X; now left].
      - rewrite (Hx x Nx). destruct (in_dec Nat.eq_dec r l), (in_dec Nat.eq_dec r (x :: l)) as [X|X]; try lia; exfalso; [apply X; now right|destruct X; contradiction]. }
    rewrite E by apply seq_NoDup. destruct (in_dec Nat.eq_dec r (seq 0 n)) as [|X]; [lia|exfalso; apply X; apply in_seq; lia].
  Qed.
  Lemma least_exists (w : world) : 0 < n -> exists r, r < n /\ forall x, x < n -> prog (R w r) <= prog (R w x).
  Proof.
    clear ok. generalize n. intros m. induction m as [|m IH]; intros H; [lia|]. destruct (Nat.eq_dec m 0) as [->|].
    - exists 0. split; [lia|]. intros x Hx. replace x with 0 by lia. lia.
    - destruct IH as (r & Hr & Hm); [lia|]. destruct (le_lt_dec (prog (R w r)) (prog (R w m))).
      + exists r. split; [lia|]. intros x Hx. destruct (Nat.eq_dec x m) as [->|]; [assumption|apply Hm; lia].
      + exists m. split; [lia|]. intros x Hx. destruct (Nat.eq_dec x m) as [->|]; [lia|]. specialize (Hm x ltac:(lia)). lia.
  Qed.
  Lemma can_move w : good keys w -> (forall r, r < n -> n <= es_shift (R w r)) \/ exists r, r < n /\ world_step keys w r <> w.
  Proof.
    intros G. destruct (finished_or G) as [[_ F]|[_ (r0 & Hr0 & Hs0)]]; [left; exact F|right].
    destruct (least_exists w ltac:(lia)) as (r & Hr & Hm). exists r. split; [exact Hr|].
    apply least_moves; auto. fold n. specialize (Hm r0 Hr0). pose proof (@g_each _ _ G r0 Hr0) as [_ A1 A2 A3 _ _ _ _]. pose proof (@g_each _ _ G r Hr) as [_ B1 B2 B3 _ _ _ _]. fold n in A1, A3, B1, B3.
    unfold prog in Hm. destruct (Nat.eq_dec (es_shift (R w r)) n) as [E|]; [|lia]. lia.
  Qed.
  Lemma run_snoc sched r : run_exchange keys (sched ++ [r]) = world_step keys (run_exchange keys sched) r.
  Proof. unfold run_exchange. now rewrite fold_left_app. Qed.
  Lemma completes : forall d sched, n * (4 * (n - 1)) - total (run_exchange keys sched) <= d ->
     exists more, length more <= d /\ forall r, r < n -> n <= es_shift (R (run_exchange keys (sched ++ more)) r).
  Proof.
    induction d as [|d IH]; intros sched Hd; pose proof (@run_good keys (rkeys4 ok) sched) as G; destruct (can_move G) as [F|(r & Hr & N)].
    - exists []. rewrite app_nil_r. split; [simpl; lia|exact F].
    - exfalso. pose proof (@total_step (run_exchange keys sched) r G N) as T. pose proof (total_bound (proj1 (@step_good keys (rkeys4 ok) _ r G))). lia.
    - exists []. rewrite app_nil_r. split; [simpl; lia|exact F].
    - pose proof (@total_step (run_exchange keys sched) r G N) as T. destruct (IH (sched ++ [r])) as (more & L & F); [rewrite run_snoc; lia|].
      exists (r :: more). split; [simpl; lia|]. intros x Hx. specialize (F x Hx). now rewrite <- app_assoc in F.
  Qed.
End Final.
