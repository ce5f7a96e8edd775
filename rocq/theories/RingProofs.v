(** Proofs about the ring exchange of RemoveInternalSkinFaces, for every schedule. *)
From Verif Require Import Base ListLemmas SkinModel SkinSpec SkinProofs.
From Coq Require Import Permutation Sorted.
Set Implicit Arguments.
Local Open Scope nat_scope.

Lemma mod_2n x n : x < 2 * n -> x mod n = if x <? n then x else x - n.
Proof.
  intros H. destruct (Nat.ltb_spec x n); [now apply Nat.mod_small|].
  replace x with ((x - n) + 1 * n) at 1 by lia. rewrite Nat.mod_add by lia. apply Nat.mod_small. lia.
Qed.
(** shift at which a sends to b *)
Definition dist (n a b : nat) : nat := if a <? b then b - a else b + n - a.
Lemma dist_range n a b : a < n -> b < n -> a <> b -> 1 <= dist n a b < n.
Proof. unfold dist. intros. destruct (Nat.ltb_spec a b); lia. Qed.
Lemma dist_target n r s : r < n -> 1 <= s < n -> let t := (r + s) mod n in t < n /\ t <> r /\ dist n r t = s.
Proof. intros Hr Hs t. unfold t. rewrite mod_2n by lia. unfold dist. destruct (Nat.ltb_spec (r + s) n); destruct (Nat.ltb_spec r (if r + s <? n then r + s else r + s - n)); 
  repeat match goal with |- context [if ?c then _ else _] => destruct c eqn:? end; lia. Qed.
Lemma dist_source n r s : r < n -> 1 <= s < n -> let q := (r + n - s) mod n in q < n /\ q <> r /\ dist n q r = s.
Proof. intros Hr Hs q. unfold q. rewrite mod_2n by lia. unfold dist.
  repeat match goal with |- context [if ?c then _ else _] => destruct c eqn:? end; lia. Qed.
Lemma dist_inj n a b b' : a < n -> b < n -> b' < n -> a <> b -> a <> b' -> dist n a b = dist n a b' -> b = b'.
Proof. unfold dist. intros. destruct (Nat.ltb_spec a b), (Nat.ltb_spec a b'); lia. Qed.
Lemma dist_inj_l n a a' b : a < n -> a' < n -> b < n -> a <> b -> a' <> b -> dist n a b = dist n a' b -> a = a'.
Proof. unfold dist. intros. destruct (Nat.ltb_spec a b), (Nat.ltb_spec a' b); lia. Qed.

Lemma firstn_S_nth {A} (l : list A) j m : nth_error l j = Some m -> firstn (S j) l = firstn j l ++ [m].
Proof. revert j; induction l as [|x l IH]; intros [|j] H; simpl in *; try discriminate; [congruence|]. f_equal. now apply IH. Qed.
Lemma tl_skipn {A} (l : list A) k : tl (skipn k l) = skipn (S k) l.
Proof. revert k; induction l as [|x l IH]; intros [|k]; try reflexivity. apply IH. Qed.

(** ** Marking *)
Lemma first_index_spec k keys i0 i : first_index k keys i0 = Some i -> i0 <= i /\ nth_error keys (i - i0) = Some k.
Proof.
  revert i0; induction keys as [|k' keys IH]; simpl; intros i0 H; [discriminate|]. destruct (key_eqb k k') eqn:E.
  - injection H as <-. apply key_eqb_eq in E. subst. split; [lia|]. now rewrite Nat.sub_diag.
  - apply IH in H as [H1 H2]. split; [lia|]. replace (i - i0) with (S (i - S i0)) by lia. exact H2.
Qed.
Lemma first_index_nodup k keys i0 i : NoDup keys -> nth_error keys i = Some k -> first_index k keys i0 = Some (i0 + i).
Proof.
  revert i0 i; induction keys as [|k' keys IH]; intros i0 i Hn E; [destruct i; discriminate|]. inversion Hn as [|? ? Hn1 Hn2]; subst. simpl.
  destruct i as [|i]; simpl in E.
  - injection E as ->. rewrite key_eqb_refl. f_equal. lia.
  - destruct (key_eqb k k') eqn:Ek.
    + apply key_eqb_eq in Ek. subst k'. apply nth_error_In in E. contradiction.
    + rewrite (IH (S i0) i) by assumption. f_equal. lia.
Qed.
Definition hits (keys : list (list Z)) (i : nat) (k : list Z) : bool := match first_index k keys 0 with Some j => j =? i | None => false end.
Lemma mark_fold keys ks : forall h c, length h = length keys ->
  let acc := fold_left (mark keys) ks (h, c) in
  length (fst acc) = length keys /\
  (forall i, i < length keys -> nth i (fst acc) false = nth i h false || existsb (hits keys i) ks) /\
  (snd acc = 0 -> c = 0 /\ forall i, i < length keys -> nth i (fst acc) false = nth i h false).
Proof.
  induction ks as [|k ks IH]; intros h c Hl acc; unfold acc; cbn [fold_left].
  - cbn [fst snd existsb]. split; [exact Hl|]. split; [intros; now rewrite orb_false_r|]. auto.
  - unfold mark at 2 4 6 8. cbn [fst snd]. 
    destruct (first_index k keys 0) as [j|] eqn:E.
    + pose proof (first_index_spec _ _ _ E) as [_ Ej]. rewrite Nat.sub_0_r in Ej. apply nth_error_Some_lt in Ej.
      destruct (IH (list_set h j true) (S c) ltac:(rewrite list_set_length; exact Hl)) as (I1 & I2 & I3). cbv zeta in I1, I2, I3.
      split; [exact I1|]. split.
      * intros i Hi. rewrite I2 by assumption. rewrite nth_list_set. cbn [existsb]. unfold hits at 2. rewrite E.
        replace (j <? length h) with true by (symmetry; apply Nat.ltb_lt; lia). rewrite andb_true_r.
        rewrite (Nat.eqb_sym j i). destruct (i =? j); [|reflexivity]. simpl. now rewrite orb_true_r.
      * intros H. apply I3 in H as [H _]. discriminate.
    + destruct (IH h c Hl) as (I1 & I2 & I3). cbv zeta in I1, I2, I3. split; [exact I1|]. split.
      * intros i Hi. rewrite I2 by assumption. cbn [existsb]. unfold hits at 2. rewrite E. reflexivity.
      * exact I3.
Qed.
Lemma groups_concat keys : Forall (fun k => length k = 4) keys -> groups_of_4 (length (concat keys) / 4) (concat keys) = keys.
Proof.
  intros H. assert (L : length (concat keys) = length keys * 4) by (induction H; simpl; rewrite ?app_length; lia).
  rewrite L, Nat.div_mul by lia. clear L. induction H as [|k keys Hk H IH]; [reflexivity|]. cbn [length concat groups_of_4].
  rewrite firstn_app, Hk, Nat.sub_diag, firstn_O, app_nil_r. rewrite firstn_all2 by lia. f_equal.
  rewrite skipn_app, Hk, Nat.sub_diag. rewrite skipn_all2 by lia. exact IH.
Qed.

(** ** The invariant *)
Section Ring.
  Variable keys : list (list (list Z)).
  Hypothesis keys4 : Forall (Forall (fun k => length k = 4)) keys.
  Let n := length keys.
  Definition K (r : nat) := nth r keys [].
  Definition msgs (a : nat) : list (list Z) := [[Z.of_nat (length (concat (K a)))]; concat (K a)].
  Definition prog (s : exchange_state) : nat := 4 * (es_shift s - 1) + es_stage s.
  Definition past (p t : nat) : nat := if t <? p then 1 else 0.
  Definition sent (p s : nat) : nat := past p (4 * (s - 1)) + past p (4 * (s - 1) + 2).
  Definition recd (p s : nat) : nat := past p (4 * (s - 1) + 1) + past p (4 * (s - 1) + 3).
  Definition st0 : exchange_state := ES 1 0 0%Z [] 0 false.
  Definition R (w : world) (r : nat) : exchange_state := nth r (w_ranks w) st0.

  Record good_rank (r : nat) (s : exchange_state) : Prop := {
    g_err : es_error s = false;
    g_shift : 1 <= es_shift s <= n;
    g_stage : es_stage s <= 3;
    g_end : es_shift s = n -> es_stage s = 0;
    g_len : length (es_hash s) = length (K r);
    g_hash : forall i, i < length (K r) -> nth i (es_hash s) false = existsb (fun q => negb (q =? r) && (dist n q r <? es_shift s) && existsb (hits (K r) i) (K q)) (seq 0 n);
    g_removals : es_removals s = 0 -> forall i, i < length (K r) -> nth i (es_hash s) false = false;
    g_size : 2 <= es_stage s -> es_recv_size s = Z.of_nat (length (concat (K ((r + n - es_shift s) mod n)))) }.
  Record good (w : world) : Prop := {
    g_ranks : length (w_ranks w) = n;
    g_each : forall r, r < n -> good_rank r (R w r);
    g_queue : forall a b, a < n -> b < n -> a <> b ->
      recd (prog (R w b)) (dist n a b) <= sent (prog (R w a)) (dist n a b) /\
      w_queue w a b = skipn (recd (prog (R w b)) (dist n a b)) (firstn (sent (prog (R w a)) (dist n a b)) (msgs a)) }.

  Ltac counts := unfold sent, recd, past; repeat match goal with |- context [?x <? ?y] => destruct (Nat.ltb_spec x y); [try (exfalso; lia)|try (exfalso; lia)] end; try lia.

  Lemma past_S p t : past (S p) t = if p =? t then 1 else past p t.
  Proof. unfold past. destruct (Nat.ltb_spec t (S p)), (Nat.ltb_spec t p), (Nat.eqb_spec p t); lia. Qed.
  Lemma past_self p : past p p = 0.
  Proof. unfold past. now rewrite Nat.ltb_irrefl. Qed.
  Lemma sent_post sh sg : sg = 0 \/ sg = 2 -> sent (S (4 * (sh - 1) + sg)) sh = S (sent (4 * (sh - 1) + sg) sh).
  Proof. intros H. unfold sent. generalize (4 * (sh - 1)). intros x. unfold past. destruct H as [-> | ->]; repeat match goal with |- context [?a <? ?b] => destruct (Nat.ltb_spec a b); try (exfalso; lia) end; reflexivity. Qed.
  Lemma recd_recv sh sg : sg = 1 \/ sg = 3 -> recd (S (4 * (sh - 1) + sg)) sh = S (recd (4 * (sh - 1) + sg) sh).
  Proof. intros H. unfold recd. generalize (4 * (sh - 1)). intros x. unfold past. destruct H as [-> | ->]; repeat match goal with |- context [?a <? ?b] => destruct (Nat.ltb_spec a b); try (exfalso; lia) end; reflexivity. Qed.
  Lemma sent_frame sh sg d : sg <= 3 -> 1 <= sh -> 1 <= d -> d <> sh \/ sg = 1 \/ sg = 3 -> sent (S (4 * (sh - 1) + sg)) d = sent (4 * (sh - 1) + sg) d.
  Proof. intros H1 H2 H3 H. unfold sent. rewrite !past_S. repeat match goal with |- context [?a =? ?b] => destruct (Nat.eqb_spec a b); try (exfalso; lia) end; reflexivity. Qed.
  Lemma recd_frame sh sg d : sg <= 3 -> 1 <= sh -> 1 <= d -> d <> sh \/ sg = 0 \/ sg = 2 -> recd (S (4 * (sh - 1) + sg)) d = recd (4 * (sh - 1) + sg) d.
  Proof. intros H1 H2 H3 H. unfold recd. rewrite !past_S. repeat match goal with |- context [?a =? ?b] => destruct (Nat.eqb_spec a b); try (exfalso; lia) end; reflexivity. Qed.

  Lemma K4 r : Forall (fun k => length k = 4) (K r).
  Proof.
    unfold K. destruct (nth_in_or_default r keys []) as [H|H]; [|rewrite H; constructor].
    rewrite Forall_forall in keys4. now apply keys4.
  Qed.

  Lemma R_start r : r < n -> R (start_world keys) r = ES 1 0 0%Z (repeat false (length (K r))) 0 false.
  Proof.
    intros H. unfold R, start_world, K. cbn [w_ranks]. apply nth_error_nth_eq.
    assert (E : nth_error keys r = Some (nth r keys [])) by (apply nth_error_nth'; exact H).
    now rewrite (map_nth_error _ _ _ E).
  Qed.
  Lemma good_start : good (start_world keys).
  Proof.
    constructor.
    - unfold start_world. cbn [w_ranks]. apply map_length.
    - intros r Hr. rewrite R_start by assumption. constructor; cbn [es_error es_shift es_stage es_hash es_removals es_recv_size]; auto; try lia.
      + apply repeat_length.
      + intros i Hi. rewrite nth_repeat. symmetry. apply not_true_iff_false. intros H. apply existsb_exists in H as (q & Hq & H).
        apply in_seq in Hq. apply andb_true_iff in H as [H _]. apply andb_true_iff in H as [H1 H2].
        apply negb_true_iff, Nat.eqb_neq in H1. apply Nat.ltb_lt in H2. pose proof (@dist_range n q r). lia.
      + intros _ i Hi. apply nth_repeat.
    - intros a b Ha Hb N. rewrite !R_start by assumption. unfold prog. cbn [es_shift es_stage].
      pose proof (@dist_range n a b Ha Hb N). unfold start_world. cbn [w_queue].
      replace (sent (4 * (1 - 1) + 0) (dist n a b)) with 0 by counts. split; [counts|]. now rewrite firstn_O, skipn_nil.
  Qed.

  Lemma R_set w r s q : r < n -> length (w_ranks w) = n -> forall x, R (World (list_set (w_ranks w) r s) q) x = if x =? r then s else R w x.
  Proof.
    intros Hr Hl x. unfold R. cbn [w_ranks]. rewrite nth_list_set. replace (r <? length (w_ranks w)) with true by (symmetry; apply Nat.ltb_lt; lia).
    rewrite andb_true_r. reflexivity.
  Qed.

  (** what a step does to progress and queues *)
  Lemma step_frame w r s' q' : good w -> r < n -> good_rank r s' -> prog s' = S (prog (R w r)) ->
    es_shift (R w r) < n ->
    (* queues: a post or a receive *)
    (((es_stage (R w r) = 0 \/ es_stage (R w r) = 2) /\
      exists m, nth_error (msgs r) (sent (prog (R w r)) (es_shift (R w r))) = Some m /\
      forall a b, q' a b = if (a =? r) && (b =? (r + es_shift (R w r)) mod n) then w_queue w a b ++ [m] else w_queue w a b) \/
     ((es_stage (R w r) = 1 \/ es_stage (R w r) = 3) /\ w_queue w ((r + n - es_shift (R w r)) mod n) r <> [] /\
      forall a b, q' a b = if (a =? (r + n - es_shift (R w r)) mod n) && (b =? r) then tl (w_queue w a b) else w_queue w a b)) ->
    good (World (list_set (w_ranks w) r s') q').
  Proof.
    intros G Hr Gs Hp Hsh Hq. pose proof (g_ranks G) as Hl.
    pose proof (g_each G Hr) as Gr. pose proof (g_shift Gr) as Hshift. pose proof (g_stage Gr) as Hstage.
    constructor.
    - cbn [w_ranks]. rewrite list_set_length. exact Hl.
    - intros x Hx. rewrite R_set by assumption. destruct (Nat.eqb_spec x r) as [->|]; [exact Gs|now apply g_each].
    - intros a b Ha Hb N. rewrite !R_set by assumption. cbn [w_queue].
      destruct (g_queue G Ha Hb N) as [Q1 Q2].
      pose proof (@dist_range n a b Ha Hb N) as HD.
      destruct (@dist_target n r (es_shift (R w r)) Hr ltac:(lia)) as (T1 & T2 & T3).
      destruct (@dist_source n r (es_shift (R w r)) Hr ltac:(lia)) as (S1 & S2 & S3).
      set (t := (r + es_shift (R w r)) mod n) in *. set (src := (r + n - es_shift (R w r)) mod n) in *.
      assert (Pr : prog (R w r) = 4 * (es_shift (R w r) - 1) + es_stage (R w r)) by reflexivity.
      assert (Dt : a = r -> b <> t -> dist n a b <> es_shift (R w r)).
      { intros -> Hb' E. apply Hb'. apply (@dist_inj n r b t); auto. congruence. }
      assert (Ds : b = r -> a <> src -> dist n a b <> es_shift (R w r)).
      { intros -> Ha' E. apply Ha'. apply (@dist_inj_l n a src r); auto. congruence. }
      set (P := prog (R w r)) in *. set (sg := es_stage (R w r)) in *. set (sh := es_shift (R w r)) in *.
      destruct Hq as [[Hst (m & Hm & Hq)]|(Hst & Hne & Hq)]; rewrite Hq.
      + (* post *)
        destruct (Nat.eqb_spec a r) as [->|Na]; [destruct (Nat.eqb_spec b t) as [->|Nb]|]; cbn [andb].
        * destruct (Nat.eqb_spec t r) as [|_]; [contradiction|].
          rewrite T3, Hp. rewrite T3 in Q1, Q2. fold P in Q1, Q2.
          assert (Es : sent (S P) sh = S (sent P sh)) by (rewrite Pr; now apply sent_post). 
          rewrite Es. split; [lia|]. rewrite Q2.
          set (k := recd (prog (R w t)) sh) in *. set (j := sent P sh) in *.
          assert (Ef : firstn (S j) (msgs r) = firstn j (msgs r) ++ [m]).
          { now apply firstn_S_nth. }
          rewrite Ef, skipn_app. f_equal.
          assert (Lj : length (firstn j (msgs r)) = j). { rewrite firstn_length. apply nth_error_Some_lt in Hm. lia. }
          rewrite Lj. replace (k - j) with 0 by lia. reflexivity.
        * destruct (Nat.eqb_spec b r) as [->|_]; [contradiction|]. rewrite Hp.
          assert (Es : sent (S P) (dist n r b) = sent P (dist n r b)).
          { specialize (Dt eq_refl Nb). rewrite Pr. apply sent_frame; [exact Hstage|apply Hshift|apply HD|left; exact Dt]. }
          rewrite Es. split; [exact Q1|exact Q2].
        * destruct (Nat.eqb_spec b r) as [->|_]; [|split; assumption]. rewrite Hp.
          assert (Es : recd (S P) (dist n a r) = recd P (dist n a r)).
          { rewrite Pr. apply recd_frame; [exact Hstage|apply Hshift|apply HD|right; exact Hst]. }
          rewrite Es. split; [exact Q1|exact Q2].
      + (* receive *)
        destruct (Nat.eqb_spec b r) as [->|Nb]; [destruct (Nat.eqb_spec a src) as [->|Na]|]; rewrite ?andb_false_r; cbn [andb].
        * destruct (Nat.eqb_spec src r) as [|_]; [contradiction|].
          rewrite S3, Hp. rewrite S3 in Q1, Q2. fold P in Q1, Q2.
          assert (Es : recd (S P) sh = S (recd P sh)) by (rewrite Pr; now apply recd_recv).
          rewrite Es.
          set (k := recd P sh) in *. set (j := sent (prog (R w src)) sh) in *.
          assert (Lt : k < j).
          { destruct (Nat.lt_ge_cases k j); [assumption|]. exfalso. apply Hne. rewrite Q2. apply skipn_all2. rewrite firstn_length. lia. }
          split; [lia|]. rewrite Q2. apply tl_skipn.
        * destruct (Nat.eqb_spec a r) as [->|_]; [contradiction|]. rewrite Hp.
          assert (Es : recd (S P) (dist n a r) = recd P (dist n a r)).
          { specialize (Ds eq_refl Na). rewrite Pr. apply recd_frame; [exact Hstage|apply Hshift|apply HD|left; exact Ds]. }
          rewrite Es. split; [exact Q1|exact Q2].
        * destruct (Nat.eqb_spec a r) as [->|_]; [|split; assumption]. rewrite Hp.
          assert (Es : sent (S P) (dist n r b) = sent P (dist n r b)).
          { rewrite Pr. apply sent_frame; [exact Hstage|apply Hshift|apply HD|right; exact Hst]. }
          rewrite Es. split; [exact Q1|exact Q2].
  Qed.

  Lemma existsb_ext' {A} (f g : A -> bool) l : (forall x, In x l -> f x = g x) -> existsb f l = existsb g l.
  Proof. induction l as [|x l IH]; intros H; [reflexivity|]. simpl. rewrite H by now left. rewrite IH; [reflexivity|]. intros; apply H; now right. Qed.

  (** the message at the head of the source's queue *)
  Lemma head_message w r : good w -> r < n -> es_shift (R w r) < n -> let src := (r + n - es_shift (R w r)) mod n in
    (es_stage (R w r) = 1 -> w_queue w src r <> [] -> exists tl, w_queue w src r = [Z.of_nat (length (concat (K src)))] :: tl) /\
    (es_stage (R w r) = 3 -> w_queue w src r <> [] -> exists tl, w_queue w src r = concat (K src) :: tl).
  Proof.
    intros G Hr Hsh src. pose proof (g_shift (g_each G Hr)) as Hshift.
    destruct (@dist_source n r (es_shift (R w r)) Hr ltac:(lia)) as (S1 & S2 & S3). fold src in S1, S2, S3.
    destruct (g_queue G S1 Hr S2) as [Q1 Q2]. rewrite S3 in Q1, Q2.
    assert (Pr : prog (R w r) = 4 * (es_shift (R w r) - 1) + es_stage (R w r)) by reflexivity.
    split; intros Hst Hne.
    - replace (recd (prog (R w r)) (es_shift (R w r))) with 0 in Q2 by (rewrite Pr, Hst; counts).
      rewrite Q2 in *. cbn [skipn] in *. destruct (sent _ _); [now contradiction Hne|]. cbn [firstn msgs]. eauto.
    - replace (recd (prog (R w r)) (es_shift (R w r))) with 1 in Q1, Q2 by (rewrite Pr, Hst; counts).
      rewrite Q2 in *. destruct (sent _ _) as [|[|j]]; [lia|now contradiction Hne|]. cbn [firstn msgs skipn]. eauto.
  Qed.

  Lemma step_good w r : good w -> good (world_step keys w r) /\
    (world_step keys w r = w \/ (r < n /\ prog (R (world_step keys w r) r) = S (prog (R w r)) /\ forall x, x <> r -> R (world_step keys w r) x = R w x)).
  Proof.
    intros G. unfold world_step. fold n. pose proof (g_ranks G) as Hl.
    destruct (nth_error (w_ranks w) r) as [s|] eqn:E; [|auto].
    assert (Hr : r < n) by (apply nth_error_Some_lt in E; lia).
    assert (Es : s = R w r) by (unfold R; symmetry; now apply nth_error_nth_eq). subst s. fold (K r).
    pose proof (g_each G Hr) as Gr. destruct Gr as [Gerr Gshift Gstage Gend Glen Ghash Grem Gsize].
    set (s := R w r) in *.
    destruct (rank_exchange_step n (K r) r (w_queue w) s) as [[s' q']|] eqn:Est; [|auto].
    assert (M : good (World (list_set (w_ranks w) r s') q') /\ prog s' = S (prog s)).
    2:{ destruct M as [M1 M2]. split; [exact M1|]. right. split; [exact Hr|]. split.
        - rewrite R_set by assumption. rewrite Nat.eqb_refl. exact M2.
        - intros x Hx. rewrite R_set by assumption. destruct (Nat.eqb_spec x r); [contradiction|reflexivity]. }
    unfold rank_exchange_step in Est. cbv zeta in Est. rewrite Gerr in Est. cbn [orb] in Est.
    destruct (Nat.leb_spec n (es_shift s)) as [|Hsh]; [discriminate|].
    destruct (@head_message w r G Hr Hsh) as [Hm1 Hm3]. cbv zeta in Hm1, Hm3. fold s in Hm1, Hm3.
    set (src := (r + n - es_shift s) mod n) in *.
    assert (Pr : prog s = 4 * (es_shift s - 1) + es_stage s) by reflexivity.
    destruct (es_stage s) as [|[|[|[|st]]]] eqn:Hst; [| | | |lia].
    - injection Est as <- <-.
      assert (Pp : prog (ES (es_shift s) 1 (es_recv_size s) (es_hash s) (es_removals s) false) = S (prog s)) by (rewrite Pr; unfold prog; cbn [es_shift es_stage]; lia).
      split; [|exact Pp]. apply (@step_frame w r); auto.
      + constructor; cbn [es_error es_shift es_stage es_hash es_removals es_recv_size]; auto; try lia.
      + left. fold s. rewrite Hst. split; [auto|]. exists [Z.of_nat (length (concat (K r)))]. split; [|reflexivity].
        replace (sent (prog s) (es_shift s)) with 0 by (rewrite Pr; counts). reflexivity.
    - destruct (w_queue w src r) as [|msg tlq] eqn:Eq; [discriminate|].
      destruct (Hm1 eq_refl ltac:(discriminate)) as [tl' Etl]. injection Etl as -> ->.
      injection Est as <- <-.
      assert (Pp : prog (ES (es_shift s) 2 (Z.of_nat (length (concat (K src)))) (es_hash s) (es_removals s) false) = S (prog s)) by (rewrite Pr; unfold prog; cbn [es_shift es_stage]; lia).
      split; [|exact Pp]. apply (@step_frame w r); auto.
      + constructor; cbn [es_error es_shift es_stage es_hash es_removals es_recv_size]; auto; try lia.
      + right. fold s. rewrite Hst. split; [auto|]. fold src. rewrite Eq. split; [discriminate|reflexivity].
    - injection Est as <- <-.
      assert (Pp : prog (ES (es_shift s) 3 (es_recv_size s) (es_hash s) (es_removals s) false) = S (prog s)) by (rewrite Pr; unfold prog; cbn [es_shift es_stage]; lia).
      split; [|exact Pp]. apply (@step_frame w r); auto.
      + constructor; cbn [es_error es_shift es_stage es_hash es_removals es_recv_size]; auto; try lia.
      + left. fold s. rewrite Hst. split; [auto|]. exists (concat (K r)). split; [|reflexivity].
        replace (sent (prog s) (es_shift s)) with 1 by (rewrite Pr; counts). reflexivity.
    - destruct (w_queue w src r) as [|msg tlq] eqn:Eq; [discriminate|].
      destruct (Hm3 eq_refl ltac:(discriminate)) as [tl' Etl]. injection Etl as -> ->.
      assert (Hsz : es_recv_size s = Z.of_nat (length (concat (K src)))) by (apply Gsize; lia).
      rewrite Hsz in Est. rewrite Z.eqb_refl in Est. rewrite Nat2Z.id in Est. rewrite groups_concat in Est by apply K4.
      destruct (@mark_fold (K r) (K src) (es_hash s) (es_removals s) Glen) as (M1 & M2 & M3). cbv zeta in M1, M2, M3.
      set (acc := fold_left (mark (K r)) (K src) (es_hash s, es_removals s)) in *.
      injection Est as <- <-.
      match goal with |- good (World (list_set _ _ ?x) _) /\ _ => set (s' := x) in * end.
      assert (Pp : prog s' = S (prog s)) by (rewrite Pr; unfold prog, s'; cbn [es_shift es_stage]; lia).
      split; [|exact Pp]. apply (@step_frame w r); auto.
      + destruct (@dist_source n r (es_shift s) Hr ltac:(lia)) as (S1 & S2 & S3). fold src in S1, S2, S3.
        constructor; unfold s'; cbn [es_error es_shift es_stage es_hash es_removals es_recv_size]; auto; try lia.
        * intros i Hi. rewrite M2 by assumption. rewrite Ghash by assumption.
          apply Bool.eq_iff_eq_true. rewrite orb_true_iff, !existsb_exists. split.
          -- intros [(q & Hq & H)|H].
             ++ exists q. split; [exact Hq|]. apply andb_true_iff in H as [H H3]. apply andb_true_iff in H as [H1 H2]. apply andb_true_iff. split; [|exact H3]. apply andb_true_iff. split; [exact H1|]. apply Nat.ltb_lt in H2. apply Nat.ltb_lt. lia.
             ++ exists src. split; [apply in_seq; lia|]. apply andb_true_iff. split; [|apply existsb_exists; exact H]. apply andb_true_iff. split; [apply negb_true_iff, Nat.eqb_neq; exact S2|]. apply Nat.ltb_lt. lia.
          -- intros (q & Hq & H). apply andb_true_iff in H as [H H3]. apply andb_true_iff in H as [H1 H2]. apply negb_true_iff, Nat.eqb_neq in H1. apply Nat.ltb_lt in H2. apply in_seq in Hq.
             destruct (Nat.eq_dec (dist n q r) (es_shift s)) as [Ed|Nd].
             ++ right. apply existsb_exists. replace src with q; [exact H3|]. apply (@dist_inj_l n q src r); auto; lia.
             ++ left. exists q. split; [apply in_seq; lia|]. rewrite H3, andb_true_r. apply andb_true_iff. split; [now apply negb_true_iff, Nat.eqb_neq|]. apply Nat.ltb_lt. lia.
        * intros H i Hi. destruct (M3 H) as [M4 M5]. rewrite M5 by assumption. now apply Grem.
      + right. fold s. rewrite Hst. split; [auto|]. fold src. rewrite Eq. split; [discriminate|reflexivity].
  Qed.

  Lemma run_good sched : good (run_exchange keys sched).
  Proof.
    unfold run_exchange. generalize (start_world keys) good_start. induction sched as [|r sched IH]; intros w G; [exact G|]. cbn [fold_left]. apply IH. now apply step_good.
  Qed.

  (** a rank that is least advanced and not finished can move *)
  Lemma least_moves w r : good w -> r < n -> es_shift (R w r) < n -> (forall x, x < n -> prog (R w r) <= prog (R w x)) -> world_step keys w r <> w.
  Proof.
    intros G Hr Hsh Hmin E.
    assert (Er : R (world_step keys w r) r = R w r) by now rewrite E.
    pose proof (g_ranks G) as Hl. pose proof (g_each G Hr) as Gr. destruct Gr as [Gerr Gshift Gstage _ _ _ _ Gsize].
    unfold world_step in Er. fold n in Er.
    assert (En : nth_error (w_ranks w) r = Some (R w r)) by (unfold R; apply nth_error_nth'; lia).
    rewrite En in Er. fold (K r) in Er. unfold rank_exchange_step in Er. cbv zeta in Er. rewrite Gerr in Er. cbn [orb] in Er.
    destruct (Nat.leb_spec n (es_shift (R w r))) as [|_]; [lia|].
    destruct (@dist_source n r (es_shift (R w r)) Hr ltac:(lia)) as (S1 & S2 & S3).
    set (src := (r + n - es_shift (R w r)) mod n) in *.
    destruct (g_queue G S1 Hr S2) as [Q1 Q2]. rewrite S3 in Q1, Q2.
    pose proof (Hmin src S1) as Hp.
    assert (Pr : prog (R w r) = 4 * (es_shift (R w r) - 1) + es_stage (R w r)) by reflexivity.
    destruct (es_stage (R w r)) as [|[|[|[|st]]]] eqn:Hst; [| | | |lia].
    - rewrite R_set, Nat.eqb_refl in Er by assumption. apply (f_equal es_stage) in Er. cbn [es_stage] in Er. lia.
    - assert (Hs : 1 <= sent (prog (R w src)) (es_shift (R w r))) by counts.
      replace (recd (prog (R w r)) (es_shift (R w r))) with 0 in Q2 by (rewrite Pr; counts).
      destruct (sent (prog (R w src)) (es_shift (R w r))) as [|j]; [lia|]. rewrite Q2 in Er. cbn [firstn msgs skipn] in Er.
      rewrite R_set, Nat.eqb_refl in Er by assumption. apply (f_equal es_stage) in Er. cbn [es_stage] in Er. lia.
    - rewrite R_set, Nat.eqb_refl in Er by assumption. apply (f_equal es_stage) in Er. cbn [es_stage] in Er. lia.
    - assert (Hs : 2 <= sent (prog (R w src)) (es_shift (R w r))) by counts.
      replace (recd (prog (R w r)) (es_shift (R w r))) with 1 in Q2 by (rewrite Pr; counts).
      destruct (sent (prog (R w src)) (es_shift (R w r))) as [|[|j]]; [lia|lia|]. rewrite Q2 in Er. cbn [firstn msgs skipn] in Er.
      rewrite Gsize in Er by lia. fold src in Er. rewrite Z.eqb_refl in Er.
      rewrite R_set, Nat.eqb_refl in Er by assumption. apply (f_equal es_shift) in Er. cbn [es_shift] in Er. lia.
  Qed.
End Ring.
