(** Expression language: formatting, and splitting of windows. *)
From Verif Require Import Base ListLemmas Strings ExprModel ExprSpec ExprProofs ExprProofs2 ExprProofs3.
Set Implicit Arguments.
Local Open Scope list_scope.
Local Open Scope nat_scope.
Notation length := List.length.
Notation pbal := (bal ch_open ch_close).
Notation qbal := (bal ch_q ch_col).

Definition nd (af : chars) : Prop := is_digit (hd nul af) = false.

(** ** RemoveWhitespace *)
Lemma lead_spaces_spec sp s : spaces sp -> s <> [] -> hd nul s <> " "%char -> lead_spaces (sp ++ s) = length sp.
Proof.
  intros Hs Hn Hh. induction Hs as [|c sp -> Hs IH].
  - destruct s as [|c s]; [congruence|]. simpl in *. destruct s; auto. unfold is_space.
    destruct (ascii_dec c " "); [contradiction|reflexivity].
  - cbn [app]. destruct (sp ++ s) as [|x q] eqn:E.
    + apply app_eq_nil in E as [_ E]. contradiction.
    + change (S (lead_spaces (x :: q)) = S (length sp)). now rewrite IH.
Qed.

Lemma hd_rev {X} (s : list X) d : hd d (rev s) = last s d.
Proof.
  destruct (list_nil_or_snoc s) as [->|(s' & y & ->)]; auto. rewrite rev_app_distr, last_last. reflexivity.
Qed.
Lemma spaces_rev sp : spaces sp -> spaces (rev sp).
Proof. unfold spaces. intros H. apply Forall_rev. exact H. Qed.

Lemma remove_whitespace_spec l s r af : spaces l -> spaces r -> s <> [] -> hd nul s <> " "%char -> last s nul <> " "%char ->
  remove_whitespace (Reader (l ++ s ++ r) af) = Reader s (r ++ af).
Proof.
  intros Hl Hr Hn Hh Ht. unfold remove_whitespace. simpl win. simpl after.
  rewrite lead_spaces_spec; auto.
  2:{ intros E. apply app_eq_nil in E as [E _]. contradiction. }
  2:{ rewrite hd_app_ne; auto. }
  rewrite skipn_len. simpl win. rewrite rev_app_distr, lead_spaces_spec.
  - unfold sub_prefix, rlen. simpl win. simpl after.
    replace (length (s ++ r) - length (rev r)) with (length s) by (rewrite app_length, rev_length; lia).
    rewrite firstn_len, skipn_len. reflexivity.
  - now apply spaces_rev.
  - intros E. apply (f_equal (@rev _)) in E. rewrite rev_involutive in E. contradiction.
  - now rewrite hd_rev.
Qed.

(** ** RemoveRedundantParenthesis *)
Lemma rd0 s af : s <> [] -> rd (Reader s af) 0 = hd nul s.
Proof. destruct s; [congruence|reflexivity]. Qed.

Lemma remove_parens_bare s k : pbal s k -> s <> [] -> k <> [ch_close] ->
  forall n af, remove_parens n (Reader s af) = Reader s af.
Proof.
  intros Hb Hn Hk n af. destruct n as [|n]; [reflexivity|]. cbn [remove_parens].
  rewrite rd0 by auto.
  destruct (bal_uncons Hb Hn) as [(a & v & kv & -> & -> & E3 & E4 & E5)|(t & kt & v & kv & -> & -> & E3 & E4)].
  - simpl hd. destruct (ascii_dec a ch_open); [contradiction|reflexivity].
  - simpl hd. destruct (ascii_dec ch_open ch_open); [|congruence].
    change 0 with (length (@nil ascii)) at 1.
    rewrite (@next_group _ _ paren_neq (Reader (ch_open :: t ++ ch_close :: v) af) [] t kt (v ++ af) E3).
    + simpl fst. unfold rlen. simpl win. simpl length. rewrite app_length. simpl length.
      destruct v as [|x v].
      * exfalso. apply Hk. rewrite (proj1 (bal_nil_iff E4) eq_refl). reflexivity.
      * simpl length. match goal with |- context [?a =? ?b] => replace (a =? b) with false; [reflexivity|] end.
        symmetry. apply Nat.eqb_neq. lia.
    + simpl. rewrite <- app_assoc. reflexivity.
    + unfold rlen. simpl. rewrite app_length. simpl. lia.
Qed.

Lemma remove_parens_group t kt : pbal t kt -> forall n af,
  remove_parens (S n) (Reader (lit "(" ++ t ++ lit ")") af) = remove_parens n (Reader t (ch_close :: af)).
Proof.
  intros Hb n af. cbn [remove_parens]. rewrite rd0 by discriminate. simpl hd.
  destruct (ascii_dec "("%char ch_open) as [_|Hc]; [|exfalso; now apply Hc].
  change 0 with (length (@nil ascii)) at 1.
  rewrite (@next_group _ _ paren_neq (Reader (lit "(" ++ t ++ lit ")") af) [] t kt af Hb).
  - simpl fst. unfold rlen. simpl win. simpl length. rewrite app_length. simpl length.
    match goal with |- context [?a =? ?b] => replace (a =? b) with true by (symmetry; apply Nat.eqb_eq; lia) end.
    cbn [andb]. match goal with |- context [?a <? ?b] => replace (a <? b) with true by (symmetry; apply Nat.ltb_lt; simpl; lia) end.
    unfold sub_range. simpl win. simpl after. replace (S (length t + 1) - 1) with (S (length t)) by lia.
    cbn [firstn skipn]. rewrite firstn_len, skipn_len. reflexivity.
  - simpl. rewrite <- app_assoc. reflexivity.
  - unfold rlen. simpl. rewrite app_length. simpl. lia.
Qed.

(** ** core of a written form: what is left after removing redundant parentheses *)
Definition bare (s : chars) : Prop := exists k, pbal s k /\ s <> [] /\ k <> [ch_close].

Lemma two_ne {X} (a b c : list X) (x : X) : a <> [] -> c <> [] -> a ++ b ++ c <> [x].
Proof.
  intros Ha Hc E. apply (f_equal (@length _)) in E. rewrite !app_length in E. destruct a, c; try congruence. simpl in E. lia.
Qed.

Lemma facts_k_ne l s k : facts l s k -> k <> [].
Proof. intros F E. apply (f_ne F). now apply (bal_nil_iff (f_bal F)). Qed.

Lemma bare_app L L' s a t b op l : wfact L s a -> wfact L' t b -> opok l op -> bare (s ++ op ++ t).
Proof.
  intros (k & F & _) (k' & F' & _) [Hp _]. exists (k ++ op ++ k'). split; [|split].
  - apply bal_app; [apply F|]. apply bal_app; [now apply plain_pbal|apply F'].
  - intros E. apply app_eq_nil in E as [E _]. now apply (f_ne F).
  - apply two_ne; eapply facts_k_ne; eauto.
Qed.

Lemma wfact_of L s a : written L s a -> wfact L s a.
Proof. apply written_facts. Qed.
Lemma bfact_of L s b : bwritten L s b -> bfact L s b.
Proof. apply written_facts. Qed.

Lemma opok_pad1 n op : padded [n] op -> plainc n = true -> opok [" "%char; n] op.
Proof.
  intros Hp Hn. eapply opok1; eauto; [simpl; auto|simpl; now rewrite Hn|].
  constructor; [|constructor]. apply allowed_of. simpl. auto.
Qed.

Lemma bare_plain s : forallb plainc s = true -> s <> [] -> s <> [ch_close] -> bare s.
Proof. intros. exists s. split; [now apply plain_pbal|auto]. Qed.

Lemma bare_neg L sp s a : spaces sp -> wfact L s a -> bare (lit "-" ++ sp ++ s).
Proof.
  intros Hsp (k & F & _). exists (lit "-" ++ sp ++ k). split; [|split].
  - apply bal_app; [apply bal_one; discriminate|]. apply bal_app; [now apply plain_pbal, spaces_plain|apply F].
  - discriminate.
  - discriminate.
Qed.

Lemma written_paren_or_bare L s a : written L s a ->
  (exists t, s = lit "(" ++ t ++ lit ")" /\ (written LExpr t a \/ (t = lit "e" /\ a = ConstE))) \/ bare s.
Proof.
  intros H. induction H as
    [s H|s v H| | | |s a H _|n f s a Hn H _|s a H IH|s a op t b H1 _ Hop H2 _ _|s a op sp t b H1 _ Hop Hsp H2 _ _
    |s a H IH|sp s a Hsp H _|s a H IH|s a op t b H1 _ Hop H2 _|s a op t b H1 _ Hop H2 _
    |s a H IH|s a op t b H1 _ Hop H2 _|s a op t b H1 _ Hop H2 _ _|s a op sp t b H1 _ Hop Hsp H2 _ _
    |s a H IH|s a op t b H1 _ Hop H2 _|c p q s a k t b Hc Hq H1 _ Hk H2 _]; auto.
  - right. destruct (numeral_facts H) as (F & _). exists s. split; [apply F|]. split; [apply F|].
    intros ->. destruct (numeral_chars H) as (_ & [E|E] & _); discriminate.
  - right. destruct H; apply bare_plain; try reflexivity; discriminate.
  - right. apply bare_plain; try reflexivity; discriminate.
  - right. apply bare_plain; try reflexivity; discriminate.
  - left. exists (lit "e"). auto.
  - left. exists s. auto.
  - right. destruct (wfact_of H) as (k & F & _). exists (n ++ lit ")"). split; [|split].
    + apply bal_app; [destruct Hn; now apply plain_pbal|apply (bal_paren (f_bal F))].
    + destruct Hn; discriminate.
    + destruct Hn; discriminate.
  - right. eapply bare_app; [apply (wfact_of H1)|apply (wfact_of H2)|eapply opok_pad1; eauto; reflexivity].
  - right. rewrite app_assoc. replace ((s ++ op) ++ lit "-" ++ sp ++ t) with (s ++ (op ++ lit "-" ++ sp) ++ t) by now rewrite <- !app_assoc.
    eapply bare_app; [apply (wfact_of H1)|apply (wfact_of H2)|].
    apply opok_app with (l := lit " ^"); [eapply opok1; eauto; [simpl; auto|repeat constructor]|].
    apply opok_app; [split; [reflexivity|repeat constructor]|apply opok_spaces; simpl; auto].
  - right. eapply bare_neg; eauto. apply (wfact_of H).
  - right. eapply bare_app; [apply (wfact_of H1)|apply (wfact_of H2)|eapply opok_pad1; eauto; reflexivity].
  - right. eapply bare_app; [apply (wfact_of H1)|apply (wfact_of H2)|eapply opok_pad1; eauto; reflexivity].
  - right. eapply bare_app; [apply (wfact_of H1)|apply (wfact_of H2)|eapply opok_pad1; eauto; reflexivity].
  - right. eapply bare_app; [apply (wfact_of H1)|apply (wfact_of H2)|eapply opok_pad1; eauto; reflexivity].
  - right. rewrite app_assoc. replace ((s ++ op) ++ lit "-" ++ sp ++ t) with (s ++ (op ++ lit "-" ++ sp) ++ t) by now rewrite <- !app_assoc.
    eapply bare_app; [apply (wfact_of H1)|apply (wfact_of H2)|].
    apply opok_app with (l := lit " -"); [eapply opok1; eauto; [simpl; auto|repeat constructor]|].
    apply opok_app; [split; [reflexivity|repeat constructor]|apply opok_spaces; simpl; auto].
  - right. eapply bare_app; [apply (wfact_of H1)|apply (wfact_of H2)|eapply opok_pad1; eauto; reflexivity].
  - right. destruct (bfact_of Hc) as (kc & Fc), (wfact_of (w_if Hc Hq H1 Hk H2)) as (kk & F & _).
    destruct (wfact_of H1) as (k1 & F1 & _), (wfact_of H2) as (k2 & F2 & _).
    exists kk. split; [apply F|]. split; [apply F|]. intros E.
    pose proof (f_bal F) as B. rewrite E in B.
    assert (Hq' : In "?"%char kk).
    { rewrite <- (outside_iff (f_bal F)) by discriminate. unfold outside, toplevel.
      rewrite (proj1 (toplevel_bal (f_bal Fc) _)). apply in_or_app. right.
      destruct Hq as (l & r & Hl & Hr & ->). rewrite <- !app_assoc.
      rewrite (proj1 (toplevel_bal (plain_pbal _ (spaces_plain Hl)) _)). apply in_or_app. right. simpl. now left. }
    rewrite E in Hq'. destruct Hq' as [Hq'|[]]. discriminate.
Qed.

Definition wr (s : chars) (a : aexp) : Prop := written LExpr s a \/ (s = lit "e" /\ a = ConstE).

Lemma wr_core N : forall s a, length s <= N -> wr s a -> exists c, length c <= length s /\ wr c a /\ bare c /\
  forall n af, length s <= n -> nd af -> exists af', nd af' /\ remove_parens n (Reader s af) = Reader c af'.
Proof.
  induction N as [|N IH]; intros s a Hs H.
  - exfalso. destruct s; [|simpl in Hs; lia]. destruct H as [H|[H _]]; [|discriminate].
    destruct (wfact_of H) as (k & F & _). now apply (f_ne F).
  - assert (G : bare s -> exists c, length c <= length s /\ wr c a /\ bare c /\
      forall n af, length s <= n -> nd af -> exists af', nd af' /\ remove_parens n (Reader s af) = Reader c af').
    { intros B. exists s. repeat split; auto. intros n af _ Haf. exists af. split; auto.
      destruct B as (k & B1 & B2 & B3). eapply remove_parens_bare; eauto. }
    destruct H as [H|[-> ->]].
    + destruct (written_paren_or_bare H) as [(t & Es & Ht)|B]; auto.
      assert (Hlen : length s = 2 + length t). { rewrite Es, !app_length. simpl. lia. }
      destruct (IH t a) as (c & Hc1 & Hc2 & Hc3 & Hc4); [lia|exact Ht|].
      exists c. split; [lia|]. repeat split; auto. intros n af Hn Haf.
      destruct n as [|n]; [lia|].
      assert (Hb : exists kt, pbal t kt).
      { destruct Ht as [Ht|[-> _]]; [destruct (wfact_of Ht) as (k & F & _); exists k; apply F|].
        exists (lit "e"). now apply plain_pbal. }
      destruct Hb as (kt & Hb). rewrite Es, (remove_parens_group Hb).
      apply Hc4; [lia|reflexivity].
    + apply G. apply bare_plain; try reflexivity; discriminate.
Qed.

Lemma wr_first_last s a : wr s a -> s <> [] /\ hd nul s <> " "%char /\ last s nul <> " "%char.
Proof.
  intros [H|[-> _]]; [|repeat split; discriminate].
  destruct (wfact_of H) as (k & F & _). repeat split; try apply F.
  intros E. pose proof (f_first F) as Hf. rewrite E in Hf. discriminate.
Qed.

Lemma format_core s a : wr s a -> exists c, length c <= length s /\ wr c a /\ bare c /\
  forall l r af, spaces l -> spaces r -> nd af ->
    exists af', nd af' /\ apply_formatting (Reader (l ++ s ++ r) af) = Reader c af'.
Proof.
  intros H. destruct (@wr_core (length s) s a (le_n _) H) as (c & H1 & H2 & H3 & H4).
  exists c. repeat split; auto. intros l r af Hl Hr Haf.
  destruct (wr_first_last H) as (E1 & E2 & E3).
  unfold apply_formatting. simpl win. destruct (l ++ s ++ r) as [|x w] eqn:Ew.
  { exfalso. apply app_eq_nil in Ew as [_ Ew]. apply app_eq_nil in Ew as [Ew _]. contradiction. }
  rewrite <- Ew, remove_whitespace_spec by auto. apply H4.
  - unfold rlen. simpl. rewrite !app_length. lia.
  - unfold nd. destruct Hr as [|y r -> Hr]; [exact Haf|reflexivity].
Qed.

(** ** minus signs *)
Lemma minus_left_run r u w v : win r ++ after r = u ++ w ++ v -> w <> [] -> Forall (fun c => In c (lit "- ")) w ->
  minus_left r (length u + length w - 1) = match length u with 0 => 0 | S _ => minus_left r (length u - 1) end.
Proof.
  revert v. induction w as [|c w IH] using rev_ind; intros v E Hn Hw; [congruence|].
  apply Forall_app in Hw as [Hw Hc]. apply Forall_inv in Hc.
  rewrite app_length. simpl length. replace (length u + (length w + 1) - 1) with (length u + length w) by lia.
  destruct (length u + length w) as [|p] eqn:Ep.
  - assert (length u = 0) by lia. rewrite H. reflexivity.
  - cbn [minus_left]. assert (Er : rd r (S p) = c).
    { rewrite <- Ep, <- app_length. apply (@rd_at r (u ++ w) c v). rewrite E, <- !app_assoc. reflexivity. }
    rewrite Er. rewrite (proj2 (mem_char_iff c (lit "- ")) Hc).
    destruct w as [|d w].
    + simpl in Ep. rewrite Nat.add_0_r in Ep. rewrite Ep. f_equal. lia.
    + replace p with (S p - 1) by lia. apply IH with ([c] ++ v).
      * rewrite E, <- !app_assoc. reflexivity.
      * discriminate.
      * exact Hw.
Qed.

Lemma minus_left_stop r p : mem_char (rd r p) (lit "- ") = false -> minus_left r p = p.
Proof. intros H. destruct p; [reflexivity|]. cbn [minus_left]. now rewrite H. Qed.

Lemma minus_right_run r u w v n : win r ++ after r = u ++ w ++ "-"%char :: v -> ~ In "-"%char w -> length w < n ->
  minus_right r n (length u) = length u + length w.
Proof.
  revert u n. induction w as [|c w IH]; intros u n E Hw Hn; destruct n as [|n]; try (simpl in Hn; lia); cbn [minus_right].
  - rewrite (@rd_at r u _ _ E). simpl. lia.
  - rewrite (@rd_at r u c (w ++ "-"%char :: v) E).
    destruct (ascii_dec c "-") as [->|]; [exfalso; apply Hw; now left|].
    replace (S (length u)) with (length (u ++ [c])) by (rewrite app_length; simpl; lia).
    rewrite IH.
    + rewrite app_length. simpl. lia.
    + rewrite E, <- app_assoc. reflexivity.
    + intros Hi. apply Hw. now right.
    + simpl in Hn. lia.
Qed.

(** ** IsNumber on compound text *)
Lemma not_number s n op t : s <> [] -> last_ok (last s nul) = true -> padded n op -> n <> [] ->
  mem_char (hd nul n) (lit "+-*/^%?:<>=") = true -> is_number (s ++ op ++ t) = false.
Proof.
  intros Hs Hl (a & b & Ha & Hb & ->) Hn Hm. destruct n as [|x n]; [congruence|]. simpl in Hm.
  destruct (is_number _) eqn:E; auto. exfalso.
  pose proof (is_number_chars _ E) as Hc. rewrite !Forall_app in Hc. destruct Hc as (_ & (Hca & Hcx & _) & _).
  apply Forall_inv in Hcx.
  assert (Hx : In x (lit "+-")).
  { apply mem_char_iff in Hm. destruct Hcx as [Hd|Hd].
    - exfalso. revert Hm Hd. simpl. intros Hm Hd. repeat (destruct Hm as [<-|Hm]; [discriminate Hd|]). destruct Hm.
    - revert Hm Hd. simpl. intros Hm Hd. repeat (destruct Hm as [<-|Hm]; [intuition discriminate|]). destruct Hm. }
  replace (s ++ (a ++ (x :: n) ++ b) ++ t) with ((s ++ a) ++ x :: (n ++ b ++ t)) in E
    by (repeat (rewrite <- ?app_assoc; simpl); reflexivity).
  pose proof (@is_number_sign x (s ++ a) (n ++ b ++ t) Hx) as Hs'.
  assert (Hne : s ++ a <> []). { intros E0. apply app_eq_nil in E0 as [E0 _]. contradiction. }
  specialize (Hs' Hne E). destruct (list_nil_or_snoc a) as [->|(a' & y & ->)].
  - rewrite app_nil_r in Hs'. rewrite Hs' in Hl. discriminate.
  - apply Forall_app in Ha as [_ Ha]. apply Forall_inv in Ha. subst y.
    apply Forall_app in Hca as [_ Hca]. apply Forall_inv in Hca. destruct Hca as [Hd|Hd]; [discriminate|].
    simpl in Hd. intuition discriminate.
Qed.

Lemma number_no_char x s : In x s -> is_digit x = false -> mem_char x (lit ".e+-") = false -> is_number s = false.
Proof.
  intros Hi Hd Hm. destruct (is_number s) eqn:E; auto. exfalso.
  pose proof (proj1 (Forall_forall _ _) (is_number_chars _ E) _ Hi) as [H|H]; [congruence|].
  apply mem_char_iff in H. congruence.
Qed.

Lemma primary_number s a : written LPrimary s a -> is_number s = true \/ number_loop s false false = true ->
  numeral s /\ a = Num s.
Proof.
  intros H Hn.
  assert (Hc : Forall (fun c => is_digit c = true \/ In c (lit ".e+-")) s).
  { destruct Hn as [Hn|Hn]; [now apply is_number_chars|now apply number_loop_chars with false false]. }
  assert (G : forall x, In x s -> is_digit x = false -> mem_char x (lit ".e+-") = false -> False).
  { intros x Hi Hd Hm. destruct (proj1 (Forall_forall _ _) Hc _ Hi) as [E|E]; [congruence|].
    apply mem_char_iff in E. congruence. }
  inversion H as [s0 H0|s0 v H0| | | |s0 a0 H0|n f s0 a0 H0 H1| | | | | | | | | | | | | | |]; subst.
  - auto.
  - exfalso. destruct H0.
    + apply (G "x"%char); try reflexivity. now left.
    + apply (G "y"%char); try reflexivity. now left.
    + apply (G "z"%char); try reflexivity. now left.
    + apply (G "t"%char); try reflexivity. now left.
  - exfalso. apply (G "p"%char); try reflexivity. now left.
  - exfalso. apply (G "t"%char); try reflexivity. now left.
  - exfalso. apply (G "("%char); try reflexivity. now left.
  - exfalso. apply (G "("%char); try reflexivity. now left.
  - exfalso. apply (G "("%char); try reflexivity. apply in_or_app. right. now left.
Qed.

Lemma spaced_number sp t : spaces sp -> Forall (fun c => is_digit c = true \/ In c (lit ".e+-")) (sp ++ t) -> sp = [].
Proof.
  intros Hs H. destruct Hs as [|c sp -> Hs]; auto. exfalso. apply Forall_inv in H. destruct H as [H|H]; [discriminate|].
  simpl in H. intuition discriminate.
Qed.

(** the bare written forms that look like a number *)
Lemma number_core c a : written LExpr c a -> is_number c = true ->
  (numeral c /\ a = Num c) \/ (exists t, c = "-"%char :: t /\ numeral t /\ a = Neg (Num t)).
Proof.
  intros H Hn.
  assert (NN : forall L s a n op t, written L s a -> padded n op -> n <> [] ->
     mem_char (hd nul n) (lit "+-*/^%?:<>=") = true -> is_number (s ++ op ++ t) = true -> False).
  { intros L s a' n op t Hs Hop Hne Hm E. destruct (wfact_of Hs) as (k & F & Hl & _).
    rewrite (@not_number s n op t (f_ne F) Hl Hop Hne Hm) in E. discriminate. }
  assert (HS : forall s a, written LSum s a -> is_number s = true ->
     (numeral s /\ a = Num s) \/ (exists t, s = "-"%char :: t /\ numeral t /\ a = Neg (Num t))).
  { clear c a H Hn. intros c a H Hn.
    inversion H as [| | | | | | | | | | | | | | |s0 a0 H0|s0 a0 op t b H0 Hop _|s0 a0 op t b H0 Hop _ _|s0 a0 op sp t b H0 Hop _ _ _| | |]; subst.
    2,3,4: exfalso; eapply NN; [exact H0|exact Hop|discriminate|reflexivity|exact Hn].
    clear H. inversion H0 as [| | | | | | | | | | | |s1 a1 H1|s1 a1 op t b H1 Hop _|s1 a1 op t b H1 Hop _| | | | | | |]; subst.
    2,3: exfalso; eapply NN; [exact H1|exact Hop|discriminate|reflexivity|exact Hn].
    clear H0. inversion H1 as [| | | | | | | | | |s2 a2 H2|sp s2 a2 Hsp H2| | | | | | | | | |]; subst.
    - clear H1. inversion H2 as [| | | | | | |s3 a3 H3|s3 a3 op t b H3 Hop _ _|s3 a3 op sp t b H3 Hop _ _ _| | | | | | | | | | | |]; subst.
      2,3: exfalso; eapply NN; [exact H3|exact Hop|discriminate|reflexivity|exact Hn].
      left. apply primary_number; auto.
    - right. assert (Hn' : number_loop (sp ++ s2) false false = true) by exact Hn.
      pose proof (@spaced_number _ _ Hsp (@number_loop_chars _ _ _ Hn')) as ->. simpl in Hn'.
      destruct (primary_number H2 (or_intror Hn')) as [Hnum ->]. exists s2. auto. }
  inversion H as [| | | | | | | | | | | | | | | | | | |s0 a0 H0|s0 a0 op t b H0 Hop _|c0 p q s0 a0 k t b Hc Hq _ Hk _]; subst.
  - now apply HS.
  - exfalso; eapply NN; [exact H0|exact Hop|discriminate|reflexivity|exact Hn].
  - exfalso. rewrite (@number_no_char "?"%char) in Hn; try reflexivity; [discriminate|].
    apply in_or_app. right. apply in_or_app. left. destruct Hq as (l & r & _ & _ & ->).
    apply in_or_app. right. now left.
Qed.
