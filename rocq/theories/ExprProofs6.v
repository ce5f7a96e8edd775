(** Expression language: the bodies of the two parsers, and the induction on the recursion depth. *)
From Verif Require Import Base ListLemmas Strings ExprModel ExprSpec ExprProofs ExprProofs2 ExprProofs3 ExprProofs4 ExprProofs5.
Set Implicit Arguments.
Local Open Scope list_scope.
Local Open Scope nat_scope.
Notation length := List.length.
Notation pbal := (bal ch_open ch_close).
Notation qbal := (bal ch_q ch_col).
Arguments facts_not_in [l s k x] _ _ _.

(** text in parentheses is not bare *)
Lemma paren_not_bare t kt : pbal t kt -> ~ bare (lit "(" ++ t ++ lit ")").
Proof.
  intros Ht (k & Hb & Hn & Hk).
  destruct (bal_uncons Hb Hn) as [(x & v & kv & E1 & E2 & E3 & E4 & E5)|(t' & kt' & v & kv & E1 & E2 & E3 & E4)].
  - injection E1 as E1 _. now apply E3.
  - set (r := Reader (lit "(" ++ t ++ lit ")") []).
    assert (N1 : next ch_open ch_close r 0 = (0 + 1 + length t, 0)).
    { apply (@next_group _ _ paren_neq r [] t kt []); auto; [unfold r; cbn [win after]; rewrite app_nil_r; reflexivity|]. unfold rlen. simpl. rewrite app_length. simpl. lia. }
    assert (N2 : next ch_open ch_close r 0 = (0 + 1 + length t', 0)).
    { apply (@next_group _ _ paren_neq r [] t' kt' v); auto.
      - unfold r. cbn [win after]. rewrite app_nil_r. exact E1.
      - unfold rlen, r. cbn [win]. rewrite E1. simpl. rewrite app_length. simpl. lia. }
    rewrite N1 in N2. injection N2 as N2.
    apply (f_equal (@length _)) in E1. simpl in E1. rewrite !app_length in E1. simpl in E1.
    assert (v = []) by (destruct v; [auto|simpl in E1; lia]). subst v.
    apply Hk. rewrite E2. f_equal. now apply (bal_nil_iff E4).
Qed.

(** a primary that is not a numeral has no minus sign outside parentheses and does not begin with one *)
Lemma primary_no_minus s a : written LPrimary s a -> is_number s = false ->
  exists k, facts [] s k /\ ~ In "-"%char k /\ hd nul s <> "-"%char.
Proof.
  intros H Hn. inversion H as [s0 H0|s0 v H0| | | |s0 a0 H0|n f s0 a0 Hf H0| | | | | | | | | | | | | | |]; subst.
  - exfalso. pose proof (numeral_loop H0) as E. destruct (numeral_chars H0) as (Hnil & Hh & _).
    unfold is_number in Hn. destruct s as [|c s]; [congruence|]. simpl in Hh.
    destruct (ascii_dec c "-") as [->|]; [destruct Hh; discriminate|].
    destruct (ascii_dec c "+") as [->|]; [destruct Hh; discriminate|]. cbn [orb] in Hn. congruence.
  - destruct (wfact_of H) as (k & F & _). exists s. split; [|split].
    + destruct H0; apply facts_plain; try reflexivity; try discriminate; repeat constructor.
    + destruct H0; simpl; intuition discriminate.
    + destruct H0; discriminate.
  - exists (lit "pi"). split; [apply facts_plain; try reflexivity; try discriminate; repeat constructor|].
    split; [simpl; intuition discriminate|discriminate].
  - exists (lit "tau"). split; [apply facts_plain; try reflexivity; try discriminate; repeat constructor|].
    split; [simpl; intuition discriminate|discriminate].
  - destruct (wfact_of H) as (k & F & _). exists (lit ")"). split; [|split; [simpl; intuition discriminate|discriminate]].
    apply (@facts_group [] (lit "e") (lit "e")). exists []. apply facts_plain; try reflexivity; try discriminate; repeat constructor.
  - destruct (wfact_of H0) as (k & F & _). exists (lit ")"). split; [|split; [simpl; intuition discriminate|discriminate]].
    apply (@facts_group [] s0 k). eauto.
  - destruct (wfact_of H0) as (k & F & _). exists (n ++ lit ")").
    split; [|split].
    + change (lit "(" ++ s0 ++ lit ")") with (lit "(" ++ s0 ++ lit ")").
      apply facts_pre; try (destruct Hf; discriminate); try (destruct Hf; reflexivity).
      * destruct Hf; split; try reflexivity; repeat constructor.
      * apply (@facts_group [] s0 k). eauto.
    + destruct Hf; simpl; intuition discriminate.
    + destruct Hf; discriminate.
Qed.

Lemma in_toplevel_mid s k l x r t kx : pbal s k -> spaces l -> pbal (s ++ (l ++ [x] ++ r) ++ t) kx ->
  x <> ch_open -> x <> ch_close -> In x kx.
Proof.
  intros Hs Hl Hk H1 H2. rewrite <- (outside_iff Hk) by auto. unfold outside, toplevel.
  rewrite (proj1 (toplevel_bal Hs _)). apply in_or_app. right. rewrite <- !app_assoc.
  rewrite (proj1 (toplevel_bal (plain_pbal _ (spaces_plain Hl)) _)). apply in_or_app. right. simpl.
  destruct (ascii_dec x "("); [contradiction|]. destruct (ascii_dec x ")"); [contradiction|]. now left.
Qed.

Lemma not_primary L s a x op u : written L s a -> padded [x] op -> In x (lit "+-*/^") ->
  is_number (s ++ op ++ u) = false -> forall b, ~ written LPrimary (s ++ op ++ u) b.
Proof.
  intros H (l & r & Hl & Hr & ->) Hx Hn b Hb.
  destruct (primary_no_minus Hb Hn) as (k & F & Hm & _). destruct (wfact_of H) as (k1 & F1 & _).
  assert (Hi : In x k).
  { apply (@in_toplevel_mid _ _ _ _ _ _ _ (f_bal F1) Hl (f_bal F)); intros ->; simpl in Hx; intuition discriminate. }
  pose proof (proj1 (Forall_forall _ _) (f_al F) _ Hi) as Ha.
  simpl in Hx. destruct Hx as [<-|[<-|[<-|[<-|[<-|[]]]]]]; try discriminate. contradiction.
Qed.

Lemma sum_primary s a : written LSum s a -> is_number s = false ->
  written LPrimary s a \/ (forall b, ~ written LPrimary s b).
Proof.
  intros H Hn.
  inversion H as [| | | | | | | | | | | | | | |s1 a1 H1|s1 a1 op t b H1 Hop H2|s1 a1 op t b H1 Hop H2 Ho|s1 a1 op sp t b H1 Hop Hsp H2 Ho| | |]; subst;
    try (right; eapply not_primary; eauto; simpl; tauto).
  inversion H1 as [| | | | | | | | | | | |s1 a1 H2|s1 a1 op t b H2 Hop H3|s1 a1 op t b H2 Hop H3| | | | | | |]; subst;
    try (right; eapply not_primary; eauto; simpl; tauto).
  inversion H2 as [| | | | | | | | | |s0 a0 H0|sp s0 a0 Hsp H0| | | | | | | | | |]; subst.
  - inversion H0 as [| | | | | | |s1 a1 H3|s1 a1 op t b H3 Hop H4 Hsm|s1 a1 op sp t b H3 Hop Hsp H4 Hsm| | | | | | | | | | | |]; subst;
      try (right; eapply not_primary; eauto; simpl; tauto).
    now left.
  - right. intros b Hb. destruct (primary_no_minus Hb Hn) as (k & F & _ & Hh). now apply Hh.
Qed.

(** the core of a condition *)
Lemma bwritten_paren_or_bare L s b : bwritten L s b ->
  (exists t, s = lit "(" ++ t ++ lit ")" /\ bwritten LDisj t b) \/ bare s.
Proof.
  assert (G : forall l l' s k t k' op l2, facts l s k -> facts l' t k' -> opok l2 op -> bare (s ++ op ++ t)).
  { intros l l' s0 k t k' op l2 F F' [Hp _]. exists (k ++ op ++ k'). split; [|split].
    - apply bal_app; [apply F|]. apply bal_app; [now apply plain_pbal|apply F'].
    - intros E. apply app_eq_nil in E as [E _]. now apply (f_ne F).
    - apply two_ne; eapply facts_k_ne; eauto. }
  intros H. induction H as [| |s p H _|s a n o op t b H1 Hn Hop H2 Hs Ht|s p H IH|s p op t q H1 _ Hop H2 _|s p H IH
     |s p op t q H1 _ Hop H2 _|s p H IH|s p op t q H1 _ Hop H2 _]; auto.
  - right. apply bare_plain; try reflexivity; discriminate.
  - right. apply bare_plain; try reflexivity; discriminate.
  - left. eauto.
  - right. destruct (wfact_of H1) as (k & F & _), (wfact_of H2) as (k' & F' & _). eapply G; eauto.
    eapply opok1 with (l := lit " <>="); [simpl; auto|exact Hop|destruct Hn; reflexivity|destruct Hn; repeat constructor].
  - right. destruct (bfact_of H1) as (k & F), (bfact_of H2) as (k' & F'). eapply G; eauto. eapply opok_pad1; eauto; reflexivity.
  - right. destruct (bfact_of H1) as (k & F), (bfact_of H2) as (k' & F'). eapply G; eauto. eapply opok_pad1; eauto; reflexivity.
  - right. destruct (bfact_of H1) as (k & F), (bfact_of H2) as (k' & F'). eapply G; eauto. eapply opok_pad1; eauto; reflexivity.
Qed.

Lemma bw_core N : forall s b, length s <= N -> bwritten LDisj s b -> exists c, length c <= length s /\ bwritten LDisj c b /\ bare c /\
  forall n af, length s <= n -> nd af -> exists af', nd af' /\ remove_parens n (Reader s af) = Reader c af'.
Proof.
  induction N as [|N IH]; intros s b Hs H.
  - exfalso. destruct s; [|simpl in Hs; lia]. destruct (bfact_of H) as (k & F). now apply (f_ne F).
  - destruct (bwritten_paren_or_bare H) as [(t & Es & Ht)|B].
    + assert (Hlen : length s = 2 + length t). { rewrite Es, !app_length. simpl. lia. }
      destruct (IH t b) as (c & Hc1 & Hc2 & Hc3 & Hc4); [lia|exact Ht|].
      exists c. split; [lia|]. repeat split; auto. intros n af Hn Haf.
      destruct n as [|n]; [lia|]. destruct (bfact_of Ht) as (k & F).
      rewrite Es, (remove_parens_group (f_bal F)). apply Hc4; [lia|reflexivity].
    + exists s. repeat split; auto. intros n af _ Haf. exists af. split; auto.
      destruct B as (k & B1 & B2 & B3). eapply remove_parens_bare; eauto.
Qed.

Lemma bformat_core s b : bwritten LDisj s b -> exists c, length c <= length s /\ bwritten LDisj c b /\ bare c /\
  forall l r af, spaces l -> spaces r -> nd af ->
    exists af', nd af' /\ apply_formatting (Reader (l ++ s ++ r) af) = Reader c af'.
Proof.
  intros H. destruct (@bw_core (length s) s b (le_n _) H) as (c & H1 & H2 & H3 & H4).
  exists c. repeat split; auto. intros l r af Hl Hr Haf.
  destruct (bfact_of H) as (k & F).
  unfold apply_formatting. simpl win. destruct (l ++ s ++ r) as [|x w] eqn:Ew.
  { exfalso. apply app_eq_nil in Ew as [_ Ew]. apply app_eq_nil in Ew as [Ew _]. now apply (f_ne F). }
  rewrite <- Ew, remove_whitespace_spec; auto; try apply F. 2:{ intros E. pose proof (f_first F) as Hf. rewrite E in Hf. discriminate. }
  apply H4.
  - unfold rlen. simpl. rewrite !app_length. lia.
  - unfold nd. destruct Hr as [|y r -> Hr]; [exact Haf|reflexivity].
Qed.

Lemma req_not r s x : In x (win r) -> ~ In x s -> req r s = false.
Proof.
  intros H1 H2. unfold req. destruct (chars_eqb (win r) s) eqn:E; auto. apply chars_eqb_eq in E. rewrite E in H1. contradiction.
Qed.

Ltac skip_bwd Hf := let p := fresh "p" in let f := fresh "f" in let Hn := fresh "Hn" in
  match goal with |- context [find_bwd ?r ?x] =>
    assert (Hn : snd (find_bwd r x) = false); [Hf|destruct (find_bwd r x) as [p f]; simpl in Hn; subst f; clear p] end.
Ltac skip_fwd Hf := let p := fresh "p" in let f := fresh "f" in let Hn := fresh "Hn" in
  match goal with |- context [find_fwd ?r ?x] =>
    assert (Hn : snd (find_fwd r x) = false); [Hf|destruct (find_fwd r x) as [p f]; simpl in Hn; subst f; clear p] end.

Section Bodies.
Context {T : Type} (A : arith T) (numval : chars -> T).
Hypothesis laws : arith_laws A numval.
Variables (pe : reader -> outcome (dnode T)) (pb : reader -> outcome (bnode T)) (N : nat).
Hypothesis Hpe : forall s a, length s < N -> wr s a -> pok A numval pe s a.
Hypothesis Hpb : forall s b, length s < N -> bwritten LDisj s b -> bok A numval pb s b.
Notation denotes := (denotes A numval).
Notation bdenotes := (bdenotes A numval).
Notation gives := (gives A numval).

Lemma no_op s k af : facts [] s k -> ~ In "-"%char k -> hd nul s <> "-"%char ->
  parse_operation pe pb (Reader s af) = Ok None.
Proof.
  intros F Hm Hh.
  unfold parse_operation. skip_fwd ltac:(apply (@find_fwd_none _ _ k); try discriminate; try apply F; now apply (facts_not_in F)).
  unfold parse_op_plus.
  skip_bwd ltac:(apply (@find_bwd_none _ _ k); try discriminate; try apply F; now apply (facts_not_in F)).
  skip_bwd ltac:(apply (@find_bwd_none _ _ k); try discriminate; try apply F; now apply (facts_not_in F)).
  unfold parse_op_minus.
  skip_bwd ltac:(apply (@find_bwd_none _ _ k); try discriminate; try apply F; exact Hm).
  unfold parse_op_mul.
  skip_bwd ltac:(apply (@find_bwd_none _ _ k); try discriminate; try apply F; now apply (facts_not_in F)).
  skip_bwd ltac:(apply (@find_bwd_none _ _ k); try discriminate; try apply F; now apply (facts_not_in F)).
  unfold parse_op_pow.
  skip_fwd ltac:(apply (@find_fwd_none _ _ k); try discriminate; try apply F; now apply (facts_not_in F)).
  unfold first_char. rewrite rd0 by apply F. destruct (ascii_dec (hd nul s) "-"); [contradiction|reflexivity].
Qed.

(** a conditional expression *)
Lemma if_ok c p q s a k t b af : bwritten LDisj c p -> padded (lit "?") q -> written LExpr s a -> padded (lit ":") k ->
  written LExpr t b -> length (c ++ q ++ s ++ k ++ t) <= N -> nd af ->
  gives (parse_operation pe pb (Reader (c ++ q ++ s ++ k ++ t) af)) (If p a b).
Proof.
  intros Hc (l1 & r1 & Hl1 & Hr1 & ->) Hs (l2 & r2 & Hl2 & Hr2 & ->) Ht Hlen Haf.
  destruct (bfact_of Hc) as (kc & Fc), (wfact_of Hs) as (ks & Fs & _), (wfact_of Ht) as (kt & Ft & _).
  destruct (f_q Fs) as (k2 & Q).
  set (u := c ++ l1). set (m := r1 ++ s ++ l2).
  assert (E : c ++ (l1 ++ lit "?" ++ r1) ++ s ++ (l2 ++ lit ":" ++ r2) ++ t = u ++ "?"%char :: m ++ ":"%char :: r2 ++ t).
  { unfold u, m. asq. }
  rewrite E in *. clear E.
  set (R := Reader (u ++ "?"%char :: m ++ ":"%char :: r2 ++ t) af).
  assert (Hlu : length u = length c + length l1) by (unfold u; rewrite app_length; lia).
  assert (Hlm : length m = length r1 + (length s + length l2)) by (unfold m; rewrite !app_length; lia).
  assert (Hcs : 0 < length c) by (pose proof (f_ne Fc); destruct c; [congruence|simpl; lia]).
  rewrite app_length in Hlen. cbn [List.length] in Hlen. rewrite app_length in Hlen. cbn [List.length] in Hlen. rewrite app_length in Hlen.
  unfold parse_operation.
  assert (E1 : find_fwd R "?" = (length u, true)).
  { apply (@find_fwd_found R "?" u (kc ++ l1) (m ++ ":"%char :: r2 ++ t)); try discriminate; [| |reflexivity].
    - apply bal_app; [apply Fc|now apply plain_pbal, spaces_plain].
    - intros Hi. apply in_app_iff in Hi as [Hi|Hi]; [revert Hi; now apply (facts_not_in Fc)|].
      revert Hi. apply (spaces_no Hl1). discriminate. }
  rewrite E1.
  assert (E2 : next "?" ":" R (length u) = (length u + 1 + length m, 0)).
  { apply (@next_group "?" ":" ltac:(discriminate) R u m (r1 ++ k2 ++ l2) (r2 ++ t ++ af)).
    - unfold m. apply bal_app; [now apply plain_qbal, spaces_plain|]. apply bal_app; [exact Q|now apply plain_qbal, spaces_plain].
    - unfold R. cbn [win after]. asq.
    - unfold R, rlen. cbn [win]. rewrite app_length. cbn [List.length]. rewrite app_length. cbn [List.length]. lia. }
  rewrite E2. change (0 <? 0) with false. cbv iota.
  assert (E3 : rlen R = length u + 1 + length m + 1 + length r2 + length t).
  { unfold R, rlen. cbn [win]. rewrite app_length. cbn [List.length]. rewrite app_length. cbn [List.length]. rewrite app_length. lia. }
  replace (length u + 1 + length m =? rlen R) with false by (symmetry; apply Nat.eqb_neq; lia). cbn [negb].
  assert (P1 : sub_prefix R (length u) = Reader u (("?"%char :: m ++ ":"%char :: r2 ++ t) ++ af)) by apply sub_prefix_at.
  assert (P2 : sub_range R (length u + 1) (length u + 1 + length m) = Reader m ((":"%char :: r2 ++ t) ++ af)).
  { unfold sub_range, R. cbn [win after].
    replace (u ++ "?"%char :: m ++ ":"%char :: r2 ++ t) with (((u ++ ["?"%char]) ++ m) ++ ":"%char :: r2 ++ t) by asq.
    replace (length u + 1) with (length (u ++ ["?"%char])) by (rewrite (app_length u); reflexivity).
    rewrite <- (app_length (u ++ ["?"%char]) m), firstn_len, !skipn_len. reflexivity. }
  assert (P3 : sub_from R (length u + 1 + length m + 1) = Ok (Reader (r2 ++ t) af)).
  { unfold R. replace (u ++ "?"%char :: m ++ ":"%char :: r2 ++ t) with ((u ++ "?"%char :: m ++ [":"%char]) ++ r2 ++ t) by asq.
    replace (length u + 1 + length m + 1) with (length (u ++ "?"%char :: m ++ [":"%char])).
    2:{ rewrite app_length. cbn [List.length]. rewrite app_length. simpl. lia. }
    apply sub_from_at. }
  rewrite P1, P2, P3. unfold u, m.
  destruct (Hpb (s := c) ltac:(lia) Hc (l := []) (r := l1) (af := ("?"%char :: (r1 ++ s ++ l2) ++ ":"%char :: r2 ++ t) ++ af))
    as (eb & Eb & Db); [constructor|auto|reflexivity|].
  change ([] ++ c ++ l1) with (c ++ l1) in Eb. rewrite Eb. cbn [obind].
  destruct (Hpe (s := s) ltac:(lia) (wE Hs) (l := r1) (r := l2) (af := (":"%char :: r2 ++ t) ++ af))
    as (e1 & Ee1 & D1); [auto|auto|reflexivity|].
  rewrite Ee1. cbn [obind].
  destruct (pok0 (Hpe (s := t) ltac:(lia) (wE Ht)) Hr2 Haf) as (e2 & Ee2 & D2).
  rewrite Ee2. cbn [obind]. eexists. split; [reflexivity|].
  intros x y z t0. ev. now rewrite Db, D1, D2.
Qed.

Lemma mod_ok s a op t b af : written LProduct s a -> padded (lit "%") op -> written LPower t b ->
  length (s ++ op ++ t) <= N -> nd af -> gives (parse_operation pe pb (Reader (s ++ op ++ t) af)) (Mod a b).
Proof.
  intros H1 Hop H2 Hlen Haf.
  destruct (wfact_of (w_mod H1 Hop H2)) as (k & F & _). destruct (padded_split Hop) as (l & r & Hl & Hr & ->).
  destruct (wfact_of H1) as (k1 & F1 & _), (wfact_of H2) as (k2 & F2 & _).
  assert (Bk : pbal (s ++ (l ++ ["%"%char] ++ r) ++ t) (k1 ++ (l ++ ["%"%char] ++ r) ++ k2)).
  { apply bal_app; [apply F1|]. apply bal_app; [|apply F2]. apply plain_pbal. rewrite !forallb_app, (spaces_plain Hl), (spaces_plain Hr). reflexivity. }
  unfold parse_operation.
  skip_fwd ltac:(apply (@find_fwd_none _ _ (k1 ++ (l ++ ["%"%char] ++ r) ++ k2)); try discriminate; [exact Bk| |apply F]).
  { intros Hi. apply in_app_iff in Hi as [Hi|Hi]; [revert Hi; now apply (facts_not_in F1)|].
    rewrite <- app_assoc in Hi. apply in_app_iff in Hi as [Hi|Hi]; [revert Hi; apply (spaces_no Hl); discriminate|].
    destruct Hi as [Hi|Hi]; [discriminate|]. apply in_app_iff in Hi as [Hi|Hi]; [revert Hi; apply (spaces_no Hr); discriminate|].
    revert Hi. now apply (facts_not_in F2). }
  unfold parse_op_plus.
  rewrite (@find_bwd_found _ "%" (s ++ l) (r ++ t) (r ++ k2)); try discriminate.
  2:{ apply bal_app; [now apply plain_pbal, spaces_plain|apply F2]. }
  2:{ intros Hc. apply in_app_iff in Hc as [Hc|Hc]; [revert Hc; apply (spaces_no Hr); discriminate|].
      revert Hc. now apply (facts_not_in F2). }
  2:{ simpl. asq. }
  rewrite !app_length in Hlen. pose proof (f_ne F1) as N1. pose proof (f_ne F2) as N2.
  simpl in Hlen. destruct s as [|c s]; [congruence|]. destruct t as [|d t]; [congruence|]. simpl in Hlen.
  destruct (@split_ok _ A numval pe OMod _ a l "%"%char r _ b af (length ((c :: s) ++ l))
       (Hlt Hpe H1 ltac:(simpl; lia)) (Hlt Hpe H2 ltac:(simpl; lia)) Hl Hr eq_refl Haf eq_refl)
       as (e1 & e2 & E & D1 & D2).
  eexists. split; [exact E|]. intros x y z t0. ev. now rewrite D1, D2.
Qed.

Lemma sum_operation s a af : written LSum s a -> length s <= N -> (forall b, ~ written LPrimary s b) -> nd af ->
  gives (parse_operation pe pb (Reader s af)) a.
Proof.
  intros H Hlen Hnp Haf. pose proof (sum_ok laws Hpe Hpb H Hlen Hnp Haf) as G.
  destruct (wfact_of H) as (k & F & _). unfold parse_operation.
  skip_fwd ltac:(apply (@find_fwd_none _ _ k); try discriminate; try apply F; now apply (facts_not_in F)).
  unfold parse_op_plus.
  skip_bwd ltac:(apply (@find_bwd_none _ _ k); try discriminate; try apply F; now apply (facts_not_in F)).
  exact G.
Qed.

Lemma function_scan_name n s : Forall (fun c => mem_char c (lit "*/^+=<~>") = false) n ->
  function_scan (n ++ "("%char :: s) = true.
Proof.
  induction 1 as [|c n Hc Hn IH]; [reflexivity|]. cbn [app function_scan]. rewrite Hc, IH. now destruct (mem_char c (lit "( ")).
Qed.

Lemma call_ok n f s a af : funname n f -> written LExpr s a -> length (n ++ lit "(" ++ s ++ lit ")") <= N -> nd af ->
  gives (parse_function pe (Reader (n ++ lit "(" ++ s ++ lit ")") af)) (Call f a).
Proof.
  intros Hn Hs Hlen Haf. destruct (wfact_of Hs) as (k & F & _).
  set (R := Reader (n ++ lit "(" ++ s ++ lit ")") af). unfold parse_function.
  assert (Hr : rlen R = length n + 2 + length s) by (unfold R, rlen; cbn [win]; rewrite !app_length; simpl; lia).
  assert (Hn3 : 3 <= length n) by (destruct Hn; simpl; lia).
  assert (Hf : is_digit (first_char R) || mem_char (first_char R) (lit "(-") || (rlen R <? 3) = false).
  { replace (rlen R <? 3) with false by (symmetry; apply Nat.ltb_ge; lia). rewrite orb_false_r. destruct Hn; reflexivity. }
  rewrite Hf.
  assert (Hsc : function_scan (win R) = true).
  { apply (@function_scan_name n (s ++ lit ")")). destruct Hn; repeat constructor. }
  rewrite Hsc. cbn [negb].
  assert (Ew : win R = n ++ ch_open :: s ++ [ch_close]) by reflexivity.
  rewrite (@find_fwd_plain R ch_open n (s ++ [ch_close])); [|destruct Hn; repeat constructor; discriminate|exact Ew].
  rewrite (@next_group _ _ paren_neq R n s k af); [|apply F| |lia].
  2:{ rewrite Ew. cbn [R after]. asq. }
  change (0 <? 0) with false. cbv iota. replace (length n + 1 + length s <? rlen R - 1) with false by (symmetry; apply Nat.ltb_ge; lia).
  replace (sub_prefix R (length n)) with (Reader n ((lit "(" ++ s ++ lit ")") ++ af)) by (symmetry; apply sub_prefix_at).
  assert (El : cmath_lookup (Reader n ((lit "(" ++ s ++ lit ")") ++ af)) = Some f) by (destruct Hn; reflexivity).
  rewrite El. unfold R. rewrite sub_from_at. cbn [obind].
  assert (Hlt' : length (lit "(" ++ s ++ lit ")") < N) by (rewrite app_length in Hlen; lia).
  destruct (pok0 (l := []) (Hpe Hlt' (wE (w_paren Hs))) (Forall_nil _) Haf) as (e & E & D).
  change ([] ++ lit "(" ++ s ++ lit ")") with (lit "(" ++ s ++ lit ")") in E. rewrite E. cbn [obind].
  eexists. split; [reflexivity|]. intros x y z t. ev. now rewrite D.
Qed.

Lemma stod_case c a : written LExpr c a -> is_number c = true -> exists v, a_stod A c = Ok v /\ denotes (DConst v) a.
Proof.
  intros H Hn. destruct (number_core H Hn) as [(Hnum & ->)|(t & -> & Hnum & ->)].
  - exists (numval c). split; [now apply (law_num laws)|]. intros x y z t. reflexivity.
  - exists (a_neg A (numval t)). split; [now apply (law_num_neg laws)|]. intros x y z t0. reflexivity.
Qed.

Lemma eq_body_core c a af : wr c a -> bare c -> length c <= N -> nd af ->
  exists e,
    (do k <- parse_constant A (Reader c af);
     match k with
     | Some e => Ok e
     | None =>
       do o <- parse_operation pe pb (Reader c af);
       match o with
       | Some e => Ok e
       | None => do f <- parse_function pe (Reader c af);
                 match f with
                 | Some e => Ok e
                 | None => match find_variable c with Some x => Ok (DRef x) | None => Throw end
                 end
       end
     end) = Ok e /\ denotes e a.
Proof.
  intros H Hb Hlen Haf. destruct H as [H|[-> ->]].
  2:{ exists (DConst (a_e A)). split; [reflexivity|]. intros x y z t. reflexivity. }
  unfold parse_constant. change (win (Reader c af)) with c.
  destruct (is_number c) eqn:Hn.
  { destruct (stod_case H Hn) as (v & Ev & Dv).
    assert (Hq : forall s, is_number s = false -> req (Reader c af) s = false).
    { intros s Hs. unfold req. cbn [win]. destruct (chars_eqb c s) eqn:E; auto. apply chars_eqb_eq in E. congruence. }
    rewrite !Hq by reflexivity. rewrite Ev. cbn [obind]. eauto. }
  assert (Hop : gives (parse_operation pe pb (Reader c af)) a ->
     (exists x, In x c /\ ~ In x (lit "epitau")) -> exists e,
     (do k <- (if req (Reader c af) (lit "e") then Ok (Some (DConst (a_e A)))
        else if req (Reader c af) (lit "pi") then Ok (Some (DConst (a_pi A)))
        else if req (Reader c af) (lit "tau") then Ok (Some (DConst (a_tau A))) else Ok None);
      match k with
     | Some e => Ok e
     | None =>
       do o <- parse_operation pe pb (Reader c af);
       match o with
       | Some e => Ok e
       | None => do f <- parse_function pe (Reader c af);
                 match f with
                 | Some e => Ok e
                 | None => match find_variable c with Some x => Ok (DRef x) | None => Throw end
                 end
       end
     end) = Ok e /\ denotes e a).
  { intros (e & E & D) (x & Hx & Hnx).
    rewrite !(@req_not (Reader c af) _ x) by (try exact Hx; intros Hi; apply Hnx; simpl in *; tauto).
    cbn [obind]. rewrite E. cbn [obind]. eauto. }
  assert (Hpad : forall n op u v, padded [n] op -> In n (u ++ op ++ v)).
  { intros n op u v (l & r & _ & _ & ->). apply in_or_app. right. apply in_or_app. left. apply in_or_app. right. now left. }
  inversion H as [| | | | | | | | | | | | | | | | | | |s1 a1 H1|s1 a1 op t b H1 Hop1 H2|c1 p q s1 a1 k t b Hc Hq H1 Hk H2]; subst.
  - destruct (sum_primary H1 Hn) as [Hp|Hnp].
    + inversion Hp as [s0 H0|s0 v H0| | | |s0 a0 H0|n f s0 a0 Hf H0| | | | | | | | | | | | | | |]; subst.
      * exfalso. destruct (primary_no_minus Hp Hn) as (k & F & _). destruct (numeral_chars H0) as (Hnil & Hh & _).
        pose proof (numeral_loop H0) as E. unfold is_number in Hn. destruct c as [|x c]; [congruence|]. simpl in Hh.
        destruct (ascii_dec x "-") as [->|]; [destruct Hh; discriminate|].
        destruct (ascii_dec x "+") as [->|]; [destruct Hh; discriminate|]. cbn [orb] in Hn. congruence.
      * destruct (primary_no_minus Hp Hn) as (k & F & Hm & Hh).
        exists (DRef v). split; [|intros x y z t; destruct v; reflexivity].
        rewrite (no_op af F Hm Hh).
        assert (Hfun : parse_function pe (Reader c af) = Ok None).
        { unfold parse_function. replace (rlen (Reader c af) <? 3) with true by (destruct H0; reflexivity). now rewrite orb_true_r. }
        rewrite Hfun. destruct H0; reflexivity.
      * exists (DConst (a_pi A)). split; [reflexivity|]. intros x y z t. reflexivity.
      * exists (DConst (a_tau A)). split; [reflexivity|]. intros x y z t. reflexivity.
      * exfalso. revert Hb. apply (@paren_not_bare (lit "e") (lit "e")). now apply plain_pbal.
      * exfalso. destruct (wfact_of H0) as (k & F & _). revert Hb. apply (paren_not_bare (f_bal F)).
      * destruct (primary_no_minus Hp Hn) as (k & F & Hm & Hh).
        destruct (call_ok Hf H0 Hlen Haf) as (e & E & D).
        exists e. split; [|exact D]. rewrite (no_op af F Hm Hh), E.
        rewrite !(@req_not (Reader (n ++ lit "(" ++ s0 ++ lit ")") af) _ "("%char).
        1: reflexivity.
        all: try (apply in_or_app; right; now left). all: simpl; intuition discriminate.
    + apply Hop; [now apply sum_operation|].
      (* a character of a non-primary that is not a letter *)
      assert (G : forall L s a x op u, written L s a -> padded [x] op -> In x (lit "+-*/^") ->
         exists x0, In x0 (s ++ op ++ u) /\ ~ In x0 (lit "epitau")).
      { intros L s a0 x op u _ Hop' Hx. exists x. split; [now apply Hpad|]. simpl in *. intuition congruence. }
      clear Hop.
      inversion H1 as [| | | | | | | | | | | | | | |s1 a1 H2|s1 a1 op t b H2 Hop H3|s1 a1 op t b H2 Hop H3 Ho|s1 a1 op sp t b H2 Hop Hsp H3 Ho| | |]; subst;
        try (eapply G; eauto; simpl; tauto).
      inversion H2 as [| | | | | | | | | | | |s1 a1 H3|s1 a1 op t b H3 Hop H4|s1 a1 op t b H3 Hop H4| | | | | | |]; subst;
        try (eapply G; eauto; simpl; tauto).
      inversion H3 as [| | | | | | | | | |s0 a0 H0|sp s0 a0 Hsp H0| | | | | | | | | |]; subst.
      * inversion H0 as [| | | | | | |s1 a1 H4|s1 a1 op t b H4 Hop H5 Hsm|s1 a1 op sp t b H4 Hop Hsp H5 Hsm| | | | | | | | | | | |]; subst;
          try (eapply G; eauto; simpl; tauto).
        exfalso. now apply (Hnp a).
      * exists "-"%char. split; [now left|]. simpl. intuition discriminate.
  - apply Hop; [now apply mod_ok|]. exists "%"%char. split; [now apply Hpad|]. simpl. intuition discriminate.
  - apply Hop; [now apply if_ok|]. exists "?"%char. split; [now apply Hpad|]. simpl. intuition discriminate.
Qed.

Lemma equation_body s a : length s <= N -> wr s a -> pok A numval (parse_equation_body A pe pb) s a.
Proof.
  intros Hlen H l r af Hl Hr Haf. destruct (format_core H) as (c & Hc & Hwc & Hbare & Hf).
  destruct (Hf l r af Hl Hr Haf) as (af' & Haf' & E). unfold parse_equation_body. rewrite E.
  change (win (Reader c af')) with c.
  destruct (@eq_body_core c a af' Hwc Hbare ltac:(lia) Haf') as (e & Ee & D).
  destruct c as [|x c]; [exfalso; destruct Hbare as (k & _ & Hn & _); congruence|]. eauto.
Qed.

(** ** conditions *)
Lemma log_ok o p q s x t l r af : bok A numval pb s p -> bok A numval pb t q -> spaces l -> spaces r -> is_digit x = false -> nd af ->
  exists e1 e2, parse_log pb o (Reader (s ++ (l ++ [x] ++ r) ++ t) af) (length (s ++ l)) = Ok (BLog o e1 e2) /\
    bdenotes e1 p /\ bdenotes e2 q.
Proof.
  intros Hs Ht Hl Hr Hx Haf. unfold parse_log.
  replace (s ++ (l ++ [x] ++ r) ++ t) with ((s ++ l) ++ [x] ++ r ++ t) by asq.
  rewrite sub_prefix_at.
  destruct (Hs [] l (([x] ++ r ++ t) ++ af)) as (e1 & E1 & D1); [constructor|auto|exact Hx|].
  change ([] ++ s ++ l) with (s ++ l) in E1. rewrite E1. cbn [obind].
  replace (length (s ++ l) + 1) with (length ((s ++ l) ++ [x])) by (rewrite (app_length _ [x]); reflexivity).
  replace ((s ++ l) ++ [x] ++ r ++ t) with (((s ++ l) ++ [x]) ++ r ++ t) by asq.
  rewrite sub_from_at. cbn [obind].
  destruct (Ht r [] af Hr ltac:(constructor) Haf) as (e2 & E2 & D2). rewrite app_nil_r in E2. rewrite E2. exists e1, e2. auto.
Qed.

Lemma cmp_ok o a b s n t l r af : pok A numval pe s a -> pok A numval pe t b -> spaces l -> spaces r -> n <> [] ->
  is_digit (hd nul n) = false -> nd af ->
  exists e1 e2, parse_cmp pe o (Reader (s ++ (l ++ n ++ r) ++ t) af) (length (s ++ l)) (length n) = Ok (BCmp o e1 e2) /\
    denotes e1 a /\ denotes e2 b.
Proof.
  intros Hs Ht Hl Hr Hne Hx Haf. unfold parse_cmp.
  replace (s ++ (l ++ n ++ r) ++ t) with ((s ++ l) ++ n ++ r ++ t) by asq.
  rewrite sub_prefix_at.
  destruct (Hs [] l ((n ++ r ++ t) ++ af)) as (e1 & E1 & D1); [constructor|auto|destruct n; [congruence|exact Hx]|].
  change ([] ++ s ++ l) with (s ++ l) in E1. rewrite E1. cbn [obind].
  rewrite <- (app_length (s ++ l) n).
  replace ((s ++ l) ++ n ++ r ++ t) with (((s ++ l) ++ n) ++ r ++ t) by asq.
  rewrite sub_from_at. cbn [obind].
  destruct (pok0 Ht Hr Haf) as (e2 & E2 & D2). rewrite E2. exists e1, e2. auto.
Qed.

Lemma bool_cmp_ok s a n o op t b af : written LSum s a -> cmpname n o -> padded n op -> written LSum t b ->
  length (s ++ op ++ t) <= N -> nd af ->
  exists e, parse_bool_cmp pe (Reader (s ++ op ++ t) af) = Ok e /\ bdenotes e (Cmp o a b).
Proof.
  intros H1 Hn (l & r & Hl & Hr & ->) H2 Hlen Haf.
  destruct (wfact_of H1) as (k1 & F1 & _), (wfact_of H2) as (k2 & F2 & _).
  rewrite !app_length in Hlen. pose proof (f_ne F1) as N1. pose proof (f_ne F2) as N2.
  assert (0 < length s) by (destruct s; [congruence|simpl; lia]). assert (0 < length t) by (destruct t; [congruence|simpl; lia]).
  assert (0 < length n) by (destruct Hn; simpl; lia).
  assert (G1 : pok A numval pe s a) by (apply Hpe; [lia|now apply (wE H1)]).
  assert (G2 : pok A numval pe t b) by (apply Hpe; [lia|now apply (wE H2)]).
  assert (Bo : pbal (l ++ n ++ r) (l ++ n ++ r)).
  { apply plain_pbal. rewrite !forallb_app, (spaces_plain Hl), (spaces_plain Hr). destruct Hn; reflexivity. }
  assert (Bk : pbal (s ++ (l ++ n ++ r) ++ t) (k1 ++ (l ++ n ++ r) ++ k2)).
  { apply bal_app; [apply F1|]. apply bal_app; [exact Bo|apply F2]. }
  assert (Hno : forall x, allowed (lv LSum) x = false -> ~ In x n -> ~ In x (k1 ++ (l ++ n ++ r) ++ k2)).
  { intros x Hx Hnx Hi. assert (Hsp : x <> " "%char) by (intros ->; discriminate).
    apply in_app_iff in Hi as [Hi|Hi]; [now apply (facts_not_in F1 Hx)|].
    apply in_app_iff in Hi as [Hi|Hi]; [|now apply (facts_not_in F2 Hx)].
    apply in_app_iff in Hi as [Hi|Hi]; [now apply (spaces_no Hl Hsp)|].
    apply in_app_iff in Hi as [Hi|Hi]; [contradiction|now apply (spaces_no Hr Hsp)]. }
  assert (Hrt : forall x, allowed (lv LSum) x = false -> ~ In x (r ++ k2)).
  { intros x Hx Hi. assert (Hsp : x <> " "%char) by (intros ->; discriminate).
    apply in_app_iff in Hi as [Hi|Hi]; [now apply (spaces_no Hr Hsp)|now apply (facts_not_in F2 Hx)]. }
  assert (Brt : pbal (r ++ t) (r ++ k2)) by (apply bal_app; [now apply plain_pbal, spaces_plain|apply F2]).
  assert (Hne : s ++ (l ++ n ++ r) ++ t <> []) by (destruct s; [congruence|discriminate]).
  assert (Hnext : forall v, exists c v', r ++ t ++ v = c :: v' /\ c <> "="%char).
  { intros v. destruct r as [|c r'].
    - destruct t as [|c t']; [congruence|]. exists c, (t' ++ v). split; [reflexivity|].
      intros ->. pose proof (f_first F2) as Hf. discriminate.
    - exists c, (r' ++ t ++ v). split; [reflexivity|]. apply Forall_inv in Hr. subst c. discriminate. }
  set (R := Reader (s ++ (l ++ n ++ r) ++ t) af).
  assert (Single : forall x, n = [x] -> rd R (length (s ++ l) + 1) <> "="%char).
  { intros x ->. destruct (Hnext af) as (c & v' & Ec & Hc).
    replace (length (s ++ l) + 1) with (length ((s ++ l) ++ [x])) by (rewrite (app_length _ [x]); reflexivity).
    rewrite (@rd_at R _ c v'); auto. unfold R. cbn [win after]. rewrite <- Ec. asq. }
  assert (Double : forall x, n = [x; "="%char] -> rd R (length (s ++ l) + 1) = "="%char).
  { intros x ->.
    replace (length (s ++ l) + 1) with (length ((s ++ l) ++ [x])) by (rewrite (app_length _ [x]); reflexivity).
    rewrite (@rd_at R _ "="%char (r ++ t ++ af)); auto. unfold R. cbn [win after]. asq. }
  unfold parse_bool_cmp. destruct Hn.
  - rewrite (@find_bwd_found R ">" (s ++ l) (r ++ t) (r ++ k2)); try discriminate; [| |now apply Hrt|].
    + destruct (ascii_dec (rd R (length (s ++ l) + 1)) "=") as [E|_]; [exfalso; now apply (Single ">"%char)|].
      destruct (@cmp_ok CGt a b s (lit ">") t l r af G1 G2 Hl Hr ltac:(discriminate) eq_refl Haf) as (e1 & e2 & E & D1 & D2).
      eexists. split; [exact E|]. intros x y z t0. ev. now rewrite D1, D2.
    + exact Brt.
    + unfold R. cbn [win]. asq.
  - rewrite (@find_bwd_found R ">" (s ++ l) ("="%char :: r ++ t) ("="%char :: r ++ k2)); try discriminate.
    + destruct (ascii_dec (rd R (length (s ++ l) + 1)) "=") as [_|E]; [|exfalso; now apply E, (Double ">"%char)].
      destruct (@cmp_ok CGe a b s (lit ">=") t l r af G1 G2 Hl Hr ltac:(discriminate) eq_refl Haf) as (e1 & e2 & E & D1 & D2).
      eexists. split; [exact E|]. intros x y z t0. ev. now rewrite D1, D2.
    + apply (@bal_app ch_open ch_close ["="%char] ["="%char]); [apply bal_one; discriminate|exact Brt].
    + intros [Hi|Hi]; [discriminate|]. revert Hi. now apply Hrt.
    + unfold R. cbn [win]. asq.
  - skip_bwd ltac:(eapply find_bwd_none; [discriminate|discriminate|exact Bk|apply Hno; [reflexivity|simpl; intuition discriminate]|exact Hne]).
    rewrite (@find_bwd_found R "<" (s ++ l) (r ++ t) (r ++ k2)); try discriminate; [| |now apply Hrt|].
    + destruct (ascii_dec (rd R (length (s ++ l) + 1)) "=") as [E|_]; [exfalso; now apply (Single "<"%char)|].
      destruct (@cmp_ok CLt a b s (lit "<") t l r af G1 G2 Hl Hr ltac:(discriminate) eq_refl Haf) as (e1 & e2 & E & D1 & D2).
      eexists. split; [exact E|]. intros x y z t0. ev. now rewrite D1, D2.
    + exact Brt.
    + unfold R. cbn [win]. asq.
  - skip_bwd ltac:(eapply find_bwd_none; [discriminate|discriminate|exact Bk|apply Hno; [reflexivity|simpl; intuition discriminate]|exact Hne]).
    rewrite (@find_bwd_found R "<" (s ++ l) ("="%char :: r ++ t) ("="%char :: r ++ k2)); try discriminate.
    + destruct (ascii_dec (rd R (length (s ++ l) + 1)) "=") as [_|E]; [|exfalso; now apply E, (Double "<"%char)].
      destruct (@cmp_ok CLe a b s (lit "<=") t l r af G1 G2 Hl Hr ltac:(discriminate) eq_refl Haf) as (e1 & e2 & E & D1 & D2).
      eexists. split; [exact E|]. intros x y z t0. ev. now rewrite D1, D2.
    + apply (@bal_app ch_open ch_close ["="%char] ["="%char]); [apply bal_one; discriminate|exact Brt].
    + intros [Hi|Hi]; [discriminate|]. revert Hi. now apply Hrt.
    + unfold R. cbn [win]. asq.
  - skip_bwd ltac:(eapply find_bwd_none; [discriminate|discriminate|exact Bk|apply Hno; [reflexivity|simpl; intuition discriminate]|exact Hne]).
    skip_bwd ltac:(eapply find_bwd_none; [discriminate|discriminate|exact Bk|apply Hno; [reflexivity|simpl; intuition discriminate]|exact Hne]).
    unfold parse_bool_eq.
    rewrite (@find_bwd_found R "=" ((s ++ l) ++ ["="%char]) (r ++ t) (r ++ k2)); try discriminate; [| |now apply Hrt|].
    + rewrite (app_length (s ++ l)). cbn [List.length].
      replace (0 <? length (s ++ l) + 1) with true by (symmetry; apply Nat.ltb_lt; lia).
      replace (length (s ++ l) + 1 - 1) with (length (s ++ l)) by lia.
      rewrite (@rd_at R (s ++ l) "="%char ("="%char :: r ++ t ++ af)); [|unfold R; cbn [win after]; asq].
      destruct (ascii_dec "=" "=") as [_|]; [|congruence].
      destruct (@cmp_ok CEq a b s (lit "==") t l r af G1 G2 Hl Hr ltac:(discriminate) eq_refl Haf) as (e1 & e2 & E & D1 & D2).
      unfold parse_cmp in E. change (length (lit "==")) with 2 in E.
      replace (length (s ++ l) + 1 + 1) with (length (s ++ l) + 2) by lia.
      change (Reader (s ++ (l ++ lit "==" ++ r) ++ t) af) with R in E.
      destruct (pe (sub_prefix R (length (s ++ l)))) as [x1| | |]; try discriminate. cbn [obind] in E.
      destruct (sub_from R (length (s ++ l) + 2)) as [r2| | |]; try discriminate. cbn [obind] in *.
      destruct (pe r2) as [x2| | |]; try discriminate. cbn [obind] in *. injection E as -> ->.
      eexists. split; [reflexivity|]. intros x y z t0. ev. rewrite D1, D2. apply (law_eq_sym laws).
    + exact Brt.
    + unfold R. cbn [win]. asq.
Qed.

Definition bool_tail (r : reader) : outcome (bnode T) :=
  if req r (lit "true") then Ok (BConst true)
  else if req r (lit "false") then Ok (BConst false)
  else match win r with
  | [] => UB
  | _ =>
      let (p, found) := find_bwd r "|" in
      if found then parse_log pb LOr r p else
      let (p, found) := find_bwd r "^" in
      if found then parse_log pb LXor r p else
      let (p, found) := find_bwd r "&" in
      if found then parse_log pb LAnd r p else
      let (p, found) := find_bwd r "!" in
      if found then do r1 <- sub_shift r; do b <- pb r1; Ok (BNot b) else
      parse_bool_cmp pe r
  end.
Lemma bool_body_tail r : parse_boolean_body pe pb r = bool_tail (apply_formatting r).
Proof. reflexivity. Qed.

Lemma bE L s b : bwritten L s b -> bwritten LDisj s b.
Proof.
  intros H. destruct L; [apply bw_xorb, bw_conj, bw_cond|apply bw_xorb, bw_conj|apply bw_xorb|]; exact H.
Qed.

Lemma bool_core c b af : bwritten LDisj c b -> bare c -> length c <= N -> nd af ->
  exists e, bool_tail (Reader c af) = Ok e /\ bdenotes e b.
Proof.
  intros H Hb Hlen Haf.
  assert (Hreq : forall x, In x c -> ~ In x (lit "truefalse") -> c <> [] -> bool_tail (Reader c af) =
      let r := Reader c af in
      let (p, found) := find_bwd r "|" in
      if found then parse_log pb LOr r p else
      let (p, found) := find_bwd r "^" in
      if found then parse_log pb LXor r p else
      let (p, found) := find_bwd r "&" in
      if found then parse_log pb LAnd r p else
      let (p, found) := find_bwd r "!" in
      if found then do r1 <- sub_shift r; do b <- pb r1; Ok (BNot b) else
      parse_bool_cmp pe r).
  { intros x Hx Hnx Hne. unfold bool_tail.
    rewrite !(@req_not (Reader c af) _ x) by (try exact Hx; intros Hi; apply Hnx; simpl in *; tauto).
    cbn [win]. destruct c; [congruence|reflexivity]. }
  assert (Hpad : forall n op u v, padded [n] op -> In n (u ++ op ++ v)).
  { intros n op u v (l & r & _ & _ & ->). apply in_or_app. right. apply in_or_app. left. apply in_or_app. right. now left. }
  assert (Split : forall L L' s p x t q l r o, c = s ++ (l ++ [x] ++ r) ++ t -> spaces l -> spaces r ->
     bwritten L s p -> bwritten L' t q -> allowed (blv L') x = false -> is_digit x = false -> x <> ch_open -> x <> ch_close -> x <> " "%char ->
     find_bwd (Reader c af) x = (length (s ++ l), true) /\
     exists e1 e2, parse_log pb o (Reader c af) (length (s ++ l)) = Ok (BLog o e1 e2) /\ bdenotes e1 p /\ bdenotes e2 q).
  { intros L L' s p x t q l r o -> Hl Hr Hs Ht Hx Hd X1 X2 X3.
    destruct (bfact_of Hs) as (k1 & F1), (bfact_of Ht) as (k2 & F2). split.
    - apply (@find_bwd_found _ x (s ++ l) (r ++ t) (r ++ k2)); auto.
      + apply bal_app; [now apply plain_pbal, spaces_plain|apply F2].
      + intros Hc. apply in_app_iff in Hc as [Hc|Hc]; [revert Hc; now apply (spaces_no Hr)|]. now apply (facts_not_in F2 Hx).
      + cbn [win]. asq.
    - rewrite !app_length in Hlen. pose proof (f_ne F1) as N1. pose proof (f_ne F2) as N2. simpl in Hlen.
      assert (0 < length s) by (destruct s; [congruence|simpl; lia]). assert (0 < length t) by (destruct t; [congruence|simpl; lia]).
      apply log_ok; auto; apply Hpb; try lia; eapply bE; eauto. }
  assert (Skip : forall L x, bwritten L c b -> allowed (blv L) x = false -> x <> ch_open -> x <> ch_close -> snd (find_bwd (Reader c af) x) = false).
  { intros L x Hw Hx X1 X2. destruct (bfact_of Hw) as (k & F). apply (@find_bwd_none _ _ k); auto; try apply F. now apply (facts_not_in F Hx). }
  assert (Hne : c <> []) by (destruct Hb as (k & _ & Hn & _); exact Hn).
  inversion H as [| | | | | | | |s1 p1 H1|s1 p op t q H1 Hop H2]; subst.
  2:{ destruct (padded_split Hop) as (l & r & Hl & Hr & Eop). subst op.
      rewrite (Hreq "|"%char); [|now apply Hpad|simpl; intuition discriminate|exact Hne]. cbv zeta.
      destruct (Split _ _ _ _ "|"%char _ _ _ _ LOr eq_refl Hl Hr H1 H2) as (E1 & e1 & e2 & E & D1 & D2); try reflexivity; try discriminate.
      rewrite E1, E. eexists. split; [reflexivity|]. intros x y z t0. ev. now rewrite D1, D2. }
  inversion H1 as [| | | | | |s1 p1 H2|s1 p op t q H2 Hop H3| |]; subst.
  2:{ destruct (padded_split Hop) as (l & r & Hl & Hr & Eop). subst op.
      rewrite (Hreq "^"%char); [|now apply Hpad|simpl; intuition discriminate|exact Hne]. cbv zeta.
      skip_bwd ltac:(apply (Skip LXorB); try exact H1; try reflexivity; discriminate).
      destruct (Split _ _ _ _ "^"%char _ _ _ _ LXor eq_refl Hl Hr H2 H3) as (E1 & e1 & e2 & E & D1 & D2); try reflexivity; try discriminate.
      rewrite E1, E. eexists. split; [reflexivity|]. intros x y z t0. ev. now rewrite D1, D2. }
  inversion H2 as [| | | |s1 p1 H3|s1 p op t q H3 Hop H4| | | |]; subst.
  2:{ destruct (padded_split Hop) as (l & r & Hl & Hr & Eop). subst op.
      rewrite (Hreq "&"%char); [|now apply Hpad|simpl; intuition discriminate|exact Hne]. cbv zeta.
      skip_bwd ltac:(apply (Skip LConj); try exact H2; try reflexivity; discriminate).
      skip_bwd ltac:(apply (Skip LConj); try exact H2; try reflexivity; discriminate).
      destruct (Split _ _ _ _ "&"%char _ _ _ _ LAnd eq_refl Hl Hr H3 H4) as (E1 & e1 & e2 & E & D1 & D2); try reflexivity; try discriminate.
      rewrite E1, E. eexists. split; [reflexivity|]. intros x y z t0. ev. now rewrite D1, D2. }
  inversion H3 as [| |s1 p1 H4|s1 a1 n o op t b1 H4 Hn Hop H5 Ho1 Ho2| | | | | |]; subst.
  - exists (BConst true). split; [reflexivity|]. intros x y z t. reflexivity.
  - exists (BConst false). split; [reflexivity|]. intros x y z t. reflexivity.
  - exfalso. destruct (bfact_of H4) as (k & F). revert Hb. apply (paren_not_bare (f_bal F)).
  - assert (Hx : exists x, In x (s1 ++ op ++ t) /\ ~ In x (lit "truefalse")).
    { destruct Hop as (l & r & _ & _ & ->). exists (hd nul n). split; [|destruct Hn; simpl; intuition discriminate].
      apply in_or_app. right. apply in_or_app. left. apply in_or_app. right. apply in_or_app. left. destruct Hn; now left. }
    destruct Hx as (x & Hx & Hnx). rewrite (Hreq x Hx Hnx Hne). cbv zeta.
    skip_bwd ltac:(apply (Skip LCond0); try exact H3; try reflexivity; discriminate).
    skip_bwd ltac:(apply (Skip LCond0); try exact H3; try reflexivity; discriminate).
    skip_bwd ltac:(apply (Skip LCond0); try exact H3; try reflexivity; discriminate).
    skip_bwd ltac:(apply (Skip LCond0); try exact H3; try reflexivity; discriminate).
    now apply (@bool_cmp_ok s1 a1 n o op t b1 af).
Qed.

Lemma boolean_body s b : length s <= N -> bwritten LDisj s b -> bok A numval (parse_boolean_body pe pb) s b.
Proof.
  intros Hlen H l r af Hl Hr Haf. destruct (bformat_core H) as (c & Hc & Hwc & Hbare & Hf).
  destruct (Hf l r af Hl Hr Haf) as (af' & Haf' & E). rewrite bool_body_tail, E. apply bool_core; auto. lia.
Qed.
End Bodies.

Section Top.
Context {T : Type} (A : arith T) (numval : chars -> T).
Hypothesis laws : arith_laws A numval.

Lemma parse_ok fuel :
  (forall s a, length s < fuel -> wr s a -> pok A numval (fst (parse A fuel)) s a) /\
  (forall s b, length s < fuel -> bwritten LDisj s b -> bok A numval (snd (parse A fuel)) s b).
Proof.
  induction fuel as [|fuel [IH1 IH2]]; [split; intros; lia|].
  cbn [parse]. destruct (parse A fuel) as [pe pb]. cbn [fst snd] in *. split; intros.
  - apply (equation_body laws IH1 IH2); auto. lia.
  - apply (boolean_body laws IH1 IH2); auto. lia.
Qed.

Lemma parse_string_ok txt l s r a : spaces l -> spaces r -> written LExpr s a -> lowercase txt = l ++ s ++ r ->
  exists e, parse_string A txt = Ok e /\ denotes A numval e a.
Proof.
  intros Hl Hr H E. unfold parse_string. rewrite E.
  destruct (parse_ok ((2 + length (l ++ s ++ r)) * (2 + length (l ++ s ++ r)))) as [G _].
  apply (G s a); auto.
  - rewrite !app_length. nia.
  - now left.
  - reflexivity.
Qed.
End Top.
