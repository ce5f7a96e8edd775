(** Expression language: facts about every written form, by induction over the grammar. *)
From Verif Require Import Base ListLemmas Strings ExprModel ExprSpec ExprProofs ExprProofs2.
Set Implicit Arguments.
Local Open Scope list_scope.
Local Open Scope nat_scope.
Notation length := List.length.
Notation pbal := (bal ch_open ch_close).
Notation qbal := (bal ch_q ch_col).

Scheme written_mut := Minimality for written Sort Prop
  with bwritten_mut := Minimality for bwritten Sort Prop.
Combined Scheme written_mutind from written_mut, bwritten_mut.

(** every minus outside parentheses is the sign of a factor or of an exponent *)
Definition nok (k : chars) : Prop := forall ku kv, k = ku ++ "-"%char :: kv ->
  exists u w, ku = u ++ w /\ Forall (fun c => In c (lit "- ")) w /\
    (u = [] \/ exists u' c, u = u' ++ [c] /\ In c (lit "*/^e")).

Lemma nok_none k : ~ In "-"%char k -> nok k.
Proof. intros H ku kv E. exfalso. apply H. rewrite E. apply in_or_app. right. now left. Qed.

Lemma app_cons_split {X} (a b : list X) x u v : a ++ b = u ++ x :: v ->
  (exists v', a = u ++ x :: v' /\ v = v' ++ b) \/ (exists u', u = a ++ u' /\ b = u' ++ x :: v).
Proof.
  revert u. induction a as [|y a IH]; intros u E; simpl in E.
  - right. now exists u.
  - destruct u as [|z u]; simpl in E.
    + injection E as -> <-. left. now exists a.
    + injection E as -> E. destruct (IH _ E) as [(v' & -> & ->)|(u' & -> & ->)].
      * left. now exists v'.
      * right. now exists u'.
Qed.

Lemma spaces_no x sp : spaces sp -> x <> " "%char -> ~ In x sp.
Proof. intros H Hx Hi. apply Hx. now apply (proj1 (Forall_forall _ _) H). Qed.

Lemma spaces_ms sp : spaces sp -> Forall (fun c => In c (lit "- ")) sp.
Proof. intros H. eapply Forall_impl; [|exact H]. intros c ->. simpl. auto. Qed.

Lemma nok_app k1 n op k2 : nok k1 -> padded [n] op -> In n (lit "*/^") -> nok k2 -> nok (k1 ++ op ++ k2).
Proof.
  intros H1 (l & r & Hl & Hr & ->) Hn H2 ku kv E.
  destruct (@app_cons_split _ _ _ _ _ _ E) as [(v' & -> & ->)|(u' & -> & E')].
  - now apply (H1 ku v').
  - rewrite <- !app_assoc in E'. destruct (@app_cons_split _ _ _ _ _ _ E') as [(v' & El & _)|(u2 & -> & E2)].
    { exfalso. apply (@spaces_no "-" l Hl); [discriminate|]. rewrite El. apply in_or_app. right. now left. }
    simpl in E2. destruct u2 as [|z u2]; simpl in E2.
    { injection E2 as -> _. exfalso. destruct Hn as [|[|[|[]]]]; discriminate. }
    injection E2 as <- E2.
    destruct (@app_cons_split _ _ _ _ _ _ E2) as [(v' & Er & _)|(u3 & -> & E3)].
    { exfalso. apply (@spaces_no "-" r Hr); [discriminate|]. rewrite Er. apply in_or_app. right. now left. }
    destruct (H2 _ _ E3) as (u & w & -> & Hw & [->|(u' & c & -> & Hc)]).
    + exists (k1 ++ l ++ [n]), (r ++ w). split; [simpl; rewrite <- !app_assoc; reflexivity|]. split.
      * apply Forall_app. split; auto. now apply spaces_ms.
      * right. exists (k1 ++ l), n. split; [now rewrite <- app_assoc|]. destruct Hn as [|[|[|[]]]]; subst; simpl; auto.
    + exists (k1 ++ l ++ n :: r ++ u' ++ [c]), w. split; [rewrite <- !app_assoc; simpl; rewrite <- !app_assoc; reflexivity|].
      split; auto. right. exists (k1 ++ l ++ n :: r ++ u'), c. split; auto.
      rewrite <- !app_assoc. simpl. rewrite <- !app_assoc. reflexivity.
Qed.

Lemma nok_neg sp k : spaces sp -> nok k -> nok ("-"%char :: sp ++ k).
Proof.
  intros Hs H ku kv E. destruct ku as [|z ku]; simpl in E.
  - exists [], []. repeat split; auto.
  - injection E as <- E. destruct (@app_cons_split _ _ _ _ _ _ E) as [(v' & El & _)|(u2 & -> & E2)].
    { exfalso. apply (@spaces_no "-" sp Hs); [discriminate|]. rewrite El. apply in_or_app. right. now left. }
    destruct (H _ _ E2) as (u & w & -> & Hw & [->|(u' & c & -> & Hc)]).
    + exists [], ("-"%char :: sp ++ w). repeat split; auto. constructor; [simpl; auto|].
      apply Forall_app. split; auto. now apply spaces_ms.
    + exists ("-"%char :: sp ++ u' ++ [c]), w. repeat split; auto.
      * simpl. now rewrite <- !app_assoc.
      * right. exists ("-"%char :: sp ++ u'), c. split; auto. simpl. now rewrite <- !app_assoc.
Qed.

Lemma no_minus_digits d : Forall (fun c => is_digit c = true) d -> ~ In "-"%char d.
Proof. intros H Hi. pose proof (proj1 (Forall_forall _ _) H _ Hi). discriminate. Qed.
Lemma no_minus_mantissa m : mantissa m -> ~ In "-"%char m.
Proof.
  intros H. destruct H as [d [_ Hd]|d [_ Hd]|d f [_ Hd] [_ Hf]|f [_ Hf]]; intros Hi.
  - now apply (no_minus_digits Hd).
  - apply in_app_iff in Hi as [Hi|[Hi|[]]]; [now apply (no_minus_digits Hd)|discriminate].
  - apply in_app_iff in Hi as [Hi|[Hi|Hi]]; [now apply (no_minus_digits Hd)|discriminate|now apply (no_minus_digits Hf)].
  - destruct Hi as [Hi|Hi]; [discriminate|now apply (no_minus_digits Hf)].
Qed.

Lemma nok_numeral s : numeral s -> nok s.
Proof.
  intros H. destruct H as [m Hm|m d Hm [_ Hd]|m d Hm [_ Hd]].
  - now apply nok_none, no_minus_mantissa.
  - apply nok_none. intros Hi. apply in_app_iff in Hi as [Hi|[Hi|Hi]];
      [now apply (no_minus_mantissa Hm)|discriminate|now apply (no_minus_digits Hd)].
  - intros ku kv E. destruct (@app_cons_split _ _ _ _ _ _ E) as [(v' & -> & _)|(u2 & -> & E2)].
    { exfalso. apply (no_minus_mantissa Hm). apply in_or_app. right. now left. }
    simpl in E2. destruct u2 as [|z u2]; [discriminate|]. simpl in E2. injection E2 as <- E2.
    destruct u2 as [|z u2]; simpl in E2.
    + exists (m ++ ["e"%char]), []. rewrite app_nil_r. repeat split; auto. right. exists m, "e"%char. split; [reflexivity|simpl; tauto].
    + injection E2 as _ ->. exfalso. apply (no_minus_digits Hd). apply in_or_app. right. now left.
Qed.

(** characters besides letters, digits, '.', '-' and ')' per level *)
Definition lv (L : level) : chars :=
  match L with
  | LPrimary => [] | LPower => lit " ^" | LFactor => lit " ^" | LProduct => lit " ^*/" | LSum => lit " ^*/+"
  | LExpr => lit " ^*/+%?:|&<>="
  end.
Definition blv (L : blevel) : chars :=
  match L with
  | LCond0 => lit " */+<>=" | LConj => lit " */+<>=&" | LXorB => lit " */+<>=&^" | LDisj => lit " */+<>=&^|"
  end.
Definition low (L : level) : bool := match L with LSum | LExpr => false | _ => true end.

Definition wfact (L : level) (s : chars) (a : aexp) : Prop :=
  exists k, facts (lv L) s k /\ last_ok (last s nul) = true /\ (low L = true -> nok k).
Definition bfact (L : blevel) (s : chars) (b : bexp) : Prop := exists k, facts (blv L) s k.

Ltac inclc := let x := fresh in let H := fresh in intros x H; simpl in *; tauto.

Lemma facts_plain l s : forallb plainc s = true -> Forall (fun c => allowed l c = true) s -> s <> [] ->
  first_ok (hd nul s) = true -> last s nul <> " "%char -> facts l s s.
Proof. intros. constructor; auto; [now apply plain_pbal|]. exists s. now apply plain_qbal. Qed.

Lemma facts_group l s k : (exists l', facts l' s k) -> facts l (lit "(" ++ s ++ lit ")") (lit ")").
Proof.
  intros (l' & F). constructor.
  - apply (bal_paren (f_bal F)).
  - destruct (f_q F) as (k2 & Q). exists (lit "(" ++ k2 ++ lit ")"). apply bal_app; [apply bal_one; discriminate|].
    apply bal_app; auto. apply bal_one; discriminate.
  - repeat constructor.
  - discriminate.
  - reflexivity.
  - rewrite app_assoc, last_app_ne; discriminate.
Qed.

Lemma allowed_of l c : In c l -> allowed l c = true.
Proof. intros H. unfold allowed. apply orb_true_iff. right. apply mem_char_iff, in_or_app. auto. Qed.

Lemma numeral_facts s : numeral s -> facts [] s s /\ last_ok (last s nul) = true /\ nok s.
Proof.
  intros H. destruct (numeral_chars H) as (H1 & H2 & H3 & H4).
  assert (Hd : forall c, is_digit c = true -> forall l, forallb (fun x => negb (is_digit x)) l = true -> mem_char c l = false).
  { intros c Hc l Hl. apply mem_char_false. intros Hi. rewrite forallb_forall in Hl. specialize (Hl _ Hi).
    rewrite Hc in Hl. discriminate. }
  split; [|split; [|now apply nok_numeral]].
  - apply facts_plain; auto.
    + apply forallb_forall. intros c Hi. destruct (proj1 (Forall_forall _ _) H4 _ Hi) as [Hc|Hc].
      * unfold plainc. rewrite Hd; auto.
      * destruct Hc as [<-|[<-|[<-|[]]]]; reflexivity.
    + eapply Forall_impl; [|exact H4]. intros c [Hc|Hc].
      * unfold allowed. now rewrite Hc.
      * destruct Hc as [<-|[<-|[<-|[]]]]; reflexivity.
    + unfold first_ok. destruct H2 as [Hc| ->]; [rewrite Hd; auto|reflexivity].
    + destruct H3 as [Hc| ->]; [intros E; rewrite E in Hc; discriminate|discriminate].
  - unfold last_ok. destruct H3 as [Hc| ->]; [rewrite Hd; auto|reflexivity].
Qed.

Lemma wfact_mono L L' s a : incl (lv L) (lv L') -> (low L' = true -> low L = true) -> wfact L s a -> wfact L' s a.
Proof. intros Hi Hl (k & F & H1 & H2). exists k. split; [eapply facts_mono; eauto|]. auto. Qed.

Lemma bfact_mono L L' s b : incl (blv L) (blv L') -> bfact L s b -> bfact L' s b.
Proof. intros Hi (k & F). exists k. eapply facts_mono; eauto. Qed.

Lemma facts_lift l l' s k : facts l s k -> (forall c, In c k -> allowed l' c = true) -> facts l' s k.
Proof. intros [H1 H2 H3 H4 H5 H6] H. constructor; auto. apply Forall_forall. auto. Qed.

Lemma opok1 l n op : In " "%char l -> padded n op -> forallb plainc n = true ->
  Forall (fun c => allowed l c = true) n -> opok l op.
Proof. intros. eapply opok_padded; eauto. now split. Qed.

Lemma written_facts :
  (forall L s a, written L s a -> wfact L s a) /\ (forall L s b, bwritten L s b -> bfact L s b).
Proof.
  apply written_mutind.
  - (* numeral *) intros s H. destruct (numeral_facts H) as (F & H1 & H2). now exists s.
  - (* var *) intros s v H. exists s. split; [|split; [destruct H; reflexivity|]].
    + destruct H; apply facts_plain; try reflexivity; try discriminate; repeat constructor.
    + intros _. apply nok_none. destruct H; intros [E|[]]; discriminate.
  - exists (lit "pi"). split; [|split; [reflexivity|]].
    + apply facts_plain; try reflexivity; try discriminate; repeat constructor.
    + intros _. apply nok_none. intros [E|[E|[]]]; discriminate.
  - exists (lit "tau"). split; [|split; [reflexivity|]].
    + apply facts_plain; try reflexivity; try discriminate; repeat constructor.
    + intros _. apply nok_none. intros [E|[E|[E|[]]]]; discriminate.
  - (* (e) *) exists (lit ")"). split; [|split; [reflexivity|]].
    + apply (@facts_group [] (lit "e") (lit "e")). exists []. apply facts_plain; try reflexivity; try discriminate; repeat constructor.
    + intros _. apply nok_none. intros [E|[]]; discriminate.
  - (* paren *) intros s a _ (k & F & H1 & H2). exists (lit ")"). split; [|split].
    + apply facts_group with k. eauto.
    + rewrite app_assoc, last_app_ne; [reflexivity|discriminate].
    + intros _. apply nok_none. intros [E|[]]; discriminate.
  - (* call *) intros n f s a Hn _ (k & F & H1 & H2). exists (n ++ lit ")"). split; [|split].
    + apply facts_pre.
      * destruct Hn; split; try reflexivity; repeat constructor.
      * destruct Hn; discriminate.
      * destruct Hn; reflexivity.
      * apply facts_group with k. eauto.
    + rewrite app_assoc, app_assoc, last_app_ne; [reflexivity|discriminate].
    + intros _. apply nok_none. destruct Hn; simpl; intuition discriminate.
  - intros s a _ H. revert H. apply wfact_mono; [inclc|auto].
  - (* pow *) intros s a op t b _ (k & F & H1 & H2) Hop _ (k' & F' & H1' & H2') _.
    exists (k ++ op ++ k'). split; [|split].
    + apply facts_app; auto; [eapply facts_mono; [|exact F]; inclc|]. eapply opok1; eauto; [simpl; auto|repeat constructor].
    + rewrite app_assoc, last_app_ne; [auto|apply F'].
    + intros _. apply nok_app with "^"%char; [now apply H2|exact Hop|simpl; auto|now apply H2'].
  - (* pow neg *) intros s a op sp t b _ (k & F & H1 & H2) Hop Hsp _ (k' & F' & H1' & H2') _.
    exists (k ++ op ++ lit "-" ++ sp ++ k'). split; [|split].
    + apply facts_app; [eapply facts_mono; [|exact F]; inclc| |].
      * eapply opok1; eauto; [simpl; auto|repeat constructor].
      * rewrite !app_assoc. apply facts_pre; try reflexivity; try discriminate.
        -- apply opok_app; [split; [reflexivity|repeat constructor]|apply opok_spaces; simpl; auto].
        -- eapply facts_mono; [|exact F']; inclc.
    + rewrite !app_assoc, last_app_ne; [auto|apply F'].
    + intros _. apply nok_app with "^"%char; [now apply H2|exact Hop|simpl; auto|].
      apply (@nok_neg sp k'); [auto|now apply H2'].
  - intros s a _ H. revert H. apply wfact_mono; [inclc|auto].
  - (* neg *) intros sp s a Hsp _ (k' & F' & H1' & H2').
    exists (lit "-" ++ sp ++ k'). split; [|split].
    + rewrite !app_assoc. apply facts_pre; try reflexivity; try discriminate.
      * apply opok_app; [split; [reflexivity|repeat constructor]|apply opok_spaces; simpl; auto].
      * eapply facts_mono; [|exact F']; inclc.
    + rewrite !app_assoc, last_app_ne; [auto|apply F'].
    + intros _. apply (@nok_neg sp k'); [auto|now apply H2'].
  - intros s a _ H. revert H. apply wfact_mono; [inclc|auto].
  - (* mul *) intros s a op t b _ (k & F & H1 & H2) Hop _ (k' & F' & H1' & H2').
    exists (k ++ op ++ k'). split; [|split].
    + apply facts_app; auto; [|eapply facts_mono; [|exact F']; inclc]. eapply opok1; eauto; [simpl; auto|repeat constructor].
    + rewrite app_assoc, last_app_ne; [auto|apply F'].
    + intros _. apply nok_app with "*"%char; [now apply H2|exact Hop|simpl; auto|now apply H2'].
  - (* div *) intros s a op t b _ (k & F & H1 & H2) Hop _ (k' & F' & H1' & H2').
    exists (k ++ op ++ k'). split; [|split].
    + apply facts_app; auto; [|eapply facts_mono; [|exact F']; inclc]. eapply opok1; eauto; [simpl; auto|repeat constructor].
    + rewrite app_assoc, last_app_ne; [auto|apply F'].
    + intros _. apply nok_app with "/"%char; [now apply H2|exact Hop|simpl; auto|now apply H2'].
  - intros s a _ H. revert H. apply wfact_mono; [inclc|discriminate].
  - (* add *) intros s a op t b _ (k & F & H1 & H2) Hop _ (k' & F' & H1' & H2').
    exists (k ++ op ++ k'). split; [|split; [|discriminate]].
    + apply facts_app; auto; [|eapply facts_mono; [|exact F']; inclc]. eapply opok1; eauto; [simpl; auto|repeat constructor].
    + rewrite app_assoc, last_app_ne; [auto|apply F'].
  - (* sub *) intros s a op t b _ (k & F & H1 & H2) Hop _ (k' & F' & H1' & H2') _.
    exists (k ++ op ++ k'). split; [|split; [|discriminate]].
    + apply facts_app; auto; [|eapply facts_mono; [|exact F']; inclc]. eapply opok1; eauto; [simpl; auto|repeat constructor].
    + rewrite app_assoc, last_app_ne; [auto|apply F'].
  - (* sub neg *) intros s a op sp t b _ (k & F & H1 & H2) Hop Hsp _ (k' & F' & H1' & H2') _.
    exists (k ++ op ++ lit "-" ++ sp ++ k'). split; [|split; [|discriminate]].
    + apply facts_app; auto; [eapply opok1; eauto; [simpl; auto|repeat constructor]|].
      rewrite !app_assoc. apply facts_pre; try reflexivity; try discriminate.
      * apply opok_app; [split; [reflexivity|repeat constructor]|apply opok_spaces; simpl; auto].
      * eapply facts_mono; [|exact F']; inclc.
    + rewrite !app_assoc, last_app_ne; [auto|apply F'].
  - intros s a _ H. revert H. apply wfact_mono; [inclc|auto].
  - (* mod *) intros s a op t b _ (k & F & H1 & H2) Hop _ (k' & F' & H1' & H2').
    exists (k ++ op ++ k'). split; [|split; [|discriminate]].
    + apply facts_app; auto; [eapply facts_mono; [|exact F]; inclc| |eapply facts_mono; [|exact F']; inclc].
      eapply opok1; eauto; [simpl; auto|repeat constructor].
    + rewrite app_assoc, last_app_ne; [auto|apply F'].
  - (* if *) intros c p q s a k t b _ (kc & Fc) Hq _ (ks & Fs & _ & _) Hk _ (kt & Ft & Hl & _).
    exists (kc ++ q ++ ks ++ k ++ kt).
    assert (Pq : forall n x, padded [n] x -> n <> " "%char -> mem_char n (lit "()") = false -> pbal x x).
    { intros n x (l & r & Hl' & Hr & ->) Hn Hm. apply bal_app; [now apply plain_pbal, spaces_plain|].
      apply bal_app; [|now apply plain_pbal, spaces_plain]. apply mem_char_false in Hm.
      apply bal_one; intros ->; apply Hm; simpl; auto. }
    assert (Al : forall n x, padded [n] x -> allowed (lv LExpr) n = true -> Forall (fun c => allowed (lv LExpr) c = true) x).
    { intros n x (l & r & Hl' & Hr & ->) Hn. apply Forall_app. split; [apply spaces_allowed; simpl; auto|].
      constructor; auto. apply spaces_allowed; simpl; auto. }
    split; [|split; [|discriminate]].
    + constructor.
      * apply bal_app; [apply Fc|]. apply bal_app; [eapply Pq; eauto; discriminate|].
        apply bal_app; [apply Fs|]. apply bal_app; [eapply Pq; eauto; discriminate|]. apply Ft.
      * destruct (f_q Fc) as (kc2 & Qc), (f_q Fs) as (ks2 & Qs), (f_q Ft) as (kt2 & Qt).
        destruct Hq as (l & r & Hl' & Hr & ->), Hk as (l' & r' & Hl2 & Hr2 & ->).
        exists (kc2 ++ l ++ [ch_col] ++ r' ++ kt2). apply bal_app; auto. rewrite <- !app_assoc.
        apply bal_app; [now apply plain_qbal, spaces_plain|].
        replace (lit "?" ++ r ++ s ++ l' ++ lit ":" ++ r' ++ t) with
          ((ch_q :: (r ++ s ++ l') ++ [ch_col]) ++ r' ++ t) by (simpl; rewrite <- !app_assoc; reflexivity).
        apply bal_app.
        -- apply bal_paren with (r ++ ks2 ++ l'). apply bal_app; [now apply plain_qbal, spaces_plain|].
           apply bal_app; auto. now apply plain_qbal, spaces_plain.
        -- apply bal_app; auto. now apply plain_qbal, spaces_plain.
      * apply Forall_app. split; [eapply Forall_impl; [|apply (f_al Fc)]; intros x; apply allowed_mono; inclc|].
        apply Forall_app. split; [eapply Al; eauto|]. apply Forall_app. split; [apply Fs|].
        apply Forall_app. split; [eapply Al; eauto|]. apply Ft.
      * intros E. apply app_eq_nil in E as [E _]. now apply (f_ne Fc).
      * rewrite hd_app_ne; apply Fc.
      * rewrite !app_assoc, last_app_ne; apply Ft.
    + rewrite !app_assoc, last_app_ne; [auto|apply Ft].
  - exists (lit "true"). apply facts_plain; try reflexivity; try discriminate; repeat constructor.
  - exists (lit "false"). apply facts_plain; try reflexivity; try discriminate; repeat constructor.
  - intros s p _ (k & F). exists (lit ")"). apply facts_group with k. eauto.
  - (* cmp *) intros s a n o op t b _ (k & F & H1 & H2) Hn Hop _ (k' & F' & H1' & H2') Hs Ht.
    exists (k ++ op ++ k').
    assert (G : forall x kx, facts (lv LSum) x kx -> ~ outside "^" x -> facts (blv LCond0) x kx).
    { intros x kx Fx Hx. apply (@facts_lift _ _ _ _ Fx). intros c Hc. pose proof (proj1 (Forall_forall _ _) (f_al Fx) _ Hc) as Hal.
      rewrite (outside_iff (f_bal Fx)) in Hx by discriminate.
      unfold allowed in *. apply orb_true_iff in Hal as [->|Hal]; auto. apply orb_true_iff. right.
      apply mem_char_iff in Hal. apply mem_char_iff. apply in_app_iff in Hal as [Hal|Hal]; apply in_or_app; auto.
      right. simpl in *. destruct Hal as [<-|[<-|Hal]]; [auto|contradiction|]. tauto. }
    apply facts_app; auto. eapply opok1; eauto; [simpl; auto|destruct Hn; reflexivity|destruct Hn; repeat constructor].
  - intros s p _ H. revert H. apply bfact_mono; inclc.
  - intros s p op t q _ (k & F) Hop _ (k' & F'). exists (k ++ op ++ k'). apply facts_app; auto.
    + eapply opok1; eauto; [simpl; auto|repeat constructor].
    + eapply facts_mono; [|exact F']; inclc.
  - intros s p _ H. revert H. apply bfact_mono; inclc.
  - intros s p op t q _ (k & F) Hop _ (k' & F'). exists (k ++ op ++ k'). apply facts_app; auto.
    + eapply opok1; eauto; [simpl; auto|repeat constructor].
    + eapply facts_mono; [|exact F']; inclc.
  - intros s p _ H. revert H. apply bfact_mono; inclc.
  - intros s p op t q _ (k & F) Hop _ (k' & F'). exists (k ++ op ++ k'). apply facts_app; auto.
    + eapply opok1; eauto; [simpl; auto|repeat constructor].
    + eapply facts_mono; [|exact F']; inclc.
Qed.
