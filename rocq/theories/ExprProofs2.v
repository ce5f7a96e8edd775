(** Expression language: lexical facts about the written forms of the grammar. *)
From Verif Require Import Base ListLemmas Strings ExprModel ExprSpec ExprProofs.
Set Implicit Arguments.
Local Open Scope list_scope.
Local Open Scope nat_scope.
Notation length := List.length.
Notation pbal := (bal ch_open ch_close).
Definition ch_q : ascii := "?".
Definition ch_col : ascii := ":".
Notation qbal := (bal ch_q ch_col).

Lemma mem_char_iff c l : mem_char c l = true <-> In c l.
Proof. unfold mem_char. destruct (in_dec ascii_dec c l); split; intros; auto; discriminate. Qed.
Lemma mem_char_false c l : mem_char c l = false <-> ~ In c l.
Proof. unfold mem_char. destruct (in_dec ascii_dec c l); split; intros; auto; try discriminate; contradiction. Qed.

Lemma list_nil_or_snoc {X} (l : list X) : l = [] \/ exists l' y, l = l' ++ [y].
Proof. destruct l as [|a l] using rev_ind; [now left|right; eauto]. Qed.

(** ** splitting balanced text along its skeleton *)
Lemma bal_split o c s k : bal o c s k -> forall k1 k2, k = k1 ++ k2 ->
  exists s1 s2, s = s1 ++ s2 /\ bal o c s1 k1 /\ bal o c s2 k2.
Proof.
  induction 1 as [|s k x H IH H1 H2|s k t k' H IH Ht _]; intros k1 k2 E.
  - symmetry in E. apply app_eq_nil in E as [-> ->]. exists [], []. repeat split; constructor.
  - destruct (list_nil_or_snoc k2) as [->|(k2' & y & ->)].
    + rewrite app_nil_r in E. subst k1. exists (s ++ [x]), []. rewrite app_nil_r. repeat split; try constructor; auto.
    + rewrite app_assoc in E. apply app_inj_tail in E as [E <-].
      destruct (IH _ _ E) as (s1 & s2 & -> & B1 & B2). exists s1, (s2 ++ [x]).
      rewrite <- app_assoc. repeat split; auto. now constructor.
  - destruct (list_nil_or_snoc k2) as [->|(k2' & y & ->)].
    + rewrite app_nil_r in E. subst k1. exists (s ++ o :: t ++ [c]), []. rewrite app_nil_r.
      repeat split; try constructor; auto. now apply bal_group with k'.
    + rewrite app_assoc in E. apply app_inj_tail in E as [E <-].
      destruct (IH _ _ E) as (s1 & s2 & -> & B1 & B2). exists s1, (s2 ++ o :: t ++ [c]).
      rewrite <- app_assoc. repeat split; auto. now apply bal_group with k'.
Qed.

Lemma bal_split_at o c s k1 x k2 : bal o c s (k1 ++ x :: k2) -> x <> c ->
  exists u v, s = u ++ x :: v /\ bal o c u k1 /\ bal o c v k2.
Proof.
  intros H Hx. destruct (bal_split H k1 (x :: k2) eq_refl) as (u & s2 & -> & B1 & B2).
  destruct s2 as [|y s2].
  { pose proof (proj1 (bal_nil_iff B2) eq_refl). discriminate. }
  destruct (bal_uncons B2 ltac:(discriminate)) as [(a & v & kv & E1 & E2 & E3 & E4 & E5)|(t & kt & v & kv & E1 & E2 & _)].
  - injection E1 as -> ->. injection E2 as -> ->. now exists u, v.
  - injection E2 as E2 _. congruence.
Qed.

Lemma bal_plain_inv o c s k : bal o c s k -> ~ In c k -> s = k.
Proof.
  induction 1 as [|s k x H IH H1 H2|s k t k' H IH Ht _]; intros Hn; auto.
  - f_equal. apply IH. intros Hi. apply Hn, in_or_app. auto.
  - exfalso. apply Hn, in_or_app. right. now left.
Qed.

Lemma in_split_last {X} (dec : forall a b : X, {a = b} + {a <> b}) (x : X) l : In x l ->
  exists l1 l2, l = l1 ++ x :: l2 /\ ~ In x l2.
Proof.
  induction l as [|a l IH]; [intros []|]. intros H.
  destruct (in_dec dec x l) as [Hi|Hi].
  - destruct (IH Hi) as (l1 & l2 & -> & Hn). now exists (a :: l1), l2.
  - destruct H as [->|H]; [|contradiction]. now exists [], l.
Qed.

(** ** the specification's [outside] *)
Lemma toplevel_bal s k : pbal s k -> forall v,
  toplevel_from 0 (s ++ v) = filter (fun c => negb (mem_char c (lit ")"))) k ++ toplevel_from 0 v /\
  forall d, 0 < d -> toplevel_from d (s ++ v) = toplevel_from d v.
Proof.
  induction 1 as [|s k x H IH H1 H2|s k t k' H IH Ht IHt]; intros v.
  - auto.
  - split; [|intros d Hd]; rewrite <- app_assoc.
    + rewrite (proj1 (IH _)), filter_app, <- app_assoc. f_equal. simpl.
      destruct (ascii_dec x "("); [contradiction|]. destruct (ascii_dec x ")"); [contradiction|].
      replace (mem_char x [")"%char]) with false; [reflexivity|].
      symmetry. apply mem_char_false. intros [E|[]]; congruence.
    + rewrite (proj2 (IH _)) by auto. simpl.
      destruct (ascii_dec x "("); [contradiction|]. destruct (ascii_dec x ")"); [contradiction|].
      destruct d; [lia|reflexivity].
  - split; [|intros d Hd]; rewrite <- app_assoc.
    + rewrite (proj1 (IH _)), filter_app, <- app_assoc. f_equal. simpl.
      rewrite <- app_assoc, (proj2 (IHt _)) by lia. reflexivity.
    + rewrite (proj2 (IH _)) by auto. simpl. rewrite <- app_assoc, (proj2 (IHt _)) by lia. reflexivity.
Qed.

Lemma outside_iff s k x : pbal s k -> x <> ")"%char -> (outside x s <-> In x k).
Proof.
  intros H Hx. unfold outside, toplevel. rewrite <- (app_nil_r s), (proj1 (toplevel_bal H [])). simpl.
  rewrite app_nil_r, filter_In. split; [tauto|]. intros Hi. split; auto.
  apply negb_true_iff, mem_char_false. intros [E|[]]. congruence.
Qed.

(** ** lexical classes *)
Definition allowed (l : chars) (c : ascii) : bool :=
  is_digit c || mem_char c (lit "abcdefghijklmnopqrstuvwxyz.)-" ++ l).
Definition first_ok (c : ascii) : bool := negb (mem_char c (lit " =")).
Definition last_ok (c : ascii) : bool := negb (mem_char c (lit " -*/^e=<~>")).

Record facts (l s k : chars) : Prop := {
  f_bal : pbal s k;
  f_q : exists k2, qbal s k2;
  f_al : Forall (fun c => allowed l c = true) k;
  f_ne : s <> [];
  f_first : first_ok (hd nul s) = true;
  f_last : last s nul <> " "%char
}.

Lemma allowed_mono l l' c : incl l l' -> allowed l c = true -> allowed l' c = true.
Proof.
  unfold allowed. intros Hi H. apply orb_true_iff in H as [->|H]; auto. apply orb_true_iff. right.
  apply mem_char_iff in H. apply mem_char_iff. apply in_app_iff in H as [H|H]; apply in_or_app; auto.
Qed.
Lemma facts_mono l l' s k : incl l l' -> facts l s k -> facts l' s k.
Proof.
  intros Hi [H1 H2 H3 H4 H5 H6]. constructor; auto. eapply Forall_impl; [|exact H3]. intros c. now apply allowed_mono.
Qed.
Lemma facts_not_in l s k x : facts l s k -> allowed l x = false -> ~ In x k.
Proof. intros F H Hi. pose proof (proj1 (Forall_forall _ _) (f_al F) _ Hi). congruence. Qed.

Lemma last_app_ne {X} (u v : list X) d : v <> [] -> last (u ++ v) d = last v d.
Proof.
  intros Hv. induction u as [|a u IH]; auto. simpl. destruct (u ++ v) eqn:E; auto.
  apply app_eq_nil in E as [_ E]. congruence.
Qed.
Lemma hd_app_ne {X} (u v : list X) d : u <> [] -> hd d (u ++ v) = hd d u.
Proof. destruct u; [congruence|reflexivity]. Qed.

(** text without parentheses and ?: *)
Definition plainc (c : ascii) : bool := negb (mem_char c (lit "()?:")).
Lemma plain_pbal s : forallb plainc s = true -> pbal s s.
Proof.
  intros H. apply bal_plain, Forall_forall. intros x Hi.
  rewrite forallb_forall in H. specialize (H _ Hi). unfold plainc in H. apply negb_true_iff in H.
  pose proof (proj1 (mem_char_false _ _) H) as Hn. split; intros ->; apply Hn; simpl; auto.
Qed.
Lemma plain_qbal s : forallb plainc s = true -> qbal s s.
Proof.
  intros H. apply bal_plain, Forall_forall. intros x Hi.
  rewrite forallb_forall in H. specialize (H _ Hi). unfold plainc in H. apply negb_true_iff in H.
  pose proof (proj1 (mem_char_false _ _) H) as Hn. split; intros ->; apply Hn; simpl; auto.
Qed.

(** a spaced operator made of plain characters allowed in [l] *)
Definition opok (l op : chars) : Prop := forallb plainc op = true /\ Forall (fun c => allowed l c = true) op.

Lemma facts_app l s k op t k' : facts l s k -> opok l op -> facts l t k' -> facts l (s ++ op ++ t) (k ++ op ++ k').
Proof.
  intros F [Hp Ho] F'. constructor.
  - apply bal_app; [apply F|]. apply bal_app; [now apply plain_pbal|apply F'].
  - destruct (f_q F) as (k2 & Q), (f_q F') as (k2' & Q'). exists (k2 ++ op ++ k2').
    apply bal_app; auto. apply bal_app; auto. now apply plain_qbal.
  - apply Forall_app. split; [apply F|]. apply Forall_app. split; auto. apply F'.
  - intros E. apply app_eq_nil in E as [E _]. now apply (f_ne F).
  - rewrite hd_app_ne; [apply F|apply F].
  - rewrite app_assoc, last_app_ne; [apply F'|apply F'].
Qed.
(** operator in front *)
Lemma facts_pre l op t k' : opok l op -> op <> [] -> first_ok (hd nul op) = true -> facts l t k' ->
  facts l (op ++ t) (op ++ k').
Proof.
  intros [Hp Ho] Hne Hf F'. constructor.
  - apply bal_app; [now apply plain_pbal|apply F'].
  - destruct (f_q F') as (k2' & Q'). exists (op ++ k2'). apply bal_app; auto. now apply plain_qbal.
  - apply Forall_app. split; auto. apply F'.
  - intros E. apply app_eq_nil in E as [E _]. congruence.
  - now rewrite hd_app_ne.
  - rewrite last_app_ne; [apply F'|apply F'].
Qed.

Lemma spaces_plain sp : spaces sp -> forallb plainc sp = true.
Proof. induction 1 as [|c sp -> H IH]; auto. Qed.
Lemma spaces_allowed l sp : In " "%char l -> spaces sp -> Forall (fun c => allowed l c = true) sp.
Proof.
  intros Hl H. eapply Forall_impl; [|exact H]. intros c ->. unfold allowed. apply orb_true_iff. right.
  apply mem_char_iff, in_or_app. auto.
Qed.
Lemma opok_app l a b : opok l a -> opok l b -> opok l (a ++ b).
Proof.
  intros [H1 H2] [H3 H4]. split; [|now apply Forall_app]. rewrite forallb_app, H1, H3. reflexivity.
Qed.
Lemma opok_spaces l sp : In " "%char l -> spaces sp -> opok l sp.
Proof. intros. split; [now apply spaces_plain|now apply spaces_allowed]. Qed.
Lemma opok_padded l n op : In " "%char l -> padded n op -> opok l n -> opok l op.
Proof.
  intros Hl (a & b & Ha & Hb & ->) Hn. apply opok_app; [now apply opok_spaces|]. apply opok_app; auto. now apply opok_spaces.
Qed.

(** ** numerals *)
Lemma digits_forallb d : digits d -> forallb is_digit d = true /\ d <> [].
Proof. intros [H1 H2]. split; auto. apply forallb_forall. intros x Hi. now apply (proj1 (Forall_forall _ _) H2). Qed.

Lemma number_loop_digits d s dec dig : forallb is_digit d = true -> d <> [] ->
  number_loop (d ++ s) dec dig = number_loop s dec true.
Proof.
  revert dig. induction d as [|c d IH]; intros dig H Hn; [congruence|]. simpl in H. apply andb_true_iff in H as [H1 H2].
  simpl. rewrite H1. destruct d as [|c' d]; [reflexivity|]. apply IH; auto. discriminate.
Qed.

Lemma digit_not c x : is_digit c = true -> is_digit x = false -> c <> x.
Proof. congruence. Qed.

Lemma is_integer_digits d : digits d -> is_integer d = true /\ is_integer ("-"%char :: d) = true.
Proof.
  intros Hd. destruct (digits_forallb Hd) as [H Hn]. destruct d as [|c d]; [congruence|].
  simpl in H. apply andb_true_iff in H as [H1 H2]. split.
  - unfold is_integer. destruct (ascii_dec c "-") as [->|]; [discriminate|].
    destruct (ascii_dec c "+") as [->|]; [discriminate|]. rewrite andb_false_r, H1. exact H2.
  - cbn. rewrite H1. exact H2.
Qed.

Lemma number_loop_mantissa m s : mantissa m -> exists dec, number_loop (m ++ s) false false = number_loop s dec true.
Proof.
  intros H. destruct H as [d Hd|d Hd|d f Hd Hf|f Hf].
  - destruct (digits_forallb Hd). exists false. now apply number_loop_digits.
  - destruct (digits_forallb Hd). exists true. rewrite <- app_assoc, number_loop_digits by auto. reflexivity.
  - destruct (digits_forallb Hd), (digits_forallb Hf). exists true.
    rewrite <- app_assoc, number_loop_digits by auto. simpl. now apply number_loop_digits.
  - destruct (digits_forallb Hf). exists true. simpl. now apply number_loop_digits.
Qed.

Lemma numeral_loop s : numeral s -> number_loop s false false = true.
Proof.
  intros H. destruct H as [m Hm|m d Hm Hd|m d Hm Hd].
  - destruct (@number_loop_mantissa m [] Hm) as [dec E]. rewrite app_nil_r in E. rewrite E. reflexivity.
  - destruct (@number_loop_mantissa m (lit "e" ++ d) Hm) as [dec E]. rewrite E. simpl. now apply is_integer_digits.
  - destruct (@number_loop_mantissa m (lit "e-" ++ d) Hm) as [dec E]. rewrite E.
    change (is_integer ("-"%char :: d) = true). now apply is_integer_digits.
Qed.

Lemma numeral_chars s : numeral s -> s <> [] /\ (is_digit (hd nul s) = true \/ hd nul s = "."%char) /\
  (is_digit (last s nul) = true \/ last s nul = "."%char) /\
  Forall (fun c => is_digit c = true \/ In c (lit ".e-")) s.
Proof.
  assert (Hd : forall d, digits d -> d <> [] /\ is_digit (hd nul d) = true /\ is_digit (last d nul) = true /\
    Forall (fun c => is_digit c = true \/ In c (lit ".e-")) d).
  { intros d [Hn H]. repeat split; auto.
    - destruct H; [congruence|auto].
    - destruct (list_nil_or_snoc d) as [->|(d' & y & ->)]; [congruence|]. rewrite last_last.
      apply Forall_app in H as [_ H]. now inversion H.
    - eapply Forall_impl; [|exact H]. auto. }
  assert (Hm : forall m, mantissa m -> m <> [] /\ (is_digit (hd nul m) = true \/ hd nul m = "."%char) /\
  (is_digit (last m nul) = true \/ last m nul = "."%char) /\
  Forall (fun c => is_digit c = true \/ In c (lit ".e-")) m).
  { intros m H. destruct H as [d H|d H|d f H Hf|f Hf].
    - destruct (Hd d H) as (?&?&?&?). auto.
    - destruct (Hd d H) as (?&?&?&?). repeat split.
      + intros E. apply app_eq_nil in E as [_ E]. discriminate.
      + rewrite hd_app_ne; auto.
      + right. rewrite last_app_ne; [reflexivity|discriminate].
      + apply Forall_app. split; auto. constructor; [right; simpl; auto|constructor].
    - destruct (Hd d H) as (?&?&?&?), (Hd f Hf) as (?&?&?&?). repeat split.
      + intros E. apply app_eq_nil in E as [E _]. contradiction.
      + rewrite hd_app_ne; auto.
      + left. rewrite last_app_ne; [|discriminate]. rewrite last_app_ne; auto.
      + apply Forall_app. split; auto. apply Forall_app. split; auto.
        constructor; [right; simpl; auto|constructor].
    - destruct (Hd f Hf) as (?&?&?&?). repeat split.
      + discriminate.
      + right. reflexivity.
      + left. rewrite last_app_ne; auto.
      + apply Forall_app. split; auto. constructor; [right; simpl; auto|constructor]. }
  intros H. destruct H as [m H|m d H H'|m d H H'].
  - now apply Hm.
  - destruct (Hm m H) as (?&?&?&?), (Hd d H') as (?&?&?&?). repeat split.
    + intros E. apply app_eq_nil in E as [E _]. contradiction.
    + rewrite hd_app_ne; auto.
    + left. rewrite last_app_ne; [|discriminate]. rewrite last_app_ne; auto.
    + apply Forall_app. split; auto. apply Forall_app. split; auto. constructor; [right; simpl; auto|constructor].
  - destruct (Hm m H) as (?&?&?&?), (Hd d H') as (?&?&?&?). repeat split.
    + intros E. apply app_eq_nil in E as [E _]. contradiction.
    + rewrite hd_app_ne; auto.
    + left. rewrite last_app_ne; [|discriminate]. rewrite last_app_ne; auto.
    + apply Forall_app. split; auto. apply Forall_app. split; auto.
      constructor; [right; simpl; auto|constructor; [right; simpl; auto|constructor]].
Qed.

(** what IsNumber accepts *)
Lemma number_loop_chars s : forall d g, number_loop s d g = true ->
  Forall (fun c => is_digit c = true \/ In c (lit ".e+-")) s.
Proof.
  induction s as [|c s IH]; intros d g H; constructor; simpl in H; destruct (is_digit c) eqn:Hc; auto.
  - destruct (ascii_dec c ".") as [->|]; [right; simpl; auto|]. cbn [andb] in H.
    destruct (ascii_dec c "e") as [->|]; [right; simpl; auto|]. discriminate.
  - eauto.
  - destruct ((if ascii_dec c "." then true else false) && negb d); eauto.
    destruct ((if ascii_dec c "e" then true else false) && g); [|discriminate].
    unfold is_integer in H. destruct s as [|c' s]; [discriminate|]. clear IH.
    destruct ((length (c' :: s) =? 1) && _); [discriminate|].
    destruct (negb _ && negb _ && negb _) eqn:E; [discriminate|].
    constructor.
    + destruct (ascii_dec c' "-") as [->|]; [right; simpl; auto|].
      destruct (ascii_dec c' "+") as [->|]; [right; simpl; auto|]. cbn [negb andb] in E.
      apply negb_false_iff in E. auto.
    + rewrite forallb_forall in H. apply Forall_forall. auto.
Qed.
Lemma is_number_chars s : is_number s = true -> Forall (fun c => is_digit c = true \/ In c (lit ".e+-")) s.
Proof.
  unfold is_number. destruct s as [|c s]; [discriminate|].
  destruct (ascii_dec c "-") as [->|]; [|destruct (ascii_dec c "+") as [->|]]; cbn [orb]; intros H.
  - constructor; [right; simpl; auto|]. eapply number_loop_chars; eauto.
  - constructor; [right; simpl; auto|]. eapply number_loop_chars; eauto.
  - eapply number_loop_chars; eauto.
Qed.

Lemma is_digit_pm x : In x (lit "+-") -> is_digit x = false.
Proof. intros [<-|[<-|[]]]; reflexivity. Qed.

Lemma number_loop_sign x v : In x (lit "+-") -> forall u d g, number_loop (u ++ x :: v) d g = true ->
  u <> [] /\ last u nul = "e"%char.
Proof.
  intros Hx. induction u as [|c u IH]; intros d g H; simpl in H.
  - rewrite (is_digit_pm Hx) in H. exfalso. destruct Hx as [<-|[<-|[]]]; simpl in H; discriminate.
  - split; [discriminate|].
    assert (G : forall d' g', number_loop (u ++ x :: v) d' g' = true -> last (c :: u) nul = "e"%char).
    { intros d' g' H'. destruct (IH _ _ H') as [Hn Hl]. destruct u; [congruence|exact Hl]. }
    destruct (is_digit c); [eauto|].
    destruct ((if ascii_dec c "." then true else false) && negb d); [eauto|].
    destruct (ascii_dec c "e") as [->|]; [|discriminate]. cbn [andb] in H. destruct g; [|discriminate].
    destruct u as [|c' u]; [reflexivity|]. exfalso. simpl in H.
    replace (length (u ++ x :: v) =? 0) with false in H by (rewrite app_length; simpl; symmetry; apply Nat.eqb_neq; lia).
    cbn [andb] in H.
    destruct (negb _ && negb _ && negb _); [discriminate|]. rewrite forallb_app in H. simpl in H.
    rewrite (is_digit_pm Hx), andb_false_r in H. discriminate.
Qed.
Lemma is_number_sign x u v : In x (lit "+-") -> u <> [] -> is_number (u ++ x :: v) = true ->
  last u nul = "e"%char.
Proof.
  intros Hx Hn. destruct u as [|c u]; [congruence|]. unfold is_number. simpl app. cbv iota beta.
  assert (G : number_loop (u ++ x :: v) false false = true -> last (c :: u) nul = "e"%char).
  { intros H. destruct (@number_loop_sign _ _ Hx _ _ _ H) as [H1 H2]. destruct u; [congruence|exact H2]. }
  destruct (ascii_dec c "-") as [->|]; [|destruct (ascii_dec c "+") as [->|]]; cbn [orb]; auto.
  intros H. change (c :: u ++ x :: v) with ((c :: u) ++ x :: v) in H.
  now destruct (@number_loop_sign _ _ Hx _ _ _ H).
Qed.
Lemma is_integer_number s : is_integer s = true -> is_number s = true.
Proof.
  unfold is_integer, is_number. destruct s as [|c s]; [discriminate|].
  intros H. destruct ((length (c :: s) =? 1) && _); [discriminate|].
  destruct (negb _ && negb _ && negb _) eqn:E; [discriminate|].
  assert (G : forall d g, number_loop s d g = true).
  { clear E. revert H. induction s as [|x s IH]; intros H d g; [reflexivity|]. simpl in *.
    apply andb_true_iff in H as [H1 H2]. rewrite H1. auto. }
  destruct (ascii_dec c "-"); [apply G|]. destruct (ascii_dec c "+"); [apply G|]. cbn [orb negb andb] in *.
  apply negb_false_iff in E. simpl. rewrite E. apply G.
Qed.
