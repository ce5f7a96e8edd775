(** Tokens, material parameters, lines of the input deck. *)
From Verif Require Import Base ListLemmas Strings InputSpec InputModel InputProofs.
From Coq Require Import NArith.
Local Close Scope string_scope.
Local Open Scope list_scope.
Set Implicit Arguments.
Notation length := List.length.

(** ** tok *)
Lemma tok_white sep b s : all_of white b -> tok sep None (b ++ s) = tok sep None s.
Proof. induction 1 as [|c b H _ IH]; simpl; auto. apply isspace_white in H. now rewrite H. Qed.
Lemma tok_some sep t w r : ~ In sep w -> tok sep (Some t) (w ++ sep :: r) = (t ++ w) :: tok sep None r.
Proof.
  revert t; induction w as [|c w IH]; intros t H; cbn [app tok].
  - destruct (ascii_dec sep sep); [|congruence]. now rewrite app_nil_r.
  - destruct (ascii_dec c sep) as [->|_]; [exfalso; apply H; now left|].
    rewrite IH by (intros HI; apply H; now right). now rewrite <- app_assoc.
Qed.
Lemma tok_some_end sep t w : ~ In sep w -> tok sep (Some t) w = [t ++ w].
Proof.
  revert t; induction w as [|c w IH]; intros t H; cbn [app tok]; [now rewrite app_nil_r|].
  destruct (ascii_dec c sep) as [->|_]; [exfalso; apply H; now left|].
  rewrite IH by (intros HI; apply H; now right). now rewrite <- app_assoc.
Qed.
Lemma none_space_in w : none_of space w <-> ~ In " "%char w.
Proof.
  unfold none_of, space. rewrite Forall_forall. split.
  - intros H HI. now apply (H _ HI).
  - intros H c Hc ->. auto.
Qed.
Lemma tok_word c w rest : ~ white c -> none_of space (c :: w) ->
  (rest = [] \/ exists r, rest = " "%char :: r) ->
  tok " " None ((c :: w) ++ rest) = (c :: w) :: tok " " None rest.
Proof.
  intros Hc Hw Hr. apply none_space_in in Hw. pose proof Hc as Hc'. apply isspace_not in Hc'. cbn [app tok]. rewrite Hc'.
  destruct (ascii_dec c " ") as [->|_]; [exfalso; apply Hw; now left|].
  assert (Hw' : ~ In " "%char w) by (intros H; apply Hw; now right).
  destruct Hr as [->|(r & ->)].
  - rewrite app_nil_r, tok_some_end by auto. reflexivity.
  - rewrite tok_some by auto. cbn [tok app]. now rewrite isspace_space.
Qed.
Lemma splits_tok s ws : splits s ws -> tokenize_sep s " " = ws.
Proof.
  unfold tokenize_sep. induction 1 as [b Hb|b c w rest ws Hb Hc Hw Hr _ IH].
  - rewrite <- (app_nil_r b). rewrite tok_white by auto. reflexivity.
  - rewrite tok_white by auto. rewrite tok_word by auto. now rewrite IH.
Qed.
Lemma cut_space s : none_of space s \/ exists w r, s = w ++ " "%char :: r /\ none_of space w.
Proof.
  induction s as [|c s IH]; [left; constructor|]. destruct (ascii_dec c " ") as [->|Hc].
  - right. exists [], s. split; [reflexivity|constructor].
  - destruct IH as [IH|(w & r & -> & Hw)]; [left; now constructor|].
    right. exists (c :: w), r. split; [reflexivity|now constructor].
Qed.
Lemma splits_exists s : exists ws, splits s ws.
Proof.
  remember (length s) as n eqn:En. assert (Hn : length s <= n) by lia. clear En. revert s Hn.
  induction n as [|n IH]; intros s Hn.
  - destruct s; [|simpl in Hn; lia]. exists []. constructor. constructor.
  - destruct (skip_ws_split s) as (b & E & Hb & Hh). destruct (skip_ws s) as [|c t].
    + exists []. rewrite E, app_nil_r. now constructor.
    + destruct (cut_space (c :: t)) as [H|(w & r & Et & Hw)].
      * exists [c :: t]. rewrite E. rewrite <- (app_nil_r (c :: t)) at 1.
        constructor; auto. constructor. constructor.
      * destruct w as [|d w]; [cbn [app] in Et; injection Et as -> _; exfalso; apply Hh; now left|].
        injection Et as <- ->. destruct (IH (" "%char :: r)) as (ws & Hws).
        { rewrite E in Hn. rewrite app_length in Hn. cbn [length] in *. rewrite app_length in Hn. simpl in Hn |- *. lia. }
        exists ((c :: w) :: ws). rewrite E. change (c :: w ++ " "%char :: r) with ((c :: w) ++ " "%char :: r).
        constructor; eauto.
Qed.
Lemma splits_iff s ws : splits s ws <-> tokenize_sep s " " = ws.
Proof.
  split; [apply splits_tok|]. intros <-. destruct (splits_exists s) as (ws & H).
  now rewrite (splits_tok H).
Qed.

(** ** quotes *)
Definition noquote (s : chars) := ~ In quote s.
Lemma tok_quote p r : noquote p -> tok quote None (p ++ quote :: r) = skip_ws p :: tok quote None r.
Proof.
  intros H. destruct (skip_ws_split p) as (b & E & Hb & Hh). rewrite E at 1. rewrite <- app_assoc.
  rewrite tok_white by auto. destruct (skip_ws p) as [|c t].
  - reflexivity.
  - cbn [app tok]. apply isspace_not in Hh. rewrite Hh.
    assert (Hin : ~ In quote (c :: t)) by (intros HI; apply H; rewrite E; apply in_app_iff; now right).
    destruct (ascii_dec c quote) as [->|_]; [exfalso; apply Hin; now left|].
    rewrite tok_some by (intros HI; apply Hin; now right). reflexivity.
Qed.
Lemma tok_quote_end p : noquote p ->
  tok quote None p = match skip_ws p with [] => [] | t => [t] end.
Proof.
  intros H. destruct (skip_ws_split p) as (b & E & Hb & Hh). rewrite E at 1.
  rewrite tok_white by auto. destruct (skip_ws p) as [|c t]; [reflexivity|].
  cbn [app tok]. apply isspace_not in Hh. rewrite Hh.
  assert (Hin : ~ In quote (c :: t)) by (intros HI; apply H; rewrite E; apply in_app_iff; now right).
  destruct (ascii_dec c quote) as [->|_]; [exfalso; apply Hin; now left|].
  rewrite tok_some_end by (intros HI; apply Hin; now right). reflexivity.
Qed.
Lemma tokenize_skip s : tokenize_sep (skip_ws s) " " = tokenize_sep s " ".
Proof.
  destruct (skip_ws_split s) as (b & E & Hb & _). rewrite E at 2. unfold tokenize_sep.
  now rewrite tok_white.
Qed.
Lemma tokenize_noquote s : noquote s -> tokenize_string s = tokenize_sep s " ".
Proof.
  intros H. unfold tokenize_string. unfold tokenize_sep at 1. rewrite tok_quote_end by auto.
  rewrite <- (tokenize_skip s). destruct (skip_ws s) as [|c t]; [reflexivity|].
  cbn [tok_segments negb]. now rewrite app_nil_r.
Qed.
Lemma tokenize_quoted p q rest : noquote p -> noquote q ->
  tokenize_string (p ++ quote :: q ++ quote :: rest) =
  tokenize_string p ++ skip_ws q :: tokenize_string rest.
Proof.
  intros Hp Hq. rewrite (tokenize_noquote Hp). unfold tokenize_string at 1. unfold tokenize_sep at 1.
  rewrite tok_quote, tok_quote by auto. cbn [tok_segments negb]. rewrite tokenize_skip. reflexivity.
Qed.
Lemma tokenize_open_quote p q : noquote p -> noquote q ->
  tokenize_string (p ++ quote :: q) =
  tokenize_string p ++ match skip_ws q with [] => [] | t => [t] end.
Proof.
  intros Hp Hq. rewrite (tokenize_noquote Hp). unfold tokenize_string. unfold tokenize_sep at 1.
  rewrite tok_quote, tok_quote_end by auto. cbn [tok_segments negb]. rewrite tokenize_skip.
  destruct (skip_ws q); reflexivity.
Qed.

(** ** words in order *)
Lemma white_space c : space c -> white c. Proof. intros ->. now left. Qed.
Lemma unwords_cons w w' ws : unwords (w :: w' :: ws) = w ++ " "%char :: unwords (w' :: ws).
Proof. reflexivity. Qed.
Lemma plain_none_space w : plain_word w -> none_of space w.
Proof. intros (_ & H & _). eapply Forall_impl; [|exact H]. intros c Hc Hs. apply Hc, white_space, Hs. Qed.
Lemma splits_white b s ws : all_of white b -> splits s ws -> splits (b ++ s) ws.
Proof.
  intros Hb H. apply splits_iff. apply splits_iff in H. unfold tokenize_sep in *. now rewrite tok_white.
Qed.
Lemma splits_unwords ws : Forall plain_word ws -> splits (unwords ws) ws.
Proof.
  induction ws as [|w [|w' ws] IH]; intros H.
  - constructor. constructor.
  - apply Forall_inv in H. pose proof (plain_none_space H) as Hs. destruct H as (Hne & Hw & _).
    destruct w as [|c w]; [congruence|].
    cbn [unwords]. rewrite <- (app_nil_l (c :: w)), <- (app_nil_r (c :: w)) at 1.
    apply splits_word; auto; try (now constructor); now inversion_clear Hw.
  - inversion_clear H as [|? ? Hp Hps]. pose proof (plain_none_space Hp) as Hs. destruct Hp as (Hne & Hw & _).
    destruct w as [|c w]; [congruence|]. rewrite unwords_cons.
    rewrite <- (app_nil_l ((c :: w) ++ _)). apply splits_word; eauto; [constructor|now inversion_clear Hw|].
    change (" "%char :: unwords (w' :: ws)) with ([" "%char] ++ unwords (w' :: ws)).
    apply splits_white; auto. constructor; [now left|constructor].
Qed.
Lemma noquote_unwords ws : Forall plain_word ws -> noquote (unwords ws).
Proof.
  assert (Hq : forall w, plain_word w -> noquote w).
  { intros w (_ & _ & H) HI. unfold none_of in H. rewrite Forall_forall in H. now apply (H _ HI). }
  induction ws as [|w [|w' ws] IH]; intros H.
  - intros [].
  - apply Hq. now apply Forall_inv in H.
  - rewrite unwords_cons. inversion_clear H. intros HI. apply in_app_iff in HI.
    destruct HI as [HI|[HI|HI]]; [now apply (Hq w)|discriminate|]. now apply IH.
Qed.
Lemma tokenize_unwords ws : Forall plain_word ws -> tokenize_string (unwords ws) = ws.
Proof.
  intros H. rewrite tokenize_noquote by now apply noquote_unwords. apply splits_iff. now apply splits_unwords.
Qed.

(** words None is the same as tok with all white space: enough here, words separated by spaces *)
Lemma words_white b s : all_of white b -> words None (b ++ s) = words None s.
Proof. induction 1 as [|c b H _ IH]; simpl; auto. apply isspace_white in H. now rewrite H. Qed.
Lemma words_some t w s : none_of white w -> words (Some t) (w ++ s) = words (Some (t ++ w)) s.
Proof.
  revert t; induction w as [|c w IH]; intros t H; cbn [app]; [now rewrite app_nil_r|].
  inversion_clear H as [|? ? Hc Hw]. cbn [words]. apply isspace_not in Hc. rewrite Hc.
  rewrite IH by auto. now rewrite <- app_assoc.
Qed.
Lemma words_word w s : w <> [] -> none_of white w -> (s = [] \/ exists c r, s = c :: r /\ white c) ->
  words None (w ++ s) = w :: words None s.
Proof.
  intros Hne Hw Hs. destruct w as [|c w]; [congruence|]. cbn [app words].
  inversion_clear Hw as [|? ? Hc Hw']. apply isspace_not in Hc. rewrite Hc. rewrite words_some by auto.
  destruct Hs as [->|(d & r & -> & Hd)]; [reflexivity|]. cbn [words]. apply isspace_white in Hd. now rewrite Hd.
Qed.
Lemma words_unwords ws : Forall plain_word ws -> words None (unwords ws) = ws.
Proof.
  induction ws as [|w [|w' ws] IH]; intros H; [reflexivity| |].
  - apply Forall_inv in H. destruct H as (Hne & Hw & _). cbn [unwords].
    rewrite <- (app_nil_r w) at 1. now rewrite words_word by auto.
  - inversion_clear H as [|? ? Hp Hps]. destruct Hp as (Hne & Hw & _). rewrite unwords_cons.
    rewrite words_word; [|auto|auto|right; eexists _, _; split; [reflexivity|now left]].
    f_equal. change (" "%char :: unwords (w' :: ws)) with ([" "%char] ++ unwords (w' :: ws)).
    rewrite words_white by (constructor; [now left|constructor]). auto.
Qed.

(** ** material parameters *)
Lemma listed_In k l : listed k l = true <-> In k l.
Proof.
  unfold listed. rewrite existsb_exists. split.
  - intros (x & Hx & E). apply chars_eqb_eq in E. now subst.
  - intros H. exists k. split; auto. apply chars_eqb_refl.
Qed.
Lemma assoc_insert {V} k k' (v : V) m :
  assoc chars_eqb k (map_insert k' v m) =
  match assoc chars_eqb k m with Some w => Some w | None => if chars_eqb k k' then Some v else None end.
Proof.
  unfold map_insert. destruct (assoc chars_eqb k' m) as [w'|] eqn:E.
  - destruct (assoc chars_eqb k m) eqn:E2; auto. destruct (chars_eqb k k') eqn:Ek; auto.
    apply chars_eqb_eq in Ek. congruence.
  - cbn [assoc]. destruct (chars_eqb k k') eqn:Ek.
    + apply chars_eqb_eq in Ek. subst. now rewrite E.
    + destruct (assoc chars_eqb k m); auto.
Qed.
Lemma first_value_cons {V} k k' (v : V) l :
  first_value k ((k', v) :: l) = if chars_eqb k k' then Some v else first_value k l.
Proof. cbn [first_value]. unfold chars_eqb. destruct (list_eq_dec ascii_dec k k'); auto. Qed.

Section Mat.
  Variable D : Type.
  Variable rdouble : chars -> option D.
  Variable zero dbl_max : D.
  Variable vd vs : list chars.
  Notation conv := (string_to_double rdouble zero dbl_max).
  Notation pairs_of := (read_pairs rdouble zero dbl_max vd vs).

  Lemma read_pairs_ok pairs : Forall (fun kv => In (fst kv) vd \/ In (fst kv) vs) pairs ->
    forall str dbl, exists str' dbl', pairs_of (flat pairs) str dbl = Ok (str', dbl') /\
      (forall k, assoc chars_eqb k dbl' =
        match assoc chars_eqb k dbl with
        | Some v => Some v
        | None => if listed k vd then option_map conv (first_value k pairs) else None
        end) /\
      (forall k, assoc chars_eqb k str' =
        match assoc chars_eqb k str with
        | Some v => Some v
        | None => if listed k vd then None else if listed k vs then first_value k pairs else None
        end).
  Proof.
    induction pairs as [|[k v] pairs IH]; intros H str dbl.
    - exists str, dbl. split; [reflexivity|]. split; intros k'.
      + destruct (assoc chars_eqb k' dbl); auto. destruct (listed k' vd); reflexivity.
      + destruct (assoc chars_eqb k' str); auto. destruct (listed k' vd); [reflexivity|]. destruct (listed k' vs); reflexivity.
    - inversion_clear H as [|? ? Hk Hr]. cbn [fst] in Hk. cbn [flat]. cbn [read_pairs].
      destruct (listed k vd) eqn:Ed.
      + destruct (IH Hr str (map_insert k (conv v) dbl)) as (s' & d' & E & Hd & Hs).
        exists s', d'. split; [exact E|]. split; intros k'.
        * rewrite Hd, assoc_insert, first_value_cons. destruct (assoc chars_eqb k' dbl); auto.
          destruct (chars_eqb k' k) eqn:Ek; auto. apply chars_eqb_eq in Ek. subst. now rewrite Ed.
        * rewrite Hs, first_value_cons. destruct (assoc chars_eqb k' str); auto.
          destruct (listed k' vd) eqn:Ed'; auto. destruct (chars_eqb k' k) eqn:Ek; auto.
          apply chars_eqb_eq in Ek. congruence.
      + destruct (listed k vs) eqn:Es.
        * destruct (IH Hr (map_insert k v str) dbl) as (s' & d' & E & Hd & Hs).
          exists s', d'. split; [exact E|]. split; intros k'.
          -- rewrite Hd, first_value_cons. destruct (assoc chars_eqb k' dbl); auto.
             destruct (chars_eqb k' k) eqn:Ek; auto. apply chars_eqb_eq in Ek. subst. now rewrite Ed.
          -- rewrite Hs, assoc_insert, first_value_cons. destruct (assoc chars_eqb k' str); auto.
             destruct (chars_eqb k' k) eqn:Ek; auto. apply chars_eqb_eq in Ek. subst. now rewrite Ed, Es.
        * exfalso. destruct Hk as [Hk|Hk]; apply listed_In in Hk; congruence.
  Qed.
  Lemma read_pairs_unknown pairs rest : (exists kv, In kv pairs /\ ~ In (fst kv) vd /\ ~ In (fst kv) vs) ->
    forall str dbl, pairs_of (flat pairs ++ rest) str dbl = Throw.
  Proof.
    induction pairs as [|[k v] pairs IH]; intros (kv & Hin & Hd & Hs) str dbl; [destruct Hin|].
    cbn [flat app read_pairs]. destruct Hin as [<-|Hin].
    - cbn [fst] in *. destruct (listed k vd) eqn:E; [apply listed_In in E; contradiction|].
      destruct (listed k vs) eqn:E'; [apply listed_In in E'; contradiction|]. reflexivity.
    - destruct (listed k vd); [apply IH; eauto|]. destruct (listed k vs); [apply IH; eauto|]. reflexivity.
  Qed.
  Lemma read_pairs_odd pairs k : Forall (fun kv => In (fst kv) vd \/ In (fst kv) vs) pairs ->
    forall str dbl, pairs_of (flat pairs ++ [k]) str dbl = UB.
  Proof.
    induction pairs as [|[k' v] pairs IH]; intros H str dbl; [reflexivity|].
    inversion_clear H as [|? ? Hk Hr]. cbn [flat app read_pairs fst] in *.
    destruct (listed k' vd) eqn:E; [now apply IH|]. destruct (listed k' vs) eqn:E'; [now apply IH|].
    exfalso. destruct Hk as [Hk|Hk]; apply listed_In in Hk; congruence.
  Qed.
End Mat.

(** ** lines *)
Lemma find_char_app c a b : ~ In c a -> find_char c (a ++ c :: b) = Some (length a).
Proof.
  induction a as [|d a IH]; intros H; cbn [app find_char].
  - destruct (ascii_dec c c); [reflexivity|congruence].
  - destruct (ascii_dec d c) as [->|]; [exfalso; apply H; now left|].
    rewrite IH by (intros HI; apply H; now right). reflexivity.
Qed.
Lemma find_char_none c a : ~ In c a -> find_char c a = None.
Proof.
  induction a as [|d a IH]; intros H; cbn [find_char]; auto.
  destruct (ascii_dec d c) as [->|]; [exfalso; apply H; now left|].
  rewrite IH by (intros HI; apply H; now right). reflexivity.
Qed.
Lemma mem_In c l : mem c l = true <-> In c l.
Proof. unfold mem. destruct (in_dec ascii_dec c l); split; congruence. Qed.
Lemma mem_not c l : mem c l = false <-> ~ In c l.
Proof. unfold mem. destruct (in_dec ascii_dec c l); split; congruence. Qed.
Lemma first_not set b c s : Forall (fun c => In c set) b -> ~ In c set ->
  find_first_not_of set (b ++ c :: s) = Some (length b).
Proof.
  intros Hb Hc. apply mem_not in Hc. induction Hb as [|d b Hd _ IH]; cbn [app find_first_not_of length].
  - now rewrite Hc.
  - apply mem_In in Hd. now rewrite Hd, IH.
Qed.
Lemma first_not_none set b : Forall (fun c => In c set) b -> find_first_not_of set b = None.
Proof. induction 1 as [|d b Hd _ IH]; cbn; auto. apply mem_In in Hd. now rewrite Hd, IH. Qed.
Lemma last_not_none set b : Forall (fun c => In c set) b -> find_last_not_of set b = None.
Proof. induction 1 as [|d b Hd _ IH]; cbn; auto. apply mem_In in Hd. now rewrite IH, Hd. Qed.
Lemma last_not set s c b : Forall (fun c => In c set) b -> ~ In c set ->
  find_last_not_of set (s ++ c :: b) = Some (length s).
Proof.
  intros Hb Hc. apply mem_not in Hc. induction s as [|d s IH]; cbn [app find_last_not_of length].
  - now rewrite last_not_none, Hc.
  - now rewrite IH.
Qed.

Lemma upto_app a b c : ~ In c a -> upto (a ++ c :: b) (find_char c (a ++ c :: b)) = a.
Proof.
  intros H. rewrite find_char_app by auto. cbn [upto]. now rewrite firstn_app, firstn_all, Nat.sub_diag, firstn_O, app_nil_r.
Qed.
Lemma upto_none a c : ~ In c a -> upto a (find_char c a) = a.
Proof. intros H. now rewrite find_char_none. Qed.
Lemma blank_In c : blank c <-> In c blank_set. Proof. reflexivity. Qed.

Lemma nil_or_snoc {A} (s : list A) : s <> [] -> exists t c, s = t ++ [c].
Proof. intros H. destruct (exists_last H) as (t & c & ->). eauto. Qed.
Lemma trimmed_ends s : trimmed s -> exists c t d u, s = c :: t /\ s = u ++ [d] /\ ~ blank c /\ ~ blank d.
Proof.
  intros (Hne & Hf & Hl). destruct (nil_or_snoc Hne) as (u & d & E). destruct s as [|c t]; [congruence|].
  exists c, t, d, u. repeat split; auto; [eapply Hf; eauto|eapply Hl; eauto].
Qed.
Lemma trimmed_intro c t d u : c :: t = u ++ [d] -> ~ blank c -> ~ blank d -> trimmed (c :: t).
Proof.
  intros E Hc Hd. split; [discriminate|]. split.
  - intros c' t' [= <- _]. auto.
  - intros d' u' E'. rewrite E in E'. apply app_inj_tail in E'. destruct E' as (_ & <-). auto.
Qed.
Lemma cut_comment core com : ~ In "#"%char core -> comment com ->
  upto (core ++ com) (find_char "#" (core ++ com)) = core.
Proof.
  intros H [->|(t & ->)]; [rewrite app_nil_r; now apply upto_none|now apply upto_app].
Qed.
Lemma strip_core b1 core b4 com : all_of blank b1 -> all_of blank b4 -> comment com -> trimmed core ->
  ~ In "#"%char core -> strip_line (b1 ++ core ++ b4 ++ com) = Ok core.
Proof.
  intros H1 H4 Hcom Ht Hh.
  assert (Hb : forall b, all_of blank b -> ~ In "#"%char b).
  { intros b Hb HI. unfold all_of in Hb. rewrite Forall_forall in Hb. specialize (Hb _ HI).
    destruct Hb as [Hb|[Hb|[]]]; discriminate. }
  unfold strip_line.
  replace (b1 ++ core ++ b4 ++ com) with ((b1 ++ core ++ b4) ++ com) by now rewrite <- !app_assoc.
  rewrite cut_comment; auto.
  2:{ intros HI. apply in_app_iff in HI. destruct HI as [HI|HI]; [now apply (Hb b1)|].
      apply in_app_iff in HI. destruct HI as [HI|HI]; [auto|now apply (Hb b4)]. }
  destruct (trimmed_ends Ht) as (c & t & d & u & Ec & Ed & Hc & Hd).
  destruct (b1 ++ core ++ b4) as [|x y] eqn:Ex.
  { apply app_eq_nil in Ex. destruct Ex as (_ & Ex). apply app_eq_nil in Ex. destruct Ex as (Ex & _). congruence. }
  rewrite <- Ex. clear x y Ex.
  assert (E1 : find_first_not_of blank_set (b1 ++ core ++ b4) = Some (length b1)).
  { rewrite Ec. cbn [app]. now apply first_not. }
  assert (E2 : find_last_not_of blank_set (b1 ++ core ++ b4) = Some (length (b1 ++ u))).
  { rewrite Ed. rewrite <- app_assoc. cbn [app]. rewrite app_assoc. now apply last_not. }
  rewrite E1, E2. unfold substr. rewrite app_length.
  replace (length b1 <=? length b1 + length (core ++ b4)) with true by (symmetry; apply Nat.leb_le; lia).
  f_equal. rewrite skipn_app, skipn_all, Nat.sub_diag. cbn [app skipn].
  assert (El : length core = S (length u)) by (rewrite Ed, app_length; simpl; lia).
  rewrite app_length. replace (length b1 + length u - length b1 + 1) with (length core) by lia.
  now rewrite firstn_app, firstn_all, Nat.sub_diag, firstn_O, app_nil_r.
Qed.

Lemma space_in b : all_of space b -> Forall (fun c => In c [" "%char]) b.
Proof. apply Forall_impl. intros c ->. now left. Qed.
Lemma not_blank_not_space c : ~ blank c -> ~ In c [" "%char].
Proof. intros H [<-|[]]. apply H. now left. Qed.
Lemma substr_trim b s : all_of space b -> trimmed s ->
  substr (b ++ s) (find_first_not_of [" "%char] (b ++ s)) (succ_pos (find_last_not_of [" "%char] (b ++ s))) = Ok s.
Proof.
  intros Hb Ht. destruct (trimmed_ends Ht) as (c & t & d & u & Ec & Ed & Hc & Hd).
  assert (E1 : find_first_not_of [" "%char] (b ++ s) = Some (length b)).
  { rewrite Ec. apply first_not; [now apply space_in|now apply not_blank_not_space]. }
  assert (E2 : find_last_not_of [" "%char] (b ++ s) = Some (length (b ++ u))).
  { rewrite Ed. rewrite app_assoc. apply last_not; [constructor|now apply not_blank_not_space]. }
  rewrite E1, E2. unfold substr. cbn [succ_pos].
  rewrite app_length. replace (length b <=? length b + length s) with true by (symmetry; apply Nat.leb_le; lia).
  f_equal. rewrite skipn_app, skipn_all, Nat.sub_diag. cbn [app skipn].
  apply firstn_all2. rewrite app_length, Ed, app_length. simpl. lia.
Qed.
Lemma substr_trim_r b s : all_of space b -> trimmed s ->
  substr (s ++ b) (find_first_not_of [" "%char] (s ++ b)) (succ_pos (find_last_not_of [" "%char] (s ++ b))) = Ok s.
Proof.
  intros Hb Ht. destruct (trimmed_ends Ht) as (c & t & d & u & Ec & Ed & Hc & Hd).
  assert (E1 : find_first_not_of [" "%char] (s ++ b) = Some 0).
  { rewrite Ec. cbn [app]. apply (@first_not _ [] c (t ++ b)); [constructor|now apply not_blank_not_space]. }
  assert (E2 : find_last_not_of [" "%char] (s ++ b) = Some (length u)).
  { rewrite Ed. rewrite <- app_assoc. apply last_not; [now apply space_in|now apply not_blank_not_space]. }
  rewrite E1, E2. unfold substr. cbn [succ_pos skipn]. cbn [Nat.leb].
  f_equal. replace (S (length u)) with (length s) by (rewrite Ed, app_length; simpl; lia).
  now rewrite firstn_app, firstn_all, Nat.sub_diag, firstn_O, app_nil_r.
Qed.
Lemma key_value_core k b2 b3 v : all_of space b2 -> all_of space b3 -> trimmed k -> trimmed v ->
  ~ In ":"%char k -> key_value (k ++ b2 ++ ":"%char :: b3 ++ v) = Ok (k, v).
Proof.
  intros H2 H3 Hk Hv Hc. unfold key_value.
  assert (Hc2 : ~ In ":"%char (k ++ b2)).
  { intros HI. apply in_app_iff in HI. destruct HI as [HI|HI]; auto. unfold all_of in H2. rewrite Forall_forall in H2.
    specialize (H2 _ HI). unfold space in H2. discriminate H2. }
  rewrite app_assoc. rewrite upto_app by auto. rewrite find_char_app by auto. cbn [succ_pos].
  rewrite substr_trim_r by auto. cbn [obind].
  replace (skipn (S (length (k ++ b2))) ((k ++ b2) ++ ":"%char :: b3 ++ v)) with (b3 ++ v).
  2:{ rewrite skipn_app. rewrite skipn_all2 by lia. replace (S (length (k ++ b2)) - length (k ++ b2)) with 1 by lia. reflexivity. }
  rewrite substr_trim by auto. reflexivity.
Qed.

Lemma until_nul_id s : ~ In "000"%char s -> until_nul s = s.
Proof.
  induction s as [|c s IH]; intros H; cbn [until_nul]; auto.
  destruct (ascii_dec c Ascii.zero) as [->|_]; [exfalso; apply H; now left|].
  rewrite IH by (intros HI; apply H; now right). reflexivity.
Qed.

Section Lines.
  Variable D : Type.
  Variable atof : chars -> D.
  Variable cfg : build.
  Notation process := (process_line atof cfg).
  Notation parse_kv := (parse_key_value atof cfg).

  Lemma process_line_none o l : deck_line l None -> ~ In "000"%char l -> process o l = Ok o.
  Proof.
    intros H Hn. inversion H as [s Hc|]; subst. unfold process_line. rewrite until_nul_id by auto.
    destruct Hc as [->|(t & ->)]; reflexivity.
  Qed.
  Lemma process_line_some o l k v : deck_line l (Some (k, v)) -> ~ In "000"%char l ->
    process o l = parse_kv o k v.
  Proof.
    intros H Hn. inversion H as [|b1 k' b2 b3 v' b4 com H1 H2 H3 H4 Hcom Hk Hv Hhk Hhv Hck E]; subst.
    unfold process_line. rewrite until_nul_id by auto.
    replace (b1 ++ k ++ b2 ++ ":"%char :: b3 ++ v ++ b4 ++ com)
      with (b1 ++ (k ++ b2 ++ ":"%char :: b3 ++ v) ++ b4 ++ com)
      by (rewrite <- !app_assoc; cbn [app]; rewrite <- !app_assoc; reflexivity).
    rewrite strip_core; auto.
    - cbn [obind]. destruct (k ++ b2 ++ ":"%char :: b3 ++ v) as [|x y] eqn:E.
      + apply app_eq_nil in E. destruct E as (_ & E). apply app_eq_nil in E. destruct E as (_ & E). discriminate E.
      + rewrite <- E. rewrite key_value_core by auto. reflexivity.
    - destruct (trimmed_ends Hk) as (c & t & _ & _ & -> & _ & Hc & _).
      destruct (trimmed_ends Hv) as (_ & _ & d & u & _ & -> & _ & Hd).
      cbn [app]. eapply (@trimmed_intro c _ d (c :: t ++ b2 ++ ":"%char :: b3 ++ u)); auto.
      cbn [app]. rewrite <- !app_assoc. cbn [app]. now rewrite <- !app_assoc.
    - intros HI. apply in_app_iff in HI. destruct HI as [HI|HI]; auto.
      apply in_app_iff in HI. destruct HI as [HI|[HI|HI]]; try discriminate.
      + unfold all_of in H2. rewrite Forall_forall in H2. specialize (H2 _ HI). unfold space in H2. discriminate H2.
      + apply in_app_iff in HI. destruct HI as [HI|HI]; auto.
        unfold all_of in H3. rewrite Forall_forall in H3. specialize (H3 _ HI). unfold space in H3. discriminate H3.
  Qed.

  Lemma file_lines_nonempty s : file_lines s <> [].
  Proof.
    destruct s as [|c s]; cbn [file_lines]; [discriminate|]. destruct (ascii_dec c newline); [discriminate|].
    destruct (file_lines s); discriminate.
  Qed.
  Lemma file_lines_one l : ~ In newline l -> file_lines l = [l].
  Proof.
    induction l as [|c l IH]; intros H; cbn [file_lines]; auto.
    destruct (ascii_dec c newline) as [->|_]; [exfalso; apply H; now left|].
    rewrite IH by (intros HI; apply H; now right). reflexivity.
  Qed.
  Lemma file_lines_app l s : ~ In newline l -> file_lines (l ++ newline :: s) = l :: file_lines s.
  Proof.
    induction l as [|c l IH]; intros H; cbn [file_lines app].
    - destruct (ascii_dec newline newline); congruence.
    - destruct (ascii_dec c newline) as [->|_]; [exfalso; apply H; now left|].
      rewrite IH by (intros HI; apply H; now right). reflexivity.
  Qed.
  Lemma file_lines_unlines ls : ls <> [] -> Forall (fun l => ~ In "010"%char l) ls ->
    file_lines (unlines ls) = ls.
  Proof.
    induction ls as [|l [|l' ls] IH]; intros Hne H; [congruence| |].
    - cbn [unlines]. apply file_lines_one. now apply Forall_inv in H.
    - inversion_clear H. change (unlines (l :: l' :: ls)) with (l ++ "010"%char :: unlines (l' :: ls)).
      change "010"%char with newline. rewrite file_lines_app by auto. rewrite IH; auto. discriminate.
  Qed.

  Definition set_option o (kv : chars * chars) := parse_kv o (fst kv) (snd kv).
  Lemma read_lines_deck ls kvs : Forall2 deck_line ls kvs -> Forall text_line ls ->
    forall o, read_lines atof cfg o ls = Finished (ofold set_option (settings kvs) o).
  Proof.
    induction 1 as [|l kv ls kvs Hl _ IH]; intros Ht o; [reflexivity|].
    inversion_clear Ht as [|? ? (Hlen & Hnl & Hnul) Ht']. cbn [read_lines].
    replace (length l <? max_chars_per_line) with true by (symmetry; apply Nat.ltb_lt; exact Hlen).
    destruct kv as [[k v]|]; cbn [settings ofold].
    - rewrite (process_line_some o Hl Hnul). unfold set_option at 1. cbn [fst snd].
      destruct (parse_kv o k v); cbn [obind]; auto.
    - rewrite (process_line_none o Hl Hnul). auto.
  Qed.
End Lines.
