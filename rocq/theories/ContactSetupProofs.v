From Coq Require Import NArith.
From Verif Require Import Base Strings InputModel InputSpec InputProofs InputProofs2 ContactSetupModel ContactSetupSpec.
Local Close Scope string_scope.
Local Open Scope list_scope.
Set Implicit Arguments.

Lemma next_word_word b w s : all_of white b -> w <> [] -> none_of white w -> (s = [] \/ exists c r, s = c :: r /\ white c) ->
  next_word (b ++ w ++ s, true) = (w, (s, match s with [] => false | _ => true end)).
Proof.
  intros Hb Hn Hw Hs. unfold next_word. cbn [fst snd]. rewrite skip_ws_white by auto.
  assert (E : skip_ws (w ++ s) = w ++ s) by (destruct w; [congruence|]; cbn [app]; apply skip_ws_nonwhite; now inversion Hw).
  rewrite E. assert (U : until_ws (w ++ s) = w).
  { rewrite until_ws_app by auto. destruct Hs as [->|(c & r & -> & Hc)]; simpl; [apply app_nil_r|]. apply isspace_white in Hc. rewrite Hc. apply app_nil_r. }
  destruct (w ++ s) as [|c0 l] eqn:Ew; [destruct w; [congruence|discriminate]|]. rewrite U, <- Ew.
  replace (skipn (length w) (w ++ s)) with s; [reflexivity|]. clear. induction w; simpl; auto.
Qed.
Lemma next_word_blank s : all_of white s -> next_word (s, true) = ([], ([], false)).
Proof. intros H. unfold next_word. cbn [fst snd]. rewrite <- (app_nil_r s), skip_ws_white by auto. reflexivity. Qed.
Lemma text_cases s : all_of white s \/ exists b w t, s = b ++ w ++ t /\ all_of white b /\ w <> [] /\ none_of white w /\ (t = [] \/ exists c r, t = c :: r /\ white c).
Proof.
  destruct (skip_ws_split s) as (b & E & Hb & Hs). destruct (skip_ws s) as [|c r] eqn:Ek.
  - left. rewrite E. rewrite app_nil_r. exact Hb.
  - right. destruct (until_ws_cut (c :: r)) as [H|(t & d & u & Et & Ht & Hd)].
    + exists b, (c :: r), []. rewrite app_nil_r. repeat split; auto. discriminate.
    + exists b, t, (d :: u). rewrite <- Et. repeat split; auto; [|right; eauto].
      intros ->. simpl in Et. injection Et as -> ->. contradiction.
Qed.
Lemma phrase_app s ws t ws' u : phrase s ws t -> phrase t ws' u -> phrase s (ws ++ ws') u.
Proof. induction 1; intros; auto. cbn [app]. apply ph_word; auto. Qed.
Lemma phrase_length s ws t : phrase s ws t -> length t + length ws <= length s.
Proof. induction 1 as [s|b w s ws rest _ Hw _ _ _ IH]; simpl; [lia|]. rewrite !app_length. destruct w; [congruence|]. simpl. lia. Qed.

(** the words up to the first key *)
Lemma names_sound key : key [] = false -> forall fuel s names st, length s < fuel ->
  names_until key fuel (s, match s with [] => false | _ => true end) = (names, (true, st)) ->
  exists k rest, phrase s (names ++ [k]) rest /\ key k = true /\ Forall (fun w => key w = false) names /\ st = (rest, match rest with [] => false | _ => true end).
Proof.
  intros K0. induction fuel as [|fuel IH]; intros s names st Hl; [lia|]. simpl. destruct s as [|c0 s0]; [discriminate|]. remember (c0 :: s0) as s eqn:Es. clear Es c0 s0.
  simpl snd. cbv iota. destruct (text_cases s) as [H|(b & w & t & -> & Hb & Hn & Hw & Ht)].
  - rewrite next_word_blank by auto. rewrite K0. destruct fuel; simpl; intros; discriminate.
  - rewrite (@next_word_word b w t Hb Hn Hw Ht). destruct (key w) eqn:Ek.
    + intros [= <- <-]. exists w, t. repeat split; auto. simpl. apply ph_word; auto. constructor.
    + destruct (names_until key fuel (t, _)) as [l [f st']] eqn:E. intros [= <- -> ->].
      apply IH in E; [|rewrite !app_length in Hl; destruct w; [congruence|]; simpl in Hl; lia].
      destruct E as (k & rest & H1 & H2 & H3 & H4). exists k, rest. repeat split; auto. simpl. apply ph_word; auto.
Qed.
Lemma names_complete key k rest : key k = true -> forall names fuel s, length s < fuel -> phrase s (names ++ [k]) rest -> Forall (fun w => key w = false) names ->
  names_until key fuel (s, match s with [] => false | _ => true end) = (names, (true, (rest, match rest with [] => false | _ => true end))).
Proof.
  intros Hk. induction names as [|w names IH]; intros fuel s Hl H Hn; simpl in H; (destruct fuel as [|fuel]; [lia|]); inversion H as [|b w' t ws' r' Hb Hw1 Hw2 Ht H' E1 E2 E3]; subst; simpl.
  - assert (Eg : forall X, match b ++ k ++ t with [] => false | _ :: _ => true end = X -> X = true) by (intros X <-; destruct b, k; simpl; congruence).
    rewrite (Eg _ eq_refl). cbv iota. rewrite next_word_word by auto. rewrite Hk. inversion H'; subst. reflexivity.
  - assert (Eg : forall X, match b ++ w ++ t with [] => false | _ :: _ => true end = X -> X = true) by (intros X <-; destruct b, w; simpl; congruence).
    rewrite (Eg _ eq_refl). cbv iota. rewrite next_word_word by auto. inversion_clear Hn as [|? ? Hn1 Hn2]. rewrite Hn1.
    rewrite (IH fuel t); auto. rewrite !app_length in Hl. destruct w; [congruence|]. simpl in Hl. lia.
Qed.
Lemma key_of k l1 l2 : chars_eqb k l1 || chars_eqb k l2 = true <-> In k [l1; l2].
Proof. rewrite Bool.orb_true_iff, !chars_eqb_eq. simpl. intuition. Qed.
Lemma value_sound {D} (rdouble : chars -> option D) zero rest : value_after rdouble zero rest (next_double rdouble zero (rest, match rest with [] => false | _ => true end)).
Proof.
  unfold value_after, next_double. cbn [fst snd]. destruct (skip_ws_split rest) as (b & E & Hb & Hs). destruct (skip_ws rest) as [|c r].
  - left. split; [rewrite E, app_nil_r; exact Hb|]. destruct rest; reflexivity.
  - right. exists b, c, r. split; [exact E|]. split; [exact Hb|]. split; [exact Hs|]. destruct rest; [destruct b; discriminate|reflexivity].
Qed.
Lemma value_complete {D} (rdouble : chars -> option D) zero rest x : value_after rdouble zero rest x -> next_double rdouble zero (rest, match rest with [] => false | _ => true end) = x.
Proof.
  unfold next_double. cbn [fst snd]. intros [[H ->]|(b & c & s & -> & Hb & Hc & ->)].
  - rewrite <- (app_nil_r rest), skip_ws_white by auto. now destruct (rest ++ []).
  - rewrite skip_ws_white, skip_ws_nonwhite by auto. assert (Eg : forall X, match b ++ c :: s with [] => false | _ :: _ => true end = X -> X = true) by (intros X <-; destruct b; reflexivity).
    rewrite (Eg _ eq_refl). reflexivity.
Qed.
Lemma parse_iff {D} (rdouble : chars -> option D) zero text P S x :
  parse_contact_command rdouble zero text = Ok (P, S, x) <->
  exists pk sk rest, In pk primary_keys /\ In sk secondary_keys /\
    phrase text (pk :: P ++ sk :: S ++ [lit "penalty_parameter"]) rest /\
    (forall w, In w P -> ~ In w secondary_keys) /\ ~ In (lit "penalty_parameter") S /\ value_after rdouble zero rest x.
Proof.
  assert (F1 : forall P, Forall (fun w => is_secondary w = false) P <-> (forall w, In w P -> ~ In w secondary_keys)).
  { intros l. rewrite Forall_forall. split; intros H w Hw; specialize (H w Hw).
    - intros Hi. apply key_of in Hi. fold (is_secondary w) in Hi. congruence.
    - destruct (is_secondary w) eqn:E; auto. apply key_of in E. contradiction. }
  assert (F2 : forall S, Forall (fun w => is_penalty w = false) S <-> ~ In (lit "penalty_parameter") S).
  { intros l. rewrite Forall_forall. split; intros H.
    - intros Hi. specialize (H _ Hi). unfold is_penalty in H. rewrite chars_eqb_refl in H. discriminate.
    - intros w Hw. destruct (is_penalty w) eqn:E; auto. apply chars_eqb_eq in E. subst. contradiction. }
  split.
  - unfold parse_contact_command. cbv zeta. destruct (text_cases text) as [H|(b & w & t & -> & Hb & Hn & Hw & Ht)].
    { rewrite next_word_blank by auto. discriminate. }
    rewrite next_word_word by auto. destruct (is_primary w) eqn:E0; [|discriminate]. apply key_of in E0.
    destruct (names_until is_secondary _ _) as [P' [[] st]] eqn:E1; [|discriminate]. apply names_sound in E1; [|reflexivity|rewrite !app_length; lia].
    destruct E1 as (sk & r1 & Q1 & K1 & N1 & ->). destruct (names_until is_penalty _ _) as [S' [[] st]] eqn:E2; [|discriminate].
    pose proof (phrase_length Q1) as L1. apply names_sound in E2; [|reflexivity|rewrite !app_length; lia]. destruct E2 as (pp & r2 & Q2 & K2 & N2 & ->). intros [= <- <- <-].
    apply chars_eqb_eq in K2. subst pp. exists w, sk, r2. split; [exact E0|]. split; [apply key_of; exact K1|]. split; [|split; [now apply F1|split; [now apply F2|apply value_sound]]].
    apply ph_word; auto. replace (P' ++ sk :: S' ++ [lit "penalty_parameter"]) with ((P' ++ [sk]) ++ (S' ++ [lit "penalty_parameter"])) by (rewrite <- app_assoc; reflexivity). eapply phrase_app; eauto.
  - intros (pk & sk & rest & H1 & H2 & H3 & H4 & H5 & H6). inversion H3 as [|b w t ws r Hb Hn Hw Ht H' E1 E2 E3]; subst.
    assert (Sp : exists u, phrase t (P ++ [sk]) u /\ phrase u (S ++ [lit "penalty_parameter"]) rest).
    { clear - H'. revert t H'. induction P as [|p P IH]; simpl; intros t H; inversion H; subst.
      - eexists. split; [apply ph_word; eauto; constructor|assumption].
      - match goal with Q : phrase _ (P ++ _) _ |- _ => destruct (IH _ Q) as (u & U1 & U2) end. exists u. split; auto. apply ph_word; auto. }
    destruct Sp as (u & U1 & U2). unfold parse_contact_command. cbv zeta. rewrite next_word_word by auto.
    rewrite (proj2 (key_of _ _ _) H1 : is_primary pk = true). pose proof (phrase_length U1) as L1. 
    rewrite (@names_complete is_secondary sk u (proj2 (key_of _ _ _) H2) P _ t); [|rewrite !app_length; lia|exact U1|now apply F1].
    rewrite (@names_complete is_penalty (lit "penalty_parameter") rest (chars_eqb_refl _) S _ u); [|rewrite !app_length; lia|exact U2|now apply F2].
    now rewrite (value_complete H6).
Qed.
