(** Boundary condition lines, visualisation values, rfind for file suffixes. *)
From Verif Require Import Base ListLemmas Strings InputSpec InputModel InputProofs InputProofs2 InputProofs3.
From Coq Require Import NArith.
Local Close Scope string_scope.
Local Open Scope list_scope.
Set Implicit Arguments.
Notation length := List.length.

Lemma words_unwords_app ws r : Forall plain_word ws -> ws <> [] ->
  words None (unwords ws ++ " "%char :: r) = ws ++ words None r.
Proof.
  induction ws as [|w [|w' ws] IH]; intros H Hne; [congruence| |].
  - apply Forall_inv in H. destruct H as (Hn & Hw & _). cbn [unwords app].
    rewrite words_word; [|auto|auto|right; eexists _, _; split; [reflexivity|now left]].
    reflexivity.
  - inversion_clear H as [|? ? Hp Hps]. destruct Hp as (Hn & Hw & _). rewrite unwords_cons, <- app_assoc. cbn [app].
    rewrite words_word; [|auto|auto|right; eexists _, _; split; [reflexivity|now left]].
    f_equal. cbn [words]. rewrite isspace_space. rewrite IH by (auto; discriminate). reflexivity.
Qed.

Lemma count_app c a b : count_char c (a ++ b) = count_char c a + count_char c b.
Proof. induction a as [|d a IH]; cbn [app count_char]; auto. rewrite IH. lia. Qed.
Lemma count_zero c a : ~ In c a -> count_char c a = 0.
Proof.
  induction a as [|d a IH]; intros H; cbn [count_char]; auto.
  destruct (ascii_dec d c) as [->|]; [exfalso; apply H; now left|].
  rewrite IH; auto. intros HI. apply H. now right.
Qed.
Lemma quoted_part_ok pre e post : noquote pre -> noquote e -> noquote post ->
  quoted_part (pre ++ quote :: e ++ quote :: post) = e.
Proof.
  intros Hp He Hq. unfold quoted_part, rfind_char. rewrite find_char_app by auto.
  replace (pre ++ quote :: e ++ quote :: post) with ((pre ++ quote :: e) ++ quote :: post)
    by (rewrite <- app_assoc; reflexivity).
  rewrite rfind_char_last by auto. rewrite app_length. cbn [length].
  replace (length pre + S (length e) - length pre - 1) with (length e) by lia.
  replace (length pre + 1) with (S (length pre)) by lia.
  rewrite <- app_assoc. cbn [app]. rewrite skipn_S_prefix. apply firstn_prefix.
Qed.
Lemma quote_count pre e post : noquote pre -> noquote e -> noquote post ->
  count_char quote (pre ++ quote :: e ++ quote :: post) = 2.
Proof.
  intros Hp He Hq.
  change (pre ++ quote :: e ++ quote :: post) with (pre ++ [quote] ++ e ++ [quote] ++ post).
  rewrite !count_app. rewrite (@count_zero quote pre), (@count_zero quote e), (@count_zero quote post) by auto. reflexivity.
Qed.

Lemma find_name_in (m : list (Z * chars)) id name : NoDup (map snd m) -> In (id, name) m ->
  find_name_id m name = id.
Proof.
  unfold find_name_id. induction m as [|[i s] m IH]; intros Hd Hin; [destruct Hin|].
  cbn [find snd]. inversion_clear Hd as [|? ? Hn Hd'].
  destruct Hin as [[= -> ->]|Hin]; [now rewrite chars_eqb_refl|].
  destruct (chars_eqb s name) eqn:E; [|now apply IH].
  apply chars_eqb_eq in E. subst. exfalso. apply Hn. apply in_map_iff. now exists (id, name).
Qed.
Lemma find_name_absent (m : list (Z * chars)) name : (forall id, ~ In (id, name) m) -> find_name_id m name = (-1)%Z.
Proof.
  unfold find_name_id. induction m as [|[i s] m IH]; intros H; [reflexivity|]. cbn [find snd].
  destruct (chars_eqb s name) eqn:E; [apply chars_eqb_eq in E; subst; exfalso; apply (H i); now left|].
  apply IH. intros id HI. apply (H id). now right.
Qed.

(** ".g" / ".e" suffixes *)
Definition occurs (p s : chars) : Prop := exists a b, s = a ++ p ++ b.
Lemma suffix_rfind p base : p <> [] -> rfind_str p (base ++ p) = Some (length base).
Proof.
  intros Hp. rewrite <- (app_nil_r p) at 2. apply rfind_last; auto.
  - intros x y E. apply (f_equal (@length _)) in E. rewrite !app_length in E. simpl in E.
    destruct p; [congruence|simpl in E; lia].
  - intros x y Hx E. apply (f_equal (@length _)) in E. rewrite !app_length in E. simpl in E.
    destruct x; [congruence|simpl in E; lia].
Qed.
Lemma absent_rfind p s : p <> [] -> ~ occurs p s -> rfind_str p s = None.
Proof. intros Hp H. apply rfind_absent; auto. intros a b E. apply H. now exists a, b. Qed.

(** strings_are_equal: common prefix *)
Lemma strings_loop_prefix a b : length a <= length b ->
  strings_loop (length a) a b = true <-> exists t, b = a ++ t.
Proof.
  revert b; induction a as [|c a IH]; intros [|d b] H; cbn [strings_loop length] in *; try lia.
  - split; intros _; [exists []; reflexivity|reflexivity].
  - split; intros _; [exists (d :: b); reflexivity|reflexivity].
  - destruct (ascii_dec c d) as [->|Hn].
    + rewrite IH by lia. split; intros (t & E); exists t; cbn [app] in *; congruence.
    + split; [discriminate|]. intros (t & E). cbn [app] in E. congruence.
Qed.
Lemma strings_loop_sym n a b : strings_loop n a b = strings_loop n b a.
Proof.
  revert a b; induction n as [|n IH]; intros [|c a] [|d b]; cbn [strings_loop]; auto.
  destruct (ascii_dec c d), (ascii_dec d c); congruence.
Qed.
Lemma strings_are_equal_prefix a b : strings_are_equal a b = true <->
  (exists t, b = a ++ t) \/ (exists t, a = b ++ t).
Proof.
  unfold strings_are_equal. destruct (Nat.ltb_spec (length a) (length b)).
  - rewrite strings_loop_prefix by lia. split; [auto|]. intros [Ht|(t & E)]; auto.
    apply (f_equal (@length _)) in E. rewrite app_length in E. lia.
  - rewrite strings_loop_sym, strings_loop_prefix by lia. split; [auto|]. intros [(t & E)|Ht]; auto.
    exists []. assert (Hl := f_equal (@length _) E). rewrite app_length in Hl.
    destruct t; [|simpl in Hl; lia]. rewrite app_nil_r in *. auto.
Qed.
