(** Facts about the string operations of InputModel.v, file names, tokens. *)
From Verif Require Import Base ListLemmas Strings InputSpec InputModel.
From Coq Require Import NArith.
Local Close Scope string_scope.
Local Open Scope list_scope.
Set Implicit Arguments.
Notation length := List.length.

Lemma isspace_white c : isspace c = true <-> white c.
Proof.
  unfold white. split.
  - intros H. unfold isspace in H.
    assert (E : In (N_of_ascii c) [32; 9; 10; 11; 12; 13]%N) by (simpl; lia).
    rewrite <- (ascii_N_embedding c). simpl in E.
    destruct E as [E|[E|[E|[E|[E|[E|[]]]]]]]; rewrite <- E; vm_compute; tauto.
  - intros [E|[E|[E|[E|[E|[E|[]]]]]]]; rewrite <- E; reflexivity.
Qed.
Lemma isspace_not c : isspace c = false <-> ~ white c.
Proof. rewrite <- isspace_white. destruct (isspace c); split; congruence. Qed.
Lemma isspace_space : isspace " " = true. Proof. reflexivity. Qed.
Lemma isspace_digit c : is_digit c = true -> isspace c = false.
Proof. unfold is_digit, isspace. lia. Qed.
Lemma upper_toupper c : toupper c = upper c. Proof. reflexivity. Qed.

Lemma chars_eqb_refl a : chars_eqb a a = true. Proof. now apply chars_eqb_eq. Qed.
Lemma chars_eqb_false a b : chars_eqb a b = false <-> a <> b.
Proof. rewrite <- chars_eqb_eq. destruct (chars_eqb a b); split; congruence. Qed.

(** ** skip_ws, until_ws *)
Lemma skip_ws_white b s : all_of white b -> skip_ws (b ++ s) = skip_ws s.
Proof.
  induction 1 as [|c b H _ IH]; simpl; auto. apply isspace_white in H. now rewrite H.
Qed.
Lemma skip_ws_nonwhite c s : ~ white c -> skip_ws (c :: s) = c :: s.
Proof. intros H. apply isspace_not in H. simpl. now rewrite H. Qed.
Lemma skip_ws_split s : exists b, s = b ++ skip_ws s /\ all_of white b /\
  match skip_ws s with [] => True | c :: _ => ~ white c end.
Proof.
  induction s as [|c s (b & E & Hb & Hh)]; simpl.
  - exists []. repeat split; constructor.
  - destruct (isspace c) eqn:Ec.
    + exists (c :: b). split; [simpl; congruence|]. split; [|auto].
      constructor; auto. now apply isspace_white.
    + exists []. split; auto. split; [constructor|]. now apply isspace_not.
Qed.
Lemma ltrimmed_skip s t : ltrimmed s t <-> t = skip_ws s.
Proof.
  split.
  - intros (b & -> & Hb & Ht). rewrite skip_ws_white by auto.
    destruct t as [|c t]; auto. now rewrite skip_ws_nonwhite.
  - intros ->. destruct (skip_ws_split s) as (b & E & H1 & H2). now exists b.
Qed.
Lemma until_ws_nonwhite s : none_of white s -> until_ws s = s.
Proof. induction 1 as [|c s H _ IH]; simpl; auto. apply isspace_not in H. now rewrite H, IH. Qed.
Lemma until_ws_app s t : none_of white s -> until_ws (s ++ t) = s ++ until_ws t.
Proof. induction 1 as [|c s H _ IH]; simpl; auto. apply isspace_not in H. now rewrite H, IH. Qed.
Lemma until_ws_stop s c t : white c -> until_ws (s ++ c :: t) = until_ws s.
Proof.
  intros H. apply isspace_white in H. induction s as [|d s IH]; simpl; [now rewrite H|].
  destruct (isspace d); auto. now rewrite IH.
Qed.
Lemma skip_ws_id s : none_of white s -> skip_ws s = s.
Proof. intros H. destruct s as [|c s]; auto. inversion_clear H. now apply skip_ws_nonwhite. Qed.
Lemma skip_ws_app s t : skip_ws s <> [] -> skip_ws (s ++ t) = skip_ws s ++ t.
Proof.
  induction s as [|c s IH]; simpl; [congruence|]. destruct (isspace c); auto.
Qed.

(** ** Decimal numbers *)
Lemma dec_white n : none_of white (dec n).
Proof.
  pose proof (dec_digits n) as H. unfold none_of. rewrite Forall_forall in *. intros c Hc.
  apply isspace_not, isspace_digit, H, Hc.
Qed.
Lemma digits_length n s : digits_of n s -> length (dec n) <= length s \/ n = 0%N.
Proof.
  intros (Hd & <-). destruct (N.eq_dec (undec s) 0) as [|Hz]; [auto|left].
  pose proof (undec_bound _ Hd) as Hu. pose proof (dec_lower (undec s) ltac:(lia)) as Hl.
  assert (H : (10 ^ N.of_nat (length (dec (undec s)) - 1) < 10 ^ N.of_nat (length s))%N) by lia.
  apply N.pow_lt_mono_r_iff in H; [|lia]. lia.
Qed.
Lemma dec_decimal n : (0 < n)%N -> decimal n (dec n).
Proof.
  intros Hn. split; [split; [apply dec_digits|apply undec_dec]|]. intros s' H.
  destruct (digits_length H); lia.
Qed.
Lemma decimal_length n c : (0 < n)%N -> decimal n c -> length c = length (dec n).
Proof.
  intros Hn (Hc & Hmin). pose proof (Hmin (dec n) ltac:(split; [apply dec_digits|apply undec_dec])).
  destruct (digits_length Hc); lia.
Qed.
Definition padded (count index : N) : chars :=
  repeat (digit 0) (length (dec count) - length (dec index)) ++ dec index.
Lemma padded_digits count index : digits_of index (padded count index).
Proof.
  unfold padded. split.
  - apply Forall_app. split; [|apply dec_digits]. apply Forall_forall. intros c Hc.
    apply repeat_spec in Hc. subst. reflexivity.
  - rewrite undec_app_zeros. apply undec_dec.
Qed.
Lemma padded_length count index : (index < count)%N -> length (padded count index) = length (dec count).
Proof.
  intros H. unfold padded. rewrite app_length, repeat_length.
  pose proof (dec_length_mono index count ltac:(lia)). lia.
Qed.
Lemma padded_inj count i j : padded count i = padded count j -> i = j.
Proof.
  intros H. pose proof (padded_digits count i) as (_ & <-). pose proof (padded_digits count j) as (_ & <-).
  now rewrite H.
Qed.
Lemma padded_white count i : none_of white (padded count i).
Proof.
  destruct (padded_digits count i) as (H & _). unfold none_of. rewrite Forall_forall in *. intros c Hc.
  apply isspace_not, isspace_digit, H, Hc.
Qed.
Lemma rank_suffix_of count i : (i < count)%N -> (1 < count)%N ->
  rank_suffix count i (lit "." ++ dec count ++ lit "." ++ padded count i).
Proof.
  intros Hi Hc. exists (dec count), (padded count i). split; auto.
  split; [apply dec_decimal; lia|]. split; [apply padded_digits|now apply padded_length].
Qed.
Lemma dot_not_digit c : is_digit c = true -> c <> "."%char.
Proof. intros H ->. discriminate. Qed.
Lemma app_inj_length {A} (a b c d : list A) : length a = length c -> a ++ b = c ++ d -> a = c /\ b = d.
Proof.
  revert c. induction a as [|x a IH]; intros [|y c] Hl E; simpl in *; try lia; auto.
  injection E as <- E. destruct (IH c) as (-> & ->); auto.
Qed.
(** suffixes of different (count, index) pairs differ *)
Lemma rank_suffix_index count i s j : rank_suffix count i s -> rank_suffix count j s -> (1 < count)%N -> i = j.
Proof.
  intros (c & ci & -> & Hc & (Hi & <-) & _) (c' & cj & E & Hc' & (Hj & <-) & _) Hn.
  apply app_inv_head in E.
  assert (Hp : (0 < count)%N) by lia. pose proof (decimal_length Hp Hc). pose proof (decimal_length Hp Hc').
  assert (Hl : length c = length c') by congruence. destruct (@app_inj_length _ c _ c' _ Hl E) as (_ & E'). apply app_inv_head in E'. now subst.
Qed.

(** ** IOFileName *)
Definition serial_stem (serial extension label : chars) : chars :=
  io_file_name serial extension label 0 1.
Lemma io_serial serial e l r n : (n <= 1)%N -> io_file_name serial e l r n = serial_stem serial e l.
Proof.
  intros H. unfold serial_stem, io_file_name. destruct (chars_eqb serial (lit "none")); auto.
  change (1 <? 1)%N with false. replace (1 <? n)%N with false by lia. reflexivity.
Qed.
Lemma io_parallel serial e l r n : serial <> lit "none" -> (1 < n)%N ->
  io_file_name serial e l r n =
  until_ws (skip_ws (serial_stem serial e l ++ lit "." ++ dec n ++ lit "." ++ padded n r)).
Proof.
  intros Hs H. unfold serial_stem, io_file_name. apply chars_eqb_false in Hs. rewrite Hs.
  change (1 <? 1)%N with false. replace (1 <? n)%N with true by lia. unfold padded.
  rewrite <- ?app_assoc. reflexivity.
Qed.
Lemma stem_dot serial e l : serial <> lit "none" -> exists f, serial_stem serial e l = f ++ lit "." ++ e.
Proof.
  intros Hs. unfold serial_stem, io_file_name. apply chars_eqb_false in Hs. rewrite Hs.
  change (1 <? 1)%N with false. cbv iota. eexists. reflexivity.
Qed.
Lemma dot_not_white : ~ white "."%char. Proof. now apply isspace_not. Qed.
Lemma stem_trim serial e l : serial <> lit "none" -> skip_ws (serial_stem serial e l) <> [].
Proof.
  intros Hs. destruct (stem_dot e l Hs) as (f & ->).
  destruct (skip_ws_split f) as (b & E & Hb & Hh). rewrite E, <- app_assoc.
  rewrite skip_ws_white by auto. destruct (skip_ws f) as [|c t].
  - rewrite app_nil_l. change (lit "." ++ e) with ("."%char :: e). rewrite skip_ws_nonwhite by apply dot_not_white.
    discriminate.
  - cbn [app]. rewrite skip_ws_nonwhite by auto. discriminate.
Qed.
Lemma suffix_white n r : none_of white (lit "." ++ dec n ++ lit "." ++ padded n r).
Proof.
  apply Forall_app; split; [constructor; [apply dot_not_white|constructor]|].
  apply Forall_app; split; [apply dec_white|].
  apply Forall_app; split; [constructor; [apply dot_not_white|constructor]|]. apply padded_white.
Qed.

Lemma until_ws_cut s : none_of white s \/ exists t c u, s = t ++ c :: u /\ none_of white t /\ white c.
Proof.
  induction s as [|c s IH]; [left; constructor|]. destruct (isspace c) eqn:E.
  - right. exists [], c, s. split; [reflexivity|]. split; [constructor|now apply isspace_white].
  - apply isspace_not in E. destruct IH as [IH|(t & d & u & -> & Ht & Hd)].
    + left. now constructor.
    + right. exists (c :: t), d, u. split; [reflexivity|]. split; [now constructor|auto].
Qed.

(** the name of a rank in a parallel run, when the serial name has no inner white space *)
Lemma io_parallel_trim serial e l r n : serial <> lit "none" -> (1 < n)%N ->
  none_of white (skip_ws (serial_stem serial e l)) ->
  io_file_name serial e l r n = skip_ws (serial_stem serial e l) ++ lit "." ++ dec n ++ lit "." ++ padded n r.
Proof.
  intros Hs Hn Hw. rewrite io_parallel by auto. rewrite skip_ws_app by now apply stem_trim.
  rewrite until_ws_nonwhite; auto. apply Forall_app. split; auto. apply suffix_white.
Qed.
(** .. and when it has *)
Lemma io_parallel_cut serial e l n : serial <> lit "none" -> (1 < n)%N ->
  ~ none_of white (skip_ws (serial_stem serial e l)) ->
  forall r r', io_file_name serial e l r n = io_file_name serial e l r' n.
Proof.
  intros Hs Hn Hw r r'. rewrite !io_parallel by auto. rewrite !skip_ws_app by now apply stem_trim.
  destruct (until_ws_cut (skip_ws (serial_stem serial e l))) as [H|(t & c & u & E & Ht & Hc)]; [contradiction|].
  rewrite E, <- !app_assoc. cbn [app]. now rewrite !until_ws_stop.
Qed.

Lemma rfind_le p s n : rfind_str p s = Some n -> n <= length s.
Proof.
  revert n. induction s as [|d s IH]; intros n; cbn [rfind_str].
  - destruct p; [|discriminate]. intros [= <-]. simpl. lia.
  - destruct (rfind_str p s) as [m|]; [|destruct (starts_with p (d :: s)); intros H; [|discriminate]].
    + intros [= <-]. specialize (IH m eq_refl). simpl. lia.
    + injection H as <-. simpl. lia.
Qed.
Lemma upto_prefix s o : exists t, s = upto s o ++ t.
Proof.
  destruct o as [n|]; simpl; [|exists []; now rewrite app_nil_r].
  exists (skipn n s). symmetry. apply firstn_skipn.
Qed.
Lemma stem_form serial e l : serial <> lit "none" -> exists base cut,
  serial = base ++ cut /\
  serial_stem serial e l = base ++ match l with [] => [] | _ => lit "." ++ l end ++ lit "." ++ e.
Proof.
  intros Hs. unfold serial_stem, io_file_name. apply chars_eqb_false in Hs. rewrite Hs.
  change (1 <? 1)%N with false. cbv iota zeta.
  set (f := upto serial (rfind_str (lit ".g") serial)).
  destruct (upto_prefix serial (rfind_str (lit ".g") serial)) as (t & Et). fold f in Et.
  destruct (upto_prefix f (rfind_str (lit ".e") f)) as (u & Eu).
  set (g := upto f (rfind_str (lit ".e") f)) in *.
  exists g, (u ++ t). split; [rewrite app_assoc; congruence|].
  destruct l; rewrite <- ?app_assoc; reflexivity.
Qed.

(** ** IOFileNameThreadSafe *)
Lemma index_suffix_ok f i n : (i < n)%N \/ (n <= 1)%N ->
  index_suffix f i n = Ok (f ++ if (1 <? n)%N then lit "." ++ dec n ++ lit "." ++ padded n i else []).
Proof.
  intros H. unfold index_suffix. destruct (N.ltb_spec 1 n) as [Hn|Hn]; [|now rewrite app_nil_r].
  assert (Hi : (i < n)%N) by lia. pose proof (dec_length_mono i n ltac:(lia)).
  replace (length (dec n) <? length (dec i)) with false by (symmetry; apply Nat.ltb_ge; lia). reflexivity.
Qed.
Definition thread_stem (serial e l : chars) : chars :=
  let f := if 2 <? length serial then firstn (length serial - 2) serial else serial in
  let f := match l with [] => f | _ => f ++ lit "." ++ l end in
  match e with [] => f | _ => f ++ lit "." ++ e end.
Lemma thread_safe_name serial e l r n t m : ((r < n)%N \/ (n <= 1)%N) -> ((t < m)%N \/ (m <= 1)%N) ->
  io_file_name_thread_safe serial e l r n t m =
  Ok (thread_stem serial e l
      ++ (if (1 <? n)%N then lit "." ++ dec n ++ lit "." ++ padded n r else [])
      ++ (if (1 <? m)%N then lit "." ++ dec m ++ lit "." ++ padded m t else [])).
Proof.
  intros Hr Ht. unfold io_file_name_thread_safe. fold (thread_stem serial e l).
  rewrite index_suffix_ok by auto. cbn [obind]. rewrite index_suffix_ok by auto. now rewrite <- app_assoc.
Qed.
