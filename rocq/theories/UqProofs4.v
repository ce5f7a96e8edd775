(** Reading the uncertain parameters and the samples file. *)
From Coq Require Import NArith Reals.
From Verif Require Import Base Strings InputModel InputSpec InputProofs InputProofs2 MeshTextModel MeshTextSpec MeshTextProofs MeshTextProofs2 Loops ListLemmas BcModel BcSpec BcProofs IntegratorModel UqModel UqSpec UqProofs UqProofs2.
Set Implicit Arguments.
Local Open Scope nat_scope.
Local Open Scope list_scope.
Local Notation length := List.length.

Lemma words_unwords' ws : Forall word ws -> words None (unwords ws) = ws.
Proof.
  induction ws as [|w [|w' ws] IH]; intros H; [reflexivity| |].
  - apply Forall_inv in H. destruct H as (Hne & Hw). cbn [unwords].
    rewrite <- (app_nil_r w) at 1. now rewrite words_word by auto.
  - inversion_clear H as [|? ? Hp Hps]. destruct Hp as (Hne & Hw). rewrite unwords_cons.
    rewrite words_word; [|auto|auto|right; eexists _, _; split; [reflexivity|now left]].
    f_equal. change (" "%char :: unwords (w' :: ws)) with ([" "%char] ++ unwords (w' :: ws)).
    rewrite words_white by (constructor; [now left|constructor]). auto.
Qed.
Lemma words_unwords_app' ws r : Forall word ws -> words None (unwords ws ++ " "%char :: r) = ws ++ words None r.
Proof.
  induction ws as [|w [|w' ws] IH]; intros H.
  - reflexivity.
  - apply Forall_inv in H. destruct H as (Hn & Hw). cbn [unwords app].
    rewrite words_word; [|auto|auto|right; eexists _, _; split; [reflexivity|now left]].
    reflexivity.
  - inversion_clear H as [|? ? Hp Hps]. destruct Hp as (Hn & Hw). rewrite unwords_cons, <- app_assoc. cbn [app].
    rewrite words_word; [|auto|auto|right; eexists _, _; split; [reflexivity|now left]].
    f_equal. cbn [words]. rewrite isspace_space. rewrite IH by auto. reflexivity.
Qed.

Lemma flat_length {V} (l : list (V * V)) : length (flat l) = 2 * length l.
Proof. induction l as [|[k v] l IH]; simpl; auto. rewrite IH. lia. Qed.

Section Parse.
  Variables (stod : chars -> outcome R) (parse_material : chars -> outcome params) (value : chars -> R) (nominal : chars -> params).

  Definition ranges_of (b : Z) (l : list (chars * chars)) (m : list (Z * params)) : list (Z * params) :=
    fold_left (fun m e => assoc_set Z.eqb b (assoc_set chars_eqb (fst e) (value (snd e)) (block_params m b)) m) l m.

  Lemma read_ranges_ok b l u : (forall e, In e l -> stod (snd e) = Ok (value (snd e))) ->
    read_ranges stod b (flat l) u =
      Ok (UqInput (uq_nominal u) (ranges_of b l (uq_ranges u)) (uq_order u ++ map (fun e => (b, fst e)) l)).
  Proof.
    revert u. induction l as [|[k v] l IH]; intros u H.
    - simpl. rewrite app_nil_r. now destruct u.
    - cbn [flat read_ranges]. pose proof (H _ (or_introl eq_refl)) as Hv. cbn [snd] in Hv. rewrite Hv. cbn [obind].
      rewrite IH by (intros; apply H; now right). cbn [uq_nominal uq_ranges uq_order map fst ranges_of fold_left snd].
      now rewrite <- app_assoc.
  Qed.

  Lemma ranges_other b b' l : forall m, b <> b' -> block_params (ranges_of b l m) b' = block_params m b'.
  Proof.
    induction l as [|e l IH]; intros m H; auto. cbn [ranges_of fold_left]. fold (ranges_of b l (assoc_set Z.eqb b (assoc_set chars_eqb (fst e) (value (snd e)) (block_params m b)) m)).
    rewrite IH by auto. unfold block_params. rewrite assoc_set_Z. destruct (Z.eqb_spec b' b); [congruence|auto].
  Qed.
  Lemma ranges_param_other b l k : forall m, ~ In k (map fst l) -> param (block_params (ranges_of b l m) b) k = param (block_params m b) k.
  Proof.
    induction l as [|e l IH]; intros m H; auto. cbn [ranges_of fold_left]. fold (ranges_of b l (assoc_set Z.eqb b (assoc_set chars_eqb (fst e) (value (snd e)) (block_params m b)) m)).
    rewrite IH by (intros HI; apply H; now right). unfold block_params at 1. rewrite assoc_set_Z, Z.eqb_refl, param_set.
    destruct (chars_eqb k (fst e)) eqn:E; auto. exfalso. apply H. left. apply chars_eqb_eq in E. auto.
  Qed.
  Lemma ranges_param b l k t : NoDup (map fst l) -> In (k, t) l -> forall m, param (block_params (ranges_of b l m) b) k = value t.
  Proof.
    induction l as [|e l IH]; intros Hd Hi m; [destruct Hi|]. cbn [ranges_of fold_left]. fold (ranges_of b l (assoc_set Z.eqb b (assoc_set chars_eqb (fst e) (value (snd e)) (block_params m b)) m)).
    cbn [map] in Hd. inversion Hd as [|? ? Hn Hd']; subst. destruct Hi as [->|Hi]; [|now apply IH].
    cbn [fst snd] in *. rewrite ranges_param_other by auto. unfold block_params at 1. rewrite assoc_set_Z, Z.eqb_refl, param_set.
    now rewrite (proj2 (chars_eqb_eq k k) eq_refl).
  Qed.

  Definition entry (l : uq_line) : chars * Z * chars := (line_text l, ul_block l, ul_nominal l).
  Definition line_ok (l : uq_line) : Prop :=
    Forall word (flat (ul_ranges l)) /\ (forall e, In e (ul_ranges l) -> stod (snd e) = Ok (value (snd e))) /\
    parse_material (ul_nominal l) = Ok (nominal (ul_nominal l)).

  Lemma line_not_none l : Forall word (flat (ul_ranges l)) -> chars_eqb (line_text l) (lit "none") = false.
  Proof.
    intros H. destruct (chars_eqb (line_text l) (lit "none")) eqn:E; auto. apply chars_eqb_eq in E.
    apply words_unwords' in H. unfold line_text in E. rewrite E in H. apply (f_equal (@length _)) in H. rewrite flat_length in H.
    change (words None (lit "none")) with [lit "none"] in H. cbn [length] in H. lia.
  Qed.
  Lemma parse_line l u : line_ok l -> parse_block_input stod parse_material (line_text l) (ul_block l) (ul_nominal l) u =
    Ok (UqInput (assoc_set Z.eqb (ul_block l) (nominal (ul_nominal l)) (uq_nominal u)) (ranges_of (ul_block l) (ul_ranges l) (uq_ranges u))
       (uq_order u ++ map (fun e => (ul_block l, fst e)) (ul_ranges l))).
  Proof.
    intros (H1 & H2 & H3). unfold parse_block_input. rewrite line_not_none by auto. unfold line_text. rewrite words_unwords' by auto.
    rewrite read_ranges_ok by auto. cbn [obind]. rewrite H3. reflexivity.
  Qed.

  Lemma lines_order_app a b : lines_order (a ++ b) = lines_order a ++ lines_order b.
  Proof. induction a as [|l a IH]; simpl; auto. now rewrite IH, app_assoc. Qed.

  Lemma parse_ok ls : NoDup (map ul_block ls) -> Forall line_ok ls ->
    exists u, parse_blocks stod parse_material (map entry ls) = Ok u /\ uq_order u = lines_order ls /\
      (forall b, ~ In b (map ul_block ls) -> assoc Z.eqb b (uq_nominal u) = None /\ block_params (uq_ranges u) b = []) /\
      forall l, In l ls -> assoc Z.eqb (ul_block l) (uq_nominal u) = Some (nominal (ul_nominal l)) /\
        (NoDup (map fst (ul_ranges l)) -> forall k t, In (k, t) (ul_ranges l) -> param (block_params (uq_ranges u) (ul_block l)) k = value t).
  Proof.
    intros Hd Hl. unfold parse_blocks.
    assert (H : forall pre, (exists post, ls = pre ++ post) -> exists u, ofold (fun u e => parse_block_input stod parse_material (fst (fst e)) (snd (fst e)) (snd e) u) (map entry pre) (UqInput [] [] []) = Ok u /\
      uq_order u = lines_order pre /\
      (forall b, ~ In b (map ul_block pre) -> assoc Z.eqb b (uq_nominal u) = None /\ block_params (uq_ranges u) b = []) /\
      forall l, In l pre -> assoc Z.eqb (ul_block l) (uq_nominal u) = Some (nominal (ul_nominal l)) /\
        (NoDup (map fst (ul_ranges l)) -> forall k t, In (k, t) (ul_ranges l) -> param (block_params (uq_ranges u) (ul_block l)) k = value t)).
    { induction pre as [|l pre IH] using rev_ind; intros (post & E).
      - eexists. split; [reflexivity|]. cbn. split; auto. split; [auto|]. intros l [].
      - destruct IH as (u & E1 & E2 & E3 & E4). { exists (l :: post). now rewrite E, <- app_assoc. }
        rewrite map_app. cbn [map]. rewrite ofold_app, E1. cbn [obind ofold]. unfold entry at 1 2 3. cbn [fst snd].
        assert (Hok : line_ok l). { rewrite Forall_forall in Hl. apply Hl. rewrite E. apply in_or_app. left. apply in_or_app. right. now left. }
        rewrite parse_line by auto. cbn [obind]. eexists. split; [reflexivity|]. cbn [uq_order uq_nominal uq_ranges].
        assert (Hnew : ~ In (ul_block l) (map ul_block pre)).
        { rewrite E, !map_app in Hd. cbn [map] in Hd.
          rewrite <- app_assoc in Hd. cbn [app] in Hd. apply NoDup_remove_2 in Hd. intros HI. apply Hd. apply in_or_app. now left. }
        split; [rewrite E2, lines_order_app; cbn [lines_order]; now rewrite app_nil_r|]. split.
        + intros b Hb. rewrite map_app in Hb. cbn [map] in Hb.
          assert (ul_block l <> b) by (intros Eb; apply Hb; apply in_or_app; right; now left).
          assert (~ In b (map ul_block pre)) as Hp by (intros HI; apply Hb; apply in_or_app; now left).
          destruct (E3 b Hp) as (F1 & F2). split; [|now rewrite ranges_other].
          rewrite assoc_set_Z. destruct (Z.eqb_spec b (ul_block l)); congruence.
        + intros l' Hi. apply in_app_iff in Hi. destruct Hi as [Hi|[<-|[]]].
          * assert (ul_block l <> ul_block l') by (intros Eb; apply Hnew; rewrite Eb; now apply in_map).
            destruct (E4 l' Hi) as (F1 & F2). split.
            -- rewrite assoc_set_Z. destruct (Z.eqb_spec (ul_block l') (ul_block l)); congruence.
            -- intros Hn k t Hk. rewrite ranges_other by auto. auto.
          * split; [now rewrite assoc_set_Z, Z.eqb_refl|]. intros Hn k t Hk. now apply ranges_param. }
    apply H. exists []. now rewrite app_nil_r.
  Qed.

  (** ** the samples file *)
  Lemma numbers_ok l : (forall w, In w l -> stod w = Ok (value w)) -> numbers stod l = Ok (map value l).
  Proof. intros H. unfold numbers. apply omapM_ok. auto. Qed.
  Lemma numbers_length l r : numbers stod l = Ok r -> length r = length l.
  Proof.
    revert r. unfold numbers. induction l as [|w l IH]; intros r H; cbn [omapM] in H; [now injection H as <-|].
    apply obind_ok in H as (x & _ & H). apply obind_ok in H as (y & E & H). injection H as <-. cbn [length]. now rewrite (IH _ E).
  Qed.
  Lemma read_exact_ok n l str rest : Forall (fun ws => length ws = n /\ Forall word ws /\ forall w, In w ws -> stod w = Ok (value w)) l ->
    exists str', read_exact stod n (length l) str (map unwords l ++ rest) = Ok (map (map value) l, str', rest).
  Proof.
    revert str. induction l as [|ws l IH]; intros str H; [now exists str|].
    inversion_clear H as [|? ? (H1 & H2 & H3) Hl]. cbn [length read_exact map app getline]. rewrite words_unwords' by auto.
    rewrite H1, Nat.eqb_refl. cbn [negb]. rewrite numbers_ok by auto. cbn [obind].
    destruct (IH (unwords ws) Hl) as (str' & E). rewrite E. cbn [obind fst snd]. now exists str'.
  Qed.
  Lemma find_colon a r : ~ In ":"%char a -> find_char ":" (a ++ ":"%char :: r) = Some (length a).
  Proof.
    induction a as [|c a IH]; intros H; cbn [app find_char length].
    - now destruct (ascii_dec ":" ":").
    - destruct (ascii_dec c ":") as [->|]; [exfalso; apply H; now left|]. rewrite IH by (intros HI; apply H; now right). reflexivity.
  Qed.
  Lemma unwords_no_colon ws : Forall (fun w => ~ In ":"%char w) ws -> ~ In ":"%char (unwords ws).
  Proof.
    induction ws as [|w [|w' ws] IH]; intros H.
    - auto.
    - now apply Forall_inv in H.
    - inversion_clear H as [|? ? Hw Hs]. rewrite unwords_cons. intros HI. apply in_app_iff in HI. destruct HI as [HI|[HI|HI]]; auto; [discriminate|]. now apply IH in HI.
  Qed.
  Lemma numbers_words ws : Forall number_text ws -> Forall word ws /\ Forall (fun w => ~ In ":"%char w) ws.
  Proof. intros H. split; (eapply Forall_impl; [|exact H]; intros w (H1 & H2); auto). Qed.
  Lemma read_approx_ok n nc l str rest : Forall (fun a => length (fst a) = n /\ length (snd a) = nc /\ Forall number_text (fst a) /\ Forall number_text (snd a) /\
      (forall w, In w (fst a) \/ In w (snd a) -> stod w = Ok (value w))) l ->
    read_approx stod n nc (length l) str (map (fun a => unwords (fst a) ++ " "%char :: ":"%char :: " "%char :: unwords (snd a)) l ++ rest) =
      Ok (map (fun a => map value (fst a)) l, map (fun a => map value (snd a)) l).
  Proof.
    revert str. induction l as [|[ps cs] l IH]; intros str H; [reflexivity|].
    destruct (Forall_inv H) as (H1 & H2 & H3 & H4 & H5). apply Forall_inv_tail in H. rename H into Hl. cbn [fst snd] in H1, H2, H3, H4, H5.
    cbn [length read_approx map app getline fst snd].
    destruct (numbers_words H3) as (W1 & C1). destruct (numbers_words H4) as (W2 & _).
    replace (unwords ps ++ " "%char :: ":"%char :: " "%char :: unwords cs) with ((unwords ps ++ [" "%char]) ++ ":"%char :: " "%char :: unwords cs) by now rewrite <- app_assoc.
    rewrite find_colon.
    2:{ intros HI. apply in_app_iff in HI. destruct HI as [HI|[HI|[]]]; [|discriminate]. now apply unwords_no_colon in HI. }
    rewrite firstn_app, Nat.sub_diag, firstn_all. cbn [firstn]. rewrite app_nil_r.
    rewrite words_unwords_app' by auto. cbn [words]. rewrite app_nil_r. rewrite H1, Nat.eqb_refl. cbn [negb].
    rewrite numbers_ok by auto. cbn [obind].
    rewrite skipn_app. rewrite skipn_all2 by lia. replace (length (unwords ps ++ [" "%char]) + 1 - length (unwords ps ++ [" "%char])) with 1 by lia.
    cbn [app skipn]. change (" "%char :: unwords cs) with ([" "%char] ++ unwords cs). rewrite words_white by (constructor; [now left|constructor]).
    rewrite words_unwords' by auto. rewrite H2, Nat.eqb_refl. cbn [negb]. rewrite numbers_ok by auto. cbn [obind].
    rewrite IH by auto. reflexivity.
  Qed.

  Lemma stoi_show n : (Z.of_nat n < 2 ^ 31)%Z -> stoi (show_int (Z.of_nat n)) = Ok (Z.of_nat n).
  Proof.
    intros H. unfold stoi. destruct (show_int_word (Z.of_nat n)) as (Hne & Hw). pose proof (int_prefix_show (Z.of_nat n) (r := [])) as P. rewrite app_nil_r in P.
    assert (E : skip_ws (show_int (Z.of_nat n)) = show_int (Z.of_nat n)).
    { destruct (show_int (Z.of_nat n)) as [|c t]; [congruence|]. inversion_clear Hw as [|? ? Hc _]. cbn [skip_ws]. apply isspace_not in Hc. now rewrite Hc. }
    rewrite E, P. 2:{ now left. } unfold in_int. 
    destruct (Z.leb_spec (- 2 ^ 31) (Z.of_nat n)); [|lia]. destruct (Z.ltb_spec (Z.of_nat n) (2 ^ 31)); [|lia]. reflexivity.
  Qed.

  Lemma newline_word w : word w -> ~ In newline w.
  Proof. intros (_ & H) HI. unfold none_of in H. rewrite Forall_forall in H. apply (H _ HI). unfold newline. vm_compute. tauto. Qed.
  Lemma newline_unwords ws : Forall word ws -> ~ In newline (unwords ws).
  Proof.
    induction ws as [|w [|w' ws] IH]; intros H.
    - auto.
    - apply Forall_inv in H. now apply newline_word.
    - inversion_clear H as [|? ? Hw Hs]. rewrite unwords_cons. intros HI. apply in_app_iff in HI. destruct HI as [HI|[HI|HI]]; [|discriminate|].
      + now apply newline_word in HI.
      + now apply IH in HI.
  Qed.

  Lemma read_samples_ok n t : samples_text_ok n t ->
    (forall w, (exists l, In l (st_exact t) /\ In w l) \/ (exists a, In a (st_approx t) /\ (In w (fst a) \/ In w (snd a))) -> stod w = Ok (value w)) ->
    read_samples stod n (samples_file t) =
      Ok (UqSamples (length (st_exact t)) (length (st_approx t))
            (map (map value) (st_exact t) ++ map (fun a => map value (fst a)) (st_approx t))
            (map (fun a => map value (snd a)) (st_approx t))).
  Proof.
    intros [Hc He Ha] Hv. unfold read_samples, samples_file.
    rewrite <- (app_nil_r (file_of_lines (samples_lines t))). rewrite file_lines_of.
    2:{ unfold samples_lines. constructor.
        - apply not_in_app; [apply show_int_newline|]. intros [H|H]; [discriminate|]. now apply show_int_newline in H.
        - apply Forall_app. split; apply Forall_map.
          + eapply Forall_impl; [|exact He]. intros l (_ & H). apply newline_unwords, numbers_words; auto.
          + eapply Forall_impl; [|exact Ha]. intros [a b] (_ & _ & H1 & H2). cbn [fst snd] in *.
            apply not_in_app; [now apply newline_unwords, numbers_words|]. intros [H|[H|[H|H]]]; try discriminate.
            now apply newline_unwords in H; [|apply numbers_words]. }
    unfold samples_lines. cbn [app getline].
    destruct (show_int_word (Z.of_nat (length (st_exact t)))) as (N1 & W1). destruct (show_int_word (Z.of_nat (length (st_approx t)))) as (N2 & W2).
    rewrite words_word; [|auto|auto|right; eexists _, _; split; [reflexivity|now left]].
    change (" "%char :: show_int (Z.of_nat (length (st_approx t)))) with ([" "%char] ++ show_int (Z.of_nat (length (st_approx t)))).
    rewrite words_white by (constructor; [now left|constructor]).
    replace (words None (show_int (Z.of_nat (length (st_approx t))))) with [show_int (Z.of_nat (length (st_approx t)))].
    2:{ pose proof (@words_word _ [] N2 W2 (or_introl eq_refl)) as E. rewrite app_nil_r in E. now rewrite E. }
    rewrite !stoi_show by lia. cbn [obind].
    replace (in_int (Z.of_nat (length (st_approx t)) + Z.of_nat (length (st_exact t)))) with true.
    2:{ symmetry. unfold in_int. apply andb_true_intro. split; [apply Z.leb_le|apply Z.ltb_lt]; lia. }
    cbn [negb]. destruct (Z.ltb_spec (Z.of_nat (length (st_approx t)) + Z.of_nat (length (st_exact t))) 0); [lia|].
    destruct (Z.ltb_spec (Z.of_nat (length (st_approx t))) 0); [lia|]. destruct (Z.ltb_spec (Z.of_nat (length (st_exact t))) 0); [lia|].
    cbn [orb]. rewrite !Nat2Z.id.
    rewrite <- app_assoc.
    match goal with |- context [read_exact _ _ _ ?s (_ ++ ?rest)] => destruct (@read_exact_ok n (st_exact t) s rest) as (str' & E) end.
    { rewrite Forall_forall in He |- *. intros l Hl. destruct (He l Hl) as (H2 & H3). split; auto. split; [now apply numbers_words|]. intros w Hw. apply Hv. left. eauto. }
    rewrite E. cbn [obind fst snd].
    pose proof (@read_approx_ok n (length (st_exact t) + 1) (st_approx t) str' (file_lines [])) as Ea.
    match type of Ea with ?P -> _ => assert P as Hp end.
    { rewrite Forall_forall in Ha |- *. intros a Hl. destruct (Ha a Hl) as (H2 & H3 & H4 & H5). repeat split; auto. intros w Hw. apply Hv. right. eauto. }
    apply Ea in Hp. clear Ea. match goal with |- obind ?x _ = _ => change x with (read_approx stod n (length (st_exact t) + 1) (length (st_approx t)) str' (map (fun a : list chars * list chars => unwords (fst a) ++ " "%char :: ":"%char :: " "%char :: unwords (snd a)) (st_approx t) ++ file_lines [])) end.
    rewrite Hp. reflexivity.
  Qed.

  (** ** whatever the file, a table that is accepted has the right shape *)
  Lemma read_exact_shape n m : forall str ls rows str' ls', read_exact stod n m str ls = Ok (rows, str', ls') ->
    length rows = m /\ Forall (fun r => length r = n) rows.
  Proof.
    induction m as [|m IH]; intros str ls rows str' ls' H; cbn [read_exact] in H.
    - injection H as <- _ _. auto.
    - destruct (getline str ls) as [s l]. destruct (length (words None s) =? n) eqn:E; cbn [negb] in H; [|discriminate]. apply Nat.eqb_eq in E.
      apply obind_ok in H as (r & Er & H). apply obind_ok in H as ([[rs s2] l2] & E2 & H). cbn [fst snd] in H. injection H as <- _ _.
      apply IH in E2 as (L1 & L2). apply numbers_length in Er. split; [cbn; lia|]. constructor; auto. lia.
  Qed.
  Lemma read_approx_shape n nc m : forall str ls rows cs, read_approx stod n nc m str ls = Ok (rows, cs) ->
    length rows = m /\ length cs = m /\ Forall (fun r => length r = n) rows /\ Forall (fun r => length r = nc) cs.
  Proof.
    induction m as [|m IH]; intros str ls rows cs H; cbn [read_approx] in H.
    - injection H as <- <-. auto.
    - destruct (getline str ls) as [s l]. destruct (find_char ":" s) as [pos|]; [|discriminate].
      destruct (length (words None (firstn pos s)) =? n) eqn:E; cbn [negb] in H; [|discriminate]. apply Nat.eqb_eq in E.
      apply obind_ok in H as (r & Er & H). cbv zeta in H.
      destruct (length (words None (skipn (pos + 1) s)) =? nc) eqn:E'; cbn [negb] in H; [|discriminate]. apply Nat.eqb_eq in E'.
      apply obind_ok in H as (c & Ec & H). apply obind_ok in H as ([rs c2] & E2 & H). cbn [fst snd] in H. injection H as <- <-.
      apply IH in E2 as (L1 & L2 & L3 & L4). apply numbers_length in Er. apply numbers_length in Ec.
      repeat split; try (cbn; lia); constructor; auto; lia.
  Qed.
  Lemma read_samples_shape n file q : read_samples stod n file = Ok q -> samples_ok n q.
  Proof.
    unfold read_samples. destruct (getline [] (file_lines file)) as [str ls]. destruct (words None str) as [|e [|a ws]]; [discriminate| |].
    { intros H. apply obind_ok in H as (? & _ & H). discriminate. }
    intros H. apply obind_ok in H as (ne & _ & H). apply obind_ok in H as (na & _ & H).
    destruct (in_int (na + ne)); cbn [negb] in H; [|discriminate].
    destruct ((na + ne <? 0)%Z || (na <? 0)%Z) eqn:E1; [discriminate|]. destruct (ne <? 0)%Z eqn:E2; [discriminate|].
    apply obind_ok in H as ([[rows s1] l1] & Er & H). apply obind_ok in H as ([rows2 cs] & Ea & H). cbn [fst snd] in H, Ea. injection H as <-.
    apply read_exact_shape in Er as (L1 & F1). apply read_approx_shape in Ea as (L2 & L3 & F2 & F3).
    split; cbn [uq_xi uq_nexact uq_napprox uq_coeffs].
    - rewrite app_length. lia.
    - intros s Hs. unfold row. apply (@nth_in_forall _ (fun r => length r = n) []); [now apply Forall_app|]. rewrite app_length. lia.
    - lia.
    - intros s Hs. unfold row. apply (@nth_in_forall _ (fun r => length r = Z.to_nat ne + 1) []); auto. lia.
  Qed.
End Parse.
