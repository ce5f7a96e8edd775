From Coq Require Import NArith Reals.
From Verif Require Import Base ListLemmas Strings InputModel InputSpec InputProofs InputProofs2 InputProofs3 MeshTextModel MeshTextSpec.
Local Close Scope string_scope.
Local Open Scope list_scope.
Set Implicit Arguments.
Notation length := List.length.

(** ** Formatted input of what formatted output writes *)
Definition ends (r : chars) : Prop := r = [] \/ exists t, r = " "%char :: t.
Lemma ends_nil : ends []. Proof. now left. Qed.
Lemma ends_sp t : ends (" "%char :: t). Proof. right. eauto. Qed.
Local Hint Resolve ends_nil ends_sp : core.

Lemma take_digits_ends ds r : Forall (fun c => is_digit c = true) ds -> ends r -> take_digits (ds ++ r) = ds.
Proof. intros H Hr. apply take_digits_app; auto. destruct Hr as [->|(t & ->)]; reflexivity || exact I. Qed.
Lemma int_prefix_show z r : ends r -> int_prefix (show_int z ++ r) = Some (z, r).
Proof.
  intros Hr. unfold show_int. destruct (Z.ltb_spec z 0).
  - unfold int_prefix. cbn [app]. destruct (ascii_dec "-" "-"); [|congruence].
    rewrite take_digits_ends by (auto using dec_digits). pose proof (dec_nonempty (Z.to_N (- z))).
    destruct (dec (Z.to_N (- z))) as [|c ds] eqn:E; [congruence|]. rewrite <- E.
    rewrite undec_dec. rewrite skipn_app, skipn_all, Nat.sub_diag. cbn [skipn app]. f_equal. f_equal. lia.
  - pose proof (dec_nonempty (Z.to_N z)) as Hne. pose proof (dec_digits (Z.to_N z)) as Hd. unfold int_prefix.
    destruct (dec (Z.to_N z)) as [|c ds] eqn:E; [congruence|]. cbn [app].
    destruct (digit_not_sign c (Forall_inv Hd)). destruct (ascii_dec c "-"); [congruence|]. destruct (ascii_dec c "+"); [congruence|].
    change (c :: ds ++ r) with ((c :: ds) ++ r). rewrite take_digits_ends by auto. rewrite <- E, undec_dec.
    rewrite skipn_app, skipn_all, Nat.sub_diag. cbn [skipn app]. f_equal. f_equal. lia.
Qed.
Lemma show_int_head z : exists c t, show_int z = c :: t /\ ~ white c.
Proof.
  unfold show_int. destruct (z <? 0)%Z.
  - eexists _, _. split; [reflexivity|]. now apply isspace_not.
  - pose proof (dec_nonempty (Z.to_N z)). pose proof (dec_digits (Z.to_N z)) as Hd.
    destruct (dec (Z.to_N z)) as [|c t]; [congruence|]. exists c, t. split; auto.
    apply isspace_not, isspace_digit, (Forall_inv Hd).
Qed.
Lemma get_int_show z r old : int_range z -> ends r -> get_int (Some (show_int z ++ r)) old = (Some z, Some r).
Proof.
  intros Hz Hr. unfold get_int. destruct (show_int_head z) as (c & t & E & Hc).
  pose proof (int_prefix_show z Hr) as P. rewrite E in P |- *. cbn [app] in P |- *.
  rewrite skip_ws_nonwhite by auto. rewrite P. now rewrite int_range_in.
Qed.
Lemma skip_space s : skip_ws (" "%char :: s) = skip_ws s. Proof. reflexivity. Qed.
Lemma get_int_space s old : get_int (Some (" "%char :: s)) old = get_int (Some s) old.
Proof. unfold get_int. now rewrite skip_space. Qed.
Lemma get_word_space s old : get_word (Some (" "%char :: s)) old = get_word (Some s) old.
Proof. unfold get_word. now rewrite skip_space. Qed.
Definition wends (r : chars) : Prop := r = [] \/ exists c t, r = c :: t /\ white c.
Lemma ends_wends r : ends r -> wends r.
Proof. intros [->|(t & ->)]; [now left|right]. eexists _, _. split; [reflexivity|]. now left. Qed.
Lemma until_ws_wends w r : none_of white w -> wends r -> until_ws (w ++ r) = w.
Proof.
  intros Hw [->|(c & t & -> & Hc)].
  - rewrite app_nil_r. now apply until_ws_nonwhite.
  - rewrite until_ws_stop by auto. now apply until_ws_nonwhite.
Qed.
Lemma get_word_app w r old : one_word w -> wends r -> get_word (Some (w ++ r)) old = (w, Some r).
Proof.
  intros (Hne & Hw) Hr. unfold get_word. destruct w as [|c w]; [congruence|]. cbn [app].
  rewrite skip_ws_nonwhite by (apply (Forall_inv Hw)). change (c :: w ++ r) with ((c :: w) ++ r).
  rewrite until_ws_wends by auto. rewrite skipn_app, skipn_all, Nat.sub_diag. reflexivity.
Qed.

Lemma minus1_plus z : int_range z -> minus1 (z + 1) = Ok z.
Proof. intros H. unfold minus1. replace (z + 1 - 1)%Z with z by lia. now rewrite int_range_in. Qed.
Lemma plus1_ok z : int_id z -> plus1 z = Ok (z + 1)%Z.
Proof. intros (_ & H). unfold plus1. now rewrite int_range_in. Qed.

(** ** Loops *)
Lemma omapM_ext {A B} (f g : A -> outcome B) l : (forall a, In a l -> f a = g a) -> omapM f l = omapM g l.
Proof.
  induction l as [|a l IH]; intros H; auto. cbn [omapM]. rewrite (H a) by now left. rewrite IH by (intros; apply H; now right).
  reflexivity.
Qed.
Lemma omapM_ok {A B} (f : A -> outcome B) (g : A -> B) l : (forall a, In a l -> f a = Ok (g a)) -> omapM f l = Ok (map g l).
Proof.
  induction l as [|a l IH]; intros H; auto. cbn [omapM map]. rewrite (H a) by now left. cbn [obind].
  rewrite IH by (intros; apply H; now right). reflexivity.
Qed.
Lemma omapM_map {A B C} (f : A -> B) (g : B -> outcome C) l : omapM g (map f l) = omapM (fun a => g (f a)) l.
Proof. induction l as [|a l IH]; auto. cbn [map omapM]. now rewrite IH. Qed.
Lemma omapM_seq {A B} (f : nat -> outcome B) (g : A -> B) (l : list A) :
  (forall i a, nth_error l i = Some a -> f i = Ok (g a)) -> omapM f (seq 0 (length l)) = Ok (map g l).
Proof.
  revert f. induction l as [|a l IH]; intros f H; auto. cbn [length seq omapM map]. rewrite (H 0 a) by auto. cbn [obind].
  rewrite <- seq_shift, omapM_map, (IH (fun i => f (S i))); [reflexivity|]. intros i b Hb. now apply H.
Qed.
Lemma vget_map {A B} (f : A -> B) l i a : nth_error l i = Some a -> vget (map f l) i = Ok (f a).
Proof. intros H. unfold vget. now rewrite (map_nth_error f _ _ H). Qed.
Lemma nth_error_concat {A} (n : nat) (rows : list (list A)) i j row a :
  Forall (fun r => length r = n) rows -> nth_error rows i = Some row -> nth_error row j = Some a ->
  nth_error (List.concat rows) (i * n + j) = Some a.
Proof.
  revert i. induction rows as [|r rows IH]; intros [|i] Hl Hi Hj; try discriminate; cbn [List.concat] in *.
  - injection Hi as ->. cbn [Nat.mul Nat.add]. rewrite nth_error_app1; auto. apply nth_error_Some. congruence.
  - pose proof (Forall_inv Hl) as Hr. cbn beta in Hr. cbn [nth_error] in Hi.
    rewrite nth_error_app2 by (cbn [Nat.mul]; lia). replace (S i * n + j - length r) with (i * n + j) by (cbn [Nat.mul]; lia).
    apply IH; auto. apply (Forall_inv_tail Hl).
Qed.
Lemma concat_length {A} (n : nat) (rows : list (list A)) : Forall (fun r => length r = n) rows ->
  length (List.concat rows) = length rows * n.
Proof. induction 1 as [|r rows Hr _ IH]; auto. cbn [List.concat length Nat.mul]. rewrite app_length. lia. Qed.

(** ** The text of a content *)
Section Text.
  Variable D : Type.
  Variable rdouble : chars -> option (D * chars).
  Variable zero : D.
  Variable show : D -> chars.
  Variable reread : D -> D.

  Definition node_text (n : Z * (D * D * D)) : chars :=
    show_int (fst n + 1) ++ sp ++ show (fst (fst (snd n))) ++ sp ++ show (snd (fst (snd n))) ++ sp ++ show (snd (snd n)).
  Definition row_text (row : list Z) : chars := List.concat (map (fun n => sp ++ show_int (n + 1)) row).
  Definition elem_text (e : Z * list Z) : chars := show_int (fst e + 1) ++ row_text (snd e).
  Definition block_text (b : block) : list chars :=
    lit "element_block" ::
    (show_int (b_id b) ++ sp ++ b_name b ++ sp ++ show_int (Z.of_nat (length (b_elems b))) ++ sp ++ show_int (Z.of_nat (b_npe b)))
    :: map elem_text (b_elems b).
  Definition set_text (s : node_set) : list chars :=
    lit "nodeset" :: (show_int (s_id s) ++ sp ++ s_name s ++ sp ++ show_int (Z.of_nat (length (s_nodes s))))
    :: map (fun n => show_int (n + 1)) (s_nodes s).

  (** *** writing *)
  Lemma node_lines_ok m c : holds m c -> sound c ->
    omapM (node_line show m) (seq 0 (length (m_x m))) = Ok (map node_text (c_nodes c)).
  Proof.
    intros (H1 & H2 & H3 & H4 & _) Hs. rewrite H2, map_length. apply omapM_seq. intros i n Hi. unfold node_line.
    rewrite H1, H2, H3, H4. rewrite (vget_map fst _ _ Hi). cbn [obind].
    pose proof (so_nodes Hs) as Hn. rewrite Forall_forall in Hn. rewrite plus1_ok by (apply Hn; eapply nth_error_In; eauto).
    cbn [obind]. rewrite !(vget_map _ _ _ Hi). reflexivity.
  Qed.
  Lemma elem_line_ok b i e : nth_error (b_elems b) i = Some e ->
    Forall (fun e => int_id (fst e) /\ length (snd e) = b_npe b /\ Forall int_id (snd e)) (b_elems b) ->
    elem_line (map fst (b_elems b)) (List.concat (map snd (b_elems b))) (b_npe b) i = Ok (elem_text e).
  Proof using. clear rdouble zero show reread.
    intros Hi H. unfold elem_line. rewrite (vget_map fst _ _ Hi). cbn [obind].
    assert (Hl : Forall (fun r => length r = b_npe b) (map snd (b_elems b))).
    { apply Forall_map. eapply Forall_impl; [|exact H]. now intros ? (_ & ? & _). }
    rewrite Forall_forall in H. destruct (H e) as (He & Hn & Hr); [eapply nth_error_In; eauto|].
    rewrite plus1_ok by auto. cbn [obind]. rewrite <- Hn at 1.
    assert (Eg : forall l, l = snd e -> omapM (fun j => do n <- vget (List.concat (map snd (b_elems b))) (i * b_npe b + j);
                               do n' <- plus1 n; Ok (sp ++ show_int n')) (seq 0 (length l))
             = Ok (map (fun n => sp ++ show_int (n + 1)) l)).
    { intros l ->. apply omapM_seq. intros j a Ha. unfold vget.
      rewrite (@nth_error_concat _ (b_npe b) (map snd (b_elems b)) i j (snd e) a); auto; [|now apply map_nth_error].
      cbn [obind]. rewrite Forall_forall in Hr. rewrite plus1_ok by (apply Hr; eapply nth_error_In; eauto). reflexivity. }
    rewrite Eg by auto. reflexivity.
  Qed.
  Definition named (m : mesh D) (c : content D) : Prop :=
    forall b, In b (c_blocks c) -> assoc Z.eqb (b_id b) (m_all_block_names m) = Some (b_name b).
  Lemma block_lines_ok (m : mesh D) (c : content D) b : holds m c -> sound c -> named m c -> In b (c_blocks c) ->
    block_lines m (b_id b) = Ok (block_text b).
  Proof using D. clear rdouble zero show reread.
    intros (_ & _ & _ & _ & _ & _ & H & _) Hs Hn Hb. unfold block_lines, map_at, num_elements_in_block, map_at.
    rewrite (Hn b Hb). destruct (H b Hb) as (_ & H2 & H3 & H4). rewrite H2, H3, H4. cbn [obind].
    pose proof (so_block Hs) as Hbl. rewrite Forall_forall in Hbl. destruct (Hbl b Hb) as (_ & _ & Hp & _ & _ & He).
    assert (Hl : Forall (fun r => length r = b_npe b) (map snd (b_elems b))).
    { apply Forall_map. eapply Forall_impl; [|exact He]. now intros ? (_ & ? & _). }
    pose proof (concat_length Hl) as Hlen. rewrite map_length in Hlen.
    assert (En : match List.concat (map snd (b_elems b)) with
                 | [] => Ok 0%Z
                 | _ :: _ => if (Z.of_nat (b_npe b) =? 0)%Z then UB
                             else Ok (Z.quot (Z.of_nat (length (List.concat (map snd (b_elems b))))) (Z.of_nat (b_npe b)))
                 end = Ok (Z.of_nat (length (b_elems b)))).
    { destruct (List.concat (map snd (b_elems b))) as [|x l] eqn:E.
      - cbn [length] in Hlen. destruct (b_elems b); [reflexivity|]. cbn [length] in Hlen. nia.
      - destruct (Z.eqb_spec (Z.of_nat (b_npe b)) 0); [lia|]. rewrite Hlen, Nat2Z.inj_mul, Z.quot_mul by lia. reflexivity. }
    rewrite En. cbn [obind]. rewrite !Nat2Z.id.
    rewrite (@omapM_seq _ _ _ elem_text (b_elems b)); [reflexivity|]. intros i e Hi. now apply elem_line_ok.
  Qed.
  Lemma set_lines_ok (m : mesh D) (c : content D) s : holds m c -> sound c -> In s (c_sets c) -> set_lines m (s_id s) = Ok (set_text s).
  Proof.
    intros (_ & _ & _ & _ & _ & _ & _ & _ & H) Hs Hin. destruct (H s Hin) as (H1 & H2). unfold set_lines, map_default.
    rewrite H2. cbv zeta iota. rewrite H1. pose proof (so_set Hs) as Hset. rewrite Forall_forall in Hset. destruct (Hset s Hin) as (_ & _ & _ & Hn).
    rewrite Forall_forall in Hn.
    rewrite (@omapM_ok _ _ _ (fun n => show_int (n + 1))); [reflexivity|]. intros n Hin'. rewrite plus1_ok by auto. reflexivity.
  Qed.

  (** *** reading *)
  Lemma row_text_ends row : ends (row_text row).
  Proof. destruct row as [|n row]; [auto|]. unfold row_text, sp. cbn. auto. Qed.
  Lemma read_row_ok row : Forall int_id row -> read_row (length row) (Some (row_text row)) = Ok row.
  Proof.
    induction row as [|n row IH]; intros H; auto. cbn [length read_row].
    change (row_text (n :: row)) with ((sp ++ show_int (n + 1)) ++ row_text row). rewrite <- app_assoc.
    unfold sp at 1. change (lit " " ++ show_int (n + 1) ++ row_text row) with (" "%char :: (show_int (n + 1) ++ row_text row)).
    destruct (Forall_inv H) as (H1 & H2).
    rewrite get_int_space, get_int_show by auto using row_text_ends. cbv beta iota. rewrite minus1_plus by auto. cbn [obind].
    rewrite IH by (apply (Forall_inv_tail H)). reflexivity.
  Qed.
  Lemma read_elems_ok npe l : forall str more (done rest : list Z),
    Forall (fun e => int_id (fst e) /\ length (snd e) = npe /\ Forall int_id (snd e)) l -> length l <= length rest ->
    read_elems (length l) npe str (map elem_text l ++ more) (done ++ rest) (length done)
    = Ok (map fst l, List.concat (map snd l), (done ++ map fst l ++ skipn (length l) rest, length done + length l), more).
  Proof using. clear rdouble zero show reread.
    induction l as [|e l IH]; intros str more done rest H Hlen; cbn [length map app read_elems List.concat].
    - rewrite Nat.add_0_r. reflexivity.
    - destruct (Forall_inv H) as ((H1 & H1') & Hr & Hn). cbn [getline].
      unfold elem_text at 1. rewrite get_int_show by auto using row_text_ends. cbv beta iota.
      rewrite minus1_plus by auto. cbn [obind]. destruct rest as [|z rest]; [cbn in Hlen; lia|]. cbn [length] in Hlen.
      unfold vset. rewrite app_length. cbn [length].
      replace (length done <? length done + S (length rest)) with true by (symmetry; apply Nat.ltb_lt; lia). cbn [obind].
      rewrite <- Hr at 1. rewrite read_row_ok by auto. cbn [obind].
      assert (Es : list_set (done ++ z :: rest) (length done) (fst e) = (done ++ [fst e]) ++ rest).
      { clear. induction done as [|d done IH]; cbn; [reflexivity|]. now rewrite IH. }
      rewrite Es. replace (S (length done)) with (length (done ++ [fst e])) by (rewrite app_length; cbn; lia).
      rewrite IH by first [exact (Forall_inv_tail H)|lia]. cbn [obind]. rewrite app_length. cbn [length].
      rewrite <- !app_assoc. cbn [app]. do 4 f_equal. lia.
  Qed.
  Lemma read_set_ok l : forall str more, Forall int_id l ->
    read_set (length l) str (map (fun n => show_int (n + 1)) l ++ more) = Ok (l, more).
  Proof using. clear rdouble zero show reread.
    induction l as [|n l IH]; intros str more H; auto. destruct (Forall_inv H) as (H1 & H2).
    cbn [length map app read_set getline].
    replace (get_int (Some (show_int (n + 1))) (Some 0%Z)) with (get_int (Some (show_int (n + 1) ++ [])) (Some 0%Z)) by now rewrite app_nil_r.
    rewrite get_int_show by auto. cbn [fst]. rewrite minus1_plus by auto. cbn [obind].
    rewrite IH by (apply (Forall_inv_tail H)). reflexivity.
  Qed.

  (** the reader's state after a block or a node set *)
  Definition after_block (s : rstate D) (b : block) : rstate D :=
    RState (rs_nodes s) (rs_elems s) (rs_next s + length (b_elems b))
      (add_block (rs_mesh s) (b_id b) (b_name b) (Z.of_nat (b_npe b)) (map fst (b_elems b))
         (List.concat (map snd (b_elems b)))
         (firstn (rs_next s) (m_elem_id (rs_mesh s)) ++ map fst (b_elems b)
          ++ skipn (rs_next s + length (b_elems b)) (m_elem_id (rs_mesh s)))).
  Definition after_set (s : rstate D) (x : node_set) : rstate D :=
    RState (rs_nodes s) (rs_elems s) (rs_next s) (add_set (rs_mesh s) (s_id x) (s_name x) (s_nodes x)).
  Notation sections := (read_sections rdouble zero).

  Lemma section_block s b str more :
    int_range (b_id b) -> one_word (b_name b) -> int_range (Z.of_nat (b_npe b)) ->
    int_range (Z.of_nat (length (b_elems b))) ->
    int_range (Z.of_nat (length (b_elems b) * b_npe b)) ->
    Forall (fun e => int_id (fst e) /\ length (snd e) = b_npe b /\ Forall int_id (snd e)) (b_elems b) ->
    rs_next s + length (b_elems b) <= length (m_elem_id (rs_mesh s)) ->
    read_block_section s str (tl (block_text b) ++ more) = Ok (after_block s b, more).
  Proof using D. clear rdouble zero show reread.
    intros Hid Hname Hnpe Hn Hmul He Hlen. unfold read_block_section, block_text. cbn [tl app getline].
    rewrite get_int_show by (auto; unfold sp; cbn; auto). cbv beta iota.
    change (sp ++ b_name b ++ ?r) with (" "%char :: b_name b ++ r). rewrite get_word_space.
    rewrite get_word_app by (auto; apply ends_wends; unfold sp; cbn; auto). cbv beta iota.
    change (sp ++ show_int (Z.of_nat (length (b_elems b))) ++ ?r) with (" "%char :: show_int (Z.of_nat (length (b_elems b))) ++ r).
    rewrite get_int_space, get_int_show by (auto; unfold sp; cbn; auto). cbv beta iota.
    change (sp ++ show_int (Z.of_nat (b_npe b))) with (" "%char :: show_int (Z.of_nat (b_npe b))).
    rewrite get_int_space. rewrite <- (app_nil_r (show_int (Z.of_nat (b_npe b)))), get_int_show by auto. cbv beta iota.
    rewrite Nat2Z.inj_mul in Hmul. rewrite int_range_in by auto. cbn [negb].
    replace (((Z.of_nat (length (b_elems b)) * Z.of_nat (b_npe b) <? 0) || (Z.of_nat (length (b_elems b)) <? 0))%Z) with false by nia.
    rewrite !Nat2Z.id.
    set (all := m_elem_id (rs_mesh s)) in *. set (nx := rs_next s) in *.
    assert (Hs : nx = length (firstn nx all)) by (rewrite firstn_length; lia).
    rewrite <- (firstn_skipn nx all) at 1. rewrite Hs at 3.
    rewrite read_elems_ok by (auto; rewrite skipn_length; lia). cbn [obind]. rewrite <- Hs.
    rewrite skipn_skipn. unfold after_block. fold all nx. rewrite (Nat.add_comm (length (b_elems b)) nx). reflexivity.
  Qed.
  Lemma section_set s x str more :
    int_range (s_id x) -> one_word (s_name x) -> int_range (Z.of_nat (length (s_nodes x))) -> Forall int_id (s_nodes x) ->
    read_set_section s str (tl (set_text x) ++ more) = Ok (after_set s x, more).
  Proof using D. clear rdouble zero show reread.
    intros Hid Hname Hn He. unfold read_set_section, set_text. cbn [tl app getline].
    rewrite get_int_show by (auto; unfold sp; cbn; auto). cbv beta iota.
    change (sp ++ s_name x ++ ?r) with (" "%char :: s_name x ++ r). rewrite get_word_space.
    rewrite get_word_app by (auto; apply ends_wends; unfold sp; cbn; auto). cbv beta iota.
    change (sp ++ show_int (Z.of_nat (length (s_nodes x)))) with (" "%char :: show_int (Z.of_nat (length (s_nodes x)))).
    rewrite get_int_space. rewrite <- (app_nil_r (show_int (Z.of_nat (length (s_nodes x))))), get_int_show by auto. cbv beta iota.
    replace (Z.of_nat (length (s_nodes x)) <? 0)%Z with false by lia. rewrite Nat2Z.id, read_set_ok by auto. reflexivity.
  Qed.

  Lemma sections_block fuel s b more :
    int_range (b_id b) -> one_word (b_name b) -> int_range (Z.of_nat (b_npe b)) ->
    int_range (Z.of_nat (length (b_elems b))) ->
    int_range (Z.of_nat (length (b_elems b) * b_npe b)) ->
    Forall (fun e => int_id (fst e) /\ length (snd e) = b_npe b /\ Forall int_id (snd e)) (b_elems b) ->
    rs_next s + length (b_elems b) <= length (m_elem_id (rs_mesh s)) ->
    sections (S fuel) s (block_text b ++ more) = sections fuel (after_block s b) more.
  Proof using D rdouble zero. clear show reread.
    intros. cbn [read_sections]. change (block_text b ++ more) with (lit "element_block" :: (tl (block_text b) ++ more)).
    cbv beta iota. unfold read_section.
    change (get_word (Some (lit "element_block")) []) with (lit "element_block", Some (@nil ascii)). cbn [fst snd].
    change (read_sections rdouble zero) with (read_sections rdouble zero).
    replace (chars_eqb (lit "element_block") (lit "element_block")) with true by reflexivity.
    repeat match goal with |- context [chars_eqb (lit "element_block") (lit ?x)] =>
      change (chars_eqb (lit "element_block") (lit x)) with false end. cbv iota.
    rewrite section_block by auto. reflexivity.
  Qed.
  Lemma sections_set fuel s x more :
    int_range (s_id x) -> one_word (s_name x) -> int_range (Z.of_nat (length (s_nodes x))) -> Forall int_id (s_nodes x) ->
    sections (S fuel) s (set_text x ++ more) = sections fuel (after_set s x) more.
  Proof using D rdouble zero. clear show reread.
    intros. cbn [read_sections]. change (set_text x ++ more) with (lit "nodeset" :: (tl (set_text x) ++ more)).
    cbv beta iota. unfold read_section.
    change (get_word (Some (lit "nodeset")) []) with (lit "nodeset", Some (@nil ascii)). cbn [fst snd].
    replace (chars_eqb (lit "nodeset") (lit "nodeset")) with true by reflexivity.
    repeat match goal with |- context [chars_eqb (lit "nodeset") (lit ?x)] =>
      change (chars_eqb (lit "nodeset") (lit x)) with false end. cbv iota.
    rewrite section_set by auto. reflexivity.
  Qed.
  Lemma first_word_harmless l : harmless l -> ~ In (fst (get_word (Some l) [])) keywords.
  Proof.
    intros (_ & [H|(b & w & r & -> & Hb & Hw & Hr & Hk)]).
    - unfold get_word. replace (skip_ws l) with (@nil ascii).
      + cbn. intros HI. repeat (destruct HI as [HI|HI]; [discriminate HI|]). exact HI.
      + symmetry. rewrite <- (app_nil_r l). rewrite skip_ws_white by auto. reflexivity.
    - assert (E : fst (get_word (@Some chars (b ++ w ++ r)) []) = w); [|rewrite E; exact Hk].
      transitivity (fst (get_word (Some (w ++ r)) [])); [unfold get_word; now rewrite skip_ws_white|].
      now rewrite get_word_app.
  Qed.
  Lemma section_harmless s l ls : harmless l -> read_section rdouble zero s l ls = Ok (s, ls).
  Proof.
    intros H. apply first_word_harmless in H. unfold read_section.
    repeat match goal with |- context [chars_eqb ?a (lit ?x)] =>
      let E := fresh in destruct (chars_eqb a (lit x)) eqn:E;
      [apply chars_eqb_eq in E; rewrite E in H; exfalso; apply H; unfold keywords; cbn [map In];
       repeat first [left; reflexivity | right]|] end.
    reflexivity.
  Qed.
  Lemma sections_harmless ls : forall fuel s, Forall harmless ls -> length ls <= fuel -> sections fuel s ls = Ok s.
  Proof using D rdouble zero. clear show reread.
    induction ls as [|l ls IH]; intros [|fuel] s H Hf; auto. cbn [read_sections].
    rewrite section_harmless by (apply (Forall_inv H)). cbn [obind fst snd]. apply IH; [apply (Forall_inv_tail H)|cbn in Hf; lia].
  Qed.
  Variable good : D -> Prop.
  Hypothesis Hshow : forall x r, good x -> ends r -> rdouble (show x ++ r) = Some (reread x, r).
  Hypothesis Hword : forall x, good x -> one_word (show x).
  Lemma get_double_show x r old : good x -> ends r ->
    get_double rdouble zero (Some (sp ++ show x ++ r)) old = (Some (reread x), Some r).
  Proof.
    intros Hx Hr. unfold get_double, sp. change (lit " " ++ show x ++ r) with (" "%char :: show x ++ r). rewrite skip_space.
    destruct (Hword Hx) as (Hne & Hw). pose proof (@Hshow x r Hx Hr) as Hsh.
    destruct (show x) as [|c t] eqn:E; [congruence|]. cbn [app] in *.
    rewrite skip_ws_nonwhite by (apply (Forall_inv Hw)). now rewrite Hsh.
  Qed.
  Definition reread_node (n : Z * (D * D * D)) : Z * (D * D * D) :=
    (fst n, (reread (fst (fst (snd n))), reread (snd (fst (snd n))), reread (snd (snd n)))).
  Lemma read_nodes_ok l : forall str more,
    Forall (fun n => int_id (fst n) /\ good (fst (fst (snd n))) /\ good (snd (fst (snd n))) /\ good (snd (snd n))) l ->
    read_nodes rdouble zero (length l) str (map node_text l ++ more) = Ok (map reread_node l, more).
  Proof.
    induction l as [|n l IH]; intros str more H; auto.
    destruct (Forall_inv H) as ((Hi & Hi') & Hx & Hy & Hz). cbn [length map app read_nodes getline].
    unfold node_text at 1. rewrite get_int_show by (auto; unfold sp; cbn; auto). cbv beta iota.
    rewrite get_double_show by (auto; unfold sp; cbn; auto). rewrite get_double_show by (auto; unfold sp; cbn; auto).
    replace (sp ++ show (snd (snd n))) with (sp ++ show (snd (snd n)) ++ []) by now rewrite app_nil_r.
    rewrite get_double_show by auto. rewrite minus1_plus by auto. cbn [obind].
    rewrite IH by (apply (Forall_inv_tail H)). reflexivity.
  Qed.
End Text.
