From Coq Require Import NArith Reals.
From Verif Require Import Base ListLemmas Strings InputModel InputSpec InputProofs InputProofs2 InputProofs3
  MeshTextModel MeshTextSpec MeshTextProofs.
Local Close Scope string_scope.
Local Open Scope list_scope.
Set Implicit Arguments.
Notation length := List.length.

Lemma assoc_set_same {V} k (v : V) m : assoc Z.eqb k (assoc_set Z.eqb k v m) = Some v.
Proof. rewrite assoc_assoc_set by apply Z.eqb_eq. now rewrite Z.eqb_refl. Qed.
Lemma assoc_set_other {V} k k' (v : V) m : k <> k' -> assoc Z.eqb k (assoc_set Z.eqb k' v m) = assoc Z.eqb k m.
Proof. intros H. rewrite assoc_assoc_set by apply Z.eqb_eq. destruct (Z.eqb_spec k k'); congruence. Qed.
Lemma fold_assoc_other {A V} (key : A -> Z) (val : A -> V) l : forall m k, ~ In k (map key l) ->
  assoc Z.eqb k (fold_left (fun m a => assoc_set Z.eqb (key a) (val a) m) l m) = assoc Z.eqb k m.
Proof.
  induction l as [|a l IH]; intros m k H; auto. cbn [fold_left map] in *. rewrite IH by (intros HI; apply H; now right).
  apply assoc_set_other. intros ->. apply H. now left.
Qed.
Lemma fold_assoc {A V} (key : A -> Z) (val : A -> V) l : NoDup (map key l) -> forall m a, In a l ->
  assoc Z.eqb (key a) (fold_left (fun m a => assoc_set Z.eqb (key a) (val a) m) l m) = Some (val a).
Proof.
  induction l as [|b l IH]; intros Hd m a Ha; [destruct Ha|]. cbn [fold_left map] in *.
  inversion Hd as [|? ? Hn Hd']; subst. destruct Ha as [->|Ha]; [|now apply IH].
  rewrite fold_assoc_other by auto. apply assoc_set_same.
Qed.

Lemma file_lines_of ls rest : Forall (fun l => ~ In newline l) ls ->
  file_lines (file_of_lines ls ++ rest) = ls ++ file_lines rest.
Proof.
  induction 1 as [|l ls Hl _ IH]; auto. unfold file_of_lines in *. cbn [map List.concat]. rewrite <- !app_assoc. cbn [app].
  rewrite file_lines_app by auto. now rewrite IH.
Qed.
Lemma one_word_newline w : one_word w -> ~ In newline w.
Proof.
  intros (_ & H) HI. unfold none_of in H. rewrite Forall_forall in H. apply (H _ HI). unfold newline. vm_compute. tauto.
Qed.
Lemma show_int_word z : one_word (show_int z).
Proof.
  destruct (show_int_head z) as (c & t & E & _). split; [rewrite E; discriminate|]. unfold show_int.
  destruct (z <? 0)%Z; [|apply dec_white]. constructor; [now apply isspace_not|apply dec_white].
Qed.
Lemma not_in_app {A} (x : A) a b : ~ In x a -> ~ In x b -> ~ In x (a ++ b).
Proof. intros Ha Hb H. apply in_app_iff in H. tauto. Qed.
Lemma sp_newline : ~ In newline sp. Proof. intros [H|[]]. discriminate. Qed.
Lemma show_int_newline z : ~ In newline (show_int z). Proof. apply one_word_newline, show_int_word. Qed.
Lemma lit_newline s : mem newline (lit s) = false -> ~ In newline (lit s). Proof. apply mem_not. Qed.
Lemma row_text_newline row : ~ In newline (row_text row).
Proof.
  induction row as [|n row IH]; [intros []|]. apply not_in_app; [apply not_in_app|]; auto using sp_newline, show_int_newline.
Qed.

Lemma data_name_harmless w : data_name w -> harmless w.
Proof.
  intros (H1 & H2). split; [now apply one_word_newline|]. right. exists [], w, []. rewrite app_nil_r.
  split; [reflexivity|]. split; [constructor|]. split; [auto|]. split; auto.
Qed.
Lemma digits_not_keyword z : ~ In (show_int z) keywords.
Proof.
  assert (H : exists c t, show_int z = c :: t /\ (is_digit c = true \/ c = "-"%char)).
  { unfold show_int. destruct (z <? 0)%Z; [eauto|]. pose proof (dec_nonempty (Z.to_N z)). pose proof (dec_digits (Z.to_N z)) as Hd.
    destruct (dec (Z.to_N z)) as [|c t]; [congruence|]. exists c, t. split; auto. left. apply (Forall_inv Hd). }
  destruct H as (c & t & -> & Hc). intros HI. unfold keywords in HI. cbn [map In] in HI.
  repeat (destruct HI as [HI|HI]; [injection HI as <- _; destruct Hc as [Hc|Hc]; discriminate Hc|]). exact HI.
Qed.
Lemma show_int_harmless z : harmless (show_int z).
Proof. apply data_name_harmless. split; [apply show_int_word|apply digits_not_keyword]. Qed.
Lemma lit_data_name (s : string) : lit s <> [] -> forallb (fun c => negb (isspace c)) (lit s) = true ->
  listed (lit s) keywords = false -> data_name (lit s).
Proof.
  intros Hne Hw Hk. split; [split; [auto|]|].
  - apply Forall_forall. intros c Hc. rewrite forallb_forall in Hw. specialize (Hw c Hc). apply isspace_not. now destruct (isspace c).
  - intros HI. apply listed_In in HI. congruence.
Qed.
Lemma names_lines_harmless s names : data_name s -> Forall data_name names -> Forall harmless (names_lines s names).
Proof.
  intros Hs H. apply Forall_cons; [now apply data_name_harmless|]. apply Forall_cons; [apply show_int_harmless|].
  eapply Forall_impl; [|exact H]. apply data_name_harmless.
Qed.

Lemma in_insert {A} (leb : A -> A -> bool) a x l : In x (insert leb a l) <-> x = a \/ In x l.
Proof.
  induction l as [|b l IH]; cbn [insert In]; [intuition congruence|]. destruct (leb a b); cbn [In]; [intuition congruence|].
  rewrite IH. intuition.
Qed.
Lemma in_isort {A} (leb : A -> A -> bool) x l : In x (isort leb l) <-> In x l.
Proof. induction l as [|b l IH]; cbn [isort In]; [tauto|]. rewrite in_insert, IH. intuition. Qed.
Lemma in_uniq (l : list chars) x : In x (uniq chars_eqb l) <-> In x l.
Proof.
  induction l as [|a l IH]; [tauto|]. cbn [uniq]. destruct l as [|b l]; [tauto|].
  destruct (chars_eqb a b) eqn:E.
  - apply chars_eqb_eq in E. subst b. rewrite IH. cbn [In]. tauto.
  - cbn [In] in *. rewrite IH. tauto.
Qed.

Section Round.
  Variable D : Type.
  Variable rdouble : chars -> option (D * chars).
  Variable zero : D.
  Variable show : D -> chars.
  Variable reread : D -> D.
  Notation sections := (read_sections rdouble zero).

  Definition block_ok (b : block) : Prop :=
    int_range (b_id b) /\ one_word (b_name b) /\ 0 < b_npe b /\
    int_range (Z.of_nat (b_npe b)) /\ int_range (Z.of_nat (length (b_elems b) * b_npe b)) /\
    Forall (fun e => int_id (fst e) /\ length (snd e) = b_npe b /\ Forall int_id (snd e)) (b_elems b).
  Definition total (bs : list block) : nat := length (List.concat (map b_elems bs)).
  Lemma total_cons b bs : total (b :: bs) = length (b_elems b) + total bs.
  Proof. unfold total. cbn [map List.concat]. apply app_length. Qed.

  Lemma blocks_read bs : forall fuel (s : rstate D) more, Forall block_ok bs ->
    rs_next s + total bs <= length (m_elem_id (rs_mesh s)) ->
    sections (length bs + fuel) s (List.concat (map block_text bs) ++ more) = sections fuel (fold_left (@after_block D) bs s) more.
  Proof using D rdouble zero. clear show reread.
    induction bs as [|b bs IH]; intros fuel s more H Hlen; auto. rewrite total_cons in Hlen.
    cbn [length map List.concat fold_left Nat.add]. rewrite <- app_assoc.
    destruct (Forall_inv H) as (H1 & H2 & H3 & H4 & H5 & H6).
    assert (Hn : int_range (Z.of_nat (length (b_elems b)))) by (unfold int_range in *; nia).
    rewrite sections_block by (auto; lia). apply IH; [apply (Forall_inv_tail H)|].
    unfold after_block. cbn [rs_next rs_mesh m_elem_id add_block]. rewrite !app_length, firstn_length, skipn_length, map_length. lia.
  Qed.
  Lemma sets_read xs : forall fuel (s : rstate D) more,
    Forall (fun s => int_range (s_id s) /\ one_word (s_name s) /\
                            int_range (Z.of_nat (length (s_nodes s))) /\ Forall int_id (s_nodes s)) xs ->
    sections (length xs + fuel) s (List.concat (map set_text xs) ++ more) = sections fuel (fold_left (@after_set D) xs s) more.
  Proof using D rdouble zero. clear show reread.
    induction xs as [|x xs IH]; intros fuel s more H; auto.
    cbn [length map List.concat fold_left Nat.add]. rewrite <- app_assoc. destruct (Forall_inv H) as (H1 & H2 & H3 & H4).
    rewrite sections_set by auto. apply IH, (Forall_inv_tail H).
  Qed.

  Lemma fold_blocks bs : forall s : rstate D,
    let m := rs_mesh s in let m' := rs_mesh (fold_left (@after_block D) bs s) in
    m_dim m' = m_dim m /\ m_node_id m' = m_node_id m /\ m_x m' = m_x m /\ m_y m' = m_y m /\ m_z m' = m_z m /\
    m_all_block_names m' = m_all_block_names m /\ m_all_block_ids m' = m_all_block_ids m /\
    m_block_ids m' = m_block_ids m ++ map b_id bs /\
    m_block_names m' = fold_left (fun m b => assoc_set Z.eqb (b_id b) (b_name b) m) bs (m_block_names m) /\
    m_nodes_per_elem m' = fold_left (fun m b => assoc_set Z.eqb (b_id b) (Z.of_nat (b_npe b)) m) bs (m_nodes_per_elem m) /\
    m_block_elem_ids m' = fold_left (fun m b => assoc_set Z.eqb (b_id b) (map fst (b_elems b)) m) bs (m_block_elem_ids m) /\
    m_conn m' = fold_left (fun m b => assoc_set Z.eqb (b_id b) (List.concat (map snd (b_elems b))) m) bs (m_conn m) /\
    m_ns_ids m' = m_ns_ids m /\ m_ns_names m' = m_ns_names m /\ m_ns_nodes m' = m_ns_nodes m.
  Proof.
    induction bs as [|b bs IH]; intros s; cbn [fold_left map].
    - rewrite app_nil_r. repeat split.
    - destruct (IH (after_block s b)) as (A1 & A2 & A3 & A4 & A5 & A6 & A7 & A8 & A9 & A10 & A11 & A12 & A13 & A14 & A15).
      cbv zeta. unfold after_block in A1, A2, A3, A4, A5, A6, A7, A8, A9, A10, A11, A12, A13, A14, A15.
      cbn [rs_mesh add_block m_dim m_node_id m_x m_y m_z m_all_block_names m_all_block_ids m_block_ids m_block_names
           m_nodes_per_elem m_block_elem_ids m_conn m_ns_ids m_ns_names m_ns_nodes] in *.
      rewrite <- app_assoc in A8. cbn [app] in A8. repeat split; assumption.
  Qed.
  Lemma fold_blocks_elems bs : forall (s : rstate D) done rest,
    m_elem_id (rs_mesh s) = done ++ rest -> rs_next s = length done -> total bs <= length rest ->
    m_elem_id (rs_mesh (fold_left (@after_block D) bs s))
      = done ++ List.concat (map (fun b => map fst (b_elems b)) bs) ++ skipn (total bs) rest.
  Proof using D. clear rdouble zero show reread.
    induction bs as [|b bs IH]; intros s done rest He Hn Ht; cbn [fold_left map List.concat app]; [exact He|].
    rewrite total_cons in Ht.
    rewrite (IH (after_block s b) (done ++ map fst (b_elems b)) (skipn (length (b_elems b)) rest)).
    - rewrite total_cons, <- !app_assoc, skipn_skipn. now rewrite (Nat.add_comm (total bs)).
    - unfold after_block. cbn [rs_mesh add_block m_elem_id]. rewrite He, Hn. rewrite firstn_app, Nat.sub_diag, firstn_all.
      cbn [firstn]. rewrite app_nil_r, <- app_assoc. rewrite skipn_app. rewrite skipn_all2 by lia.
      replace (length done + length (b_elems b) - length done) with (length (b_elems b)) by lia. reflexivity.
    - unfold after_block. cbn [rs_next]. rewrite app_length, map_length. lia.
    - rewrite skipn_length. lia.
  Qed.
  Lemma fold_sets xs : forall s : rstate D,
    let m := rs_mesh s in let m' := rs_mesh (fold_left (@after_set D) xs s) in
    m_dim m' = m_dim m /\ m_node_id m' = m_node_id m /\ m_x m' = m_x m /\ m_y m' = m_y m /\ m_z m' = m_z m /\
    m_elem_id m' = m_elem_id m /\
    m_all_block_names m' = m_all_block_names m /\ m_all_block_ids m' = m_all_block_ids m /\
    m_block_ids m' = m_block_ids m /\
    m_block_names m' = m_block_names m /\ m_nodes_per_elem m' = m_nodes_per_elem m /\
    m_block_elem_ids m' = m_block_elem_ids m /\ m_conn m' = m_conn m /\
    m_ns_ids m' = m_ns_ids m ++ map s_id xs /\
    m_ns_names m' = fold_left (fun m b => assoc_set Z.eqb (s_id b) (s_name b) m) xs (m_ns_names m) /\
    m_ns_nodes m' = fold_left (fun m b => assoc_set Z.eqb (s_id b) (s_nodes b) m) xs (m_ns_nodes m).
  Proof.
    induction xs as [|b xs IH]; intros s; cbn [fold_left map].
    - rewrite app_nil_r. repeat split.
    - destruct (IH (after_set s b)) as (A1 & A2 & A3 & A4 & A5 & A6 & A7 & A8 & A9 & A10 & A11 & A12 & A13 & A14 & A15 & A16).
      cbv zeta. unfold after_set in A1, A2, A3, A4, A5, A6, A7, A8, A9, A10, A11, A12, A13, A14, A15, A16.
      cbn [rs_mesh add_set m_dim m_node_id m_x m_y m_z m_all_block_names m_all_block_ids m_block_ids m_block_names m_elem_id
           m_nodes_per_elem m_block_elem_ids m_conn m_ns_ids m_ns_names m_ns_nodes] in *.
      rewrite <- app_assoc in A14. cbn [app] in A14. repeat split; assumption.
  Qed.

  (** the lines of a content *)
  Definition header (c : content D) : list chars :=
    [lit "number_of_nodes " ++ show_int (Z.of_nat (length (c_nodes c)));
     lit "number_of_elements " ++ show_int (Z.of_nat (total (c_blocks c)));
     lit "number_of_blocks " ++ show_int (Z.of_nat (length (c_blocks c)));
     lit "number_of_node_sets " ++ show_int (Z.of_nat (length (c_sets c)));
     lit "node_coordinates"].
  Definition content_lines (c : content D) : list chars :=
    header c ++ map (node_text show) (c_nodes c) ++ List.concat (map block_text (c_blocks c))
    ++ List.concat (map set_text (c_sets c)).

  Lemma total_ids bs : length (List.concat (map (fun b => map fst (b_elems b)) bs)) = total bs.
  Proof using. clear rdouble zero show reread.
    induction bs as [|b bs IH]; auto. cbn [map List.concat]. rewrite total_cons, app_length, map_length. lia.
  Qed.

  Lemma key_value_word (w : string) z old : one_word (lit w) ->
    get_word (Some (lit w ++ " "%char :: show_int z)) old = (lit w, Some (" "%char :: show_int z)).
  Proof. intros H. apply get_word_app; auto. apply ends_wends. right. eauto. Qed.
  Lemma key_value_int z old : int_range z -> get_int (Some (" "%char :: show_int z)) old = (Some z, Some []).
  Proof. intros H. rewrite get_int_space. rewrite <- (app_nil_r (show_int z)). apply get_int_show; auto. now left. Qed.
  Lemma section_num_nodes (s : rstate D) z ls : int_range z ->
    read_section rdouble zero s (lit "number_of_nodes " ++ show_int z) ls = Ok (RState (Some z) (rs_elems s) (rs_next s) (rs_mesh s), ls).
  Proof.
    intros H. change (lit "number_of_nodes " ++ show_int z) with (lit "number_of_nodes" ++ " "%char :: show_int z).
    unfold read_section. rewrite key_value_word by (split; [discriminate|apply Forall_forall; intros c Hc; apply isspace_not;
      repeat (destruct Hc as [<-|Hc]; [reflexivity|]); destruct Hc]).
    cbn [fst snd]. rewrite !key_value_int by auto. reflexivity.
  Qed.
  Lemma section_num_elems (s : rstate D) z ls : int_range z -> (0 <= z)%Z ->
    read_section rdouble zero s (lit "number_of_elements " ++ show_int z) ls
    = Ok (RState (rs_nodes s) (Some z) (rs_next s) (set_elem_ids (rs_mesh s) (resize (Z.to_nat z) (m_elem_id (rs_mesh s)))), ls).
  Proof.
    intros H H0. change (lit "number_of_elements " ++ show_int z) with (lit "number_of_elements" ++ " "%char :: show_int z).
    unfold read_section. rewrite key_value_word by (split; [discriminate|apply Forall_forall; intros c Hc; apply isspace_not;
      repeat (destruct Hc as [<-|Hc]; [reflexivity|]); destruct Hc]).
    cbn [fst snd]. rewrite !key_value_int by auto. cbn [fst].
    replace (z <? 0)%Z with false by lia. reflexivity.
  Qed.
  Lemma section_num_blocks (s : rstate D) z ls :
    read_section rdouble zero s (lit "number_of_blocks " ++ show_int z) ls = Ok (s, ls).
  Proof.
    change (lit "number_of_blocks " ++ show_int z) with (lit "number_of_blocks" ++ " "%char :: show_int z).
    unfold read_section. rewrite key_value_word by (split; [discriminate|apply Forall_forall; intros c Hc; apply isspace_not;
      repeat (destruct Hc as [<-|Hc]; [reflexivity|]); destruct Hc]). reflexivity.
  Qed.
  Lemma section_num_sets (s : rstate D) z ls :
    read_section rdouble zero s (lit "number_of_node_sets " ++ show_int z) ls = Ok (s, ls).
  Proof.
    change (lit "number_of_node_sets " ++ show_int z) with (lit "number_of_node_sets" ++ " "%char :: show_int z).
    unfold read_section. rewrite key_value_word by (split; [discriminate|apply Forall_forall; intros c Hc; apply isspace_not;
      repeat (destruct Hc as [<-|Hc]; [reflexivity|]); destruct Hc]). reflexivity.
  Qed.

  Variable good : D -> Prop.
  Hypothesis Hshow : forall x r, good x -> ends r -> rdouble (show x ++ r) = Some (reread x, r).
  Hypothesis Hword : forall x, good x -> one_word (show x).

  Lemma content_newline c : sound c -> Forall good (coordinates c) -> Forall (fun l => ~ In newline l) (content_lines c).
  Proof using D show good rdouble reread Hshow Hword. clear zero.
    intros Hs Hg. unfold content_lines. repeat (apply Forall_app; split).
    - unfold header. repeat (apply Forall_cons; [try apply not_in_app; first [apply show_int_newline|apply lit_newline; reflexivity]|]).
      apply Forall_nil.
    - apply Forall_map, Forall_forall. intros n Hn. unfold coordinates in Hg. rewrite Forall_forall in Hg.
      assert (Hg' : forall x, In x [fst (fst (snd n)); snd (fst (snd n)); snd (snd n)] -> ~ In newline (show x)).
      { intros x Hx. apply one_word_newline, Hword, Hg, in_flat_map. eauto. }
      unfold node_text. repeat apply not_in_app; auto using sp_newline, show_int_newline; apply Hg'; cbn; auto.
    - apply Forall_concat, Forall_map, Forall_forall. intros b Hb. pose proof (so_block Hs) as Hbl. rewrite Forall_forall in Hbl.
      destruct (Hbl b Hb) as (_ & Hname & _). unfold block_text. repeat apply Forall_cons.
      + now apply lit_newline.
      + repeat apply not_in_app; auto using sp_newline, show_int_newline, one_word_newline.
      + apply Forall_map, Forall_forall. intros e _. apply not_in_app; auto using show_int_newline, row_text_newline.
    - apply Forall_concat, Forall_map, Forall_forall. intros b Hb. pose proof (so_set Hs) as Hbl. rewrite Forall_forall in Hbl.
      destruct (Hbl b Hb) as (_ & Hname & _). unfold set_text. repeat apply Forall_cons.
      + now apply lit_newline.
      + repeat apply not_in_app; auto using sp_newline, show_int_newline, one_word_newline.
      + apply Forall_map, Forall_forall. intros e _. apply show_int_newline.
  Qed.
  Definition after_header (c : content D) (m : mesh D) : rstate D :=
    RState (Some (Z.of_nat (length (c_nodes c)))) (Some (Z.of_nat (total (c_blocks c)))) 0
      (set_nodes (set_elem_ids m (resize (total (c_blocks c)) (m_elem_id m))) (map (reread_node reread) (c_nodes c))).
  Definition after_content (c : content D) (m : mesh D) : rstate D :=
    fold_left (@after_set D) (c_sets c) (fold_left (@after_block D) (c_blocks c) (after_header c m)).
  Lemma read_content c m more fuel : sound c -> Forall good (coordinates c) -> Forall harmless more ->
    5 + (length (c_blocks c) + (length (c_sets c) + length more)) <= fuel ->
    sections fuel (RState None None 0 m) (content_lines c ++ more) = Ok (after_content c m).
  Proof.
    intros Hs Hg Hm Hf.
    assert (E : exists f, fuel = 5 + (length (c_blocks c) + (length (c_sets c) + f)) /\ length more <= f).
    { exists (fuel - (5 + length (c_blocks c) + length (c_sets c))). lia. }
    destruct E as (f & -> & Hf'). clear Hf.
    unfold content_lines, header. cbn [app]. cbn [Nat.add read_sections].
    rewrite section_num_nodes by apply (so_count Hs). cbn [obind fst snd].
    rewrite section_num_elems by (first [apply (so_elems Hs)|lia]). cbn [obind fst snd rs_mesh rs_nodes rs_next].
    rewrite section_num_blocks. cbn [obind fst snd]. rewrite section_num_sets. cbn [obind fst snd].
    unfold read_section at 1.
    change (get_word (Some (lit "node_coordinates")) []) with (lit "node_coordinates", Some (@nil ascii)). cbn [fst snd].
    replace (chars_eqb (lit "node_coordinates") (lit "node_coordinates")) with true by reflexivity.
    repeat match goal with |- context [chars_eqb (lit "node_coordinates") (lit ?x)] =>
      change (chars_eqb (lit "node_coordinates") (lit x)) with false end. cbv iota.
    unfold read_node_section. cbn [rs_nodes]. replace (Z.of_nat (length (c_nodes c)) <? 0)%Z with false by lia.
    rewrite !Nat2Z.id. rewrite <- !app_assoc.
    rewrite (@read_nodes_ok D rdouble zero show reread good Hshow Hword (c_nodes c)).
    2:{ pose proof (so_nodes Hs) as Hn. rewrite Forall_forall in Hn |- *. intros n Hin. split; [auto|].
        unfold coordinates in Hg. rewrite Forall_forall in Hg.
        repeat split; apply Hg, in_flat_map; exists n; cbn; auto. }
    cbn [obind fst snd rs_elems rs_next rs_mesh].
    change (RState _ _ 0 _) with (after_header c m).
    rewrite blocks_read.
    - rewrite sets_read by apply (so_set Hs). rewrite sections_harmless by auto. reflexivity.
    - pose proof (so_block Hs) as Hb. exact Hb.
    - unfold after_header. cbn [rs_next rs_mesh set_nodes m_elem_id set_elem_ids]. unfold resize.
      rewrite app_length, firstn_length, repeat_length. lia.
  Qed.
  Lemma after_content_holds c : sound c ->
    holds (rs_mesh (after_content c (set_dim (empty_mesh D) 3))) (map_coordinates reread c) /\
    m_all_block_names (rs_mesh (after_content c (set_dim (empty_mesh D) 3))) = [] /\
    m_dim (rs_mesh (after_content c (set_dim (empty_mesh D) 3))) = 3%Z.
  Proof using D reread. clear Hshow Hword good rdouble zero show.
    intros Hs. unfold after_content. set (s1 := after_header c (set_dim (empty_mesh D) 3)).
    destruct (fold_sets (c_sets c) (fold_left (@after_block D) (c_blocks c) s1))
      as (A1 & A2 & A3 & A4 & A5 & A6 & A7 & A8 & A9 & A10 & A11 & A12 & A13 & A14 & A15 & A16).
    destruct (fold_blocks (c_blocks c) s1)
      as (B1 & B2 & B3 & B4 & B5 & B6 & B7 & B8 & B9 & B10 & B11 & B12 & B13 & B14 & B15).
    assert (He : m_elem_id (rs_mesh (fold_left (@after_block D) (c_blocks c) s1))
                 = List.concat (map (fun b => map fst (b_elems b)) (c_blocks c))).
    { assert (Er : m_elem_id (rs_mesh s1) = [] ++ repeat 0%Z (total (c_blocks c))).
      { unfold s1, after_header. cbn [rs_mesh set_nodes m_elem_id set_elem_ids set_dim empty_mesh]. unfold resize.
        rewrite firstn_nil. cbn [length app]. now rewrite Nat.sub_0_r. }
      rewrite (@fold_blocks_elems (c_blocks c) s1 [] _ Er eq_refl) by (rewrite repeat_length; lia).
      cbn [app]. rewrite skipn_all2 by (rewrite repeat_length; lia). apply app_nil_r. }
    split; [|split].
    - unfold holds.
      rewrite A2, A3, A4, A5, A6, A9, A10, A11, A12, A13, A14, A15, A16.
      rewrite B2, B3, B4, B5, B8, B9, B10, B11, B12, B13, B14, B15, He.
      unfold s1, after_header, map_coordinates. cbn [rs_mesh set_nodes set_elem_ids set_dim empty_mesh m_node_id m_x m_y m_z
        m_block_ids m_block_names m_nodes_per_elem m_block_elem_ids m_conn m_ns_ids m_ns_names m_ns_nodes
        c_nodes c_blocks c_sets app].
      rewrite !map_map. cbn [reread_node fst snd].
      split; [reflexivity|]. split; [reflexivity|]. split; [reflexivity|]. split; [reflexivity|]. split; [reflexivity|].
      split; [reflexivity|]. split; [|split; [reflexivity|]].
      + intros b Hb. pose proof (so_block_ids Hs) as Hd.
        rewrite !(@fold_assoc block _ b_id) by auto. auto.
      + intros x Hx. pose proof (so_set_ids Hs) as Hd.
        rewrite !(@fold_assoc node_set _ s_id) by auto. auto.
    - rewrite A7, B6. reflexivity.
    - rewrite A1, B1. reflexivity.
  Qed.
  (** what the writer writes *)
  Lemma write_content (m : mesh D) c global node elem derived vars : holds m c -> sound c -> named m c ->
    elem_var_names m elem derived = Ok vars ->
    database_lines show m global node elem derived = Ok (content_lines c ++ names_lines (lit "global_data") global
      ++ names_lines (lit "node_data") node ++ names_lines (lit "element_data") vars).
  Proof using D show. clear Hshow Hword good rdouble zero reread.
    intros Hh Hs Hn Hv. unfold database_lines. rewrite (node_lines_ok show Hh Hs). cbn [obind].
    pose proof Hh as (H1 & H2 & H3 & H4 & H5 & H6 & H7 & H8 & H9).
    rewrite H6, omapM_map, (@omapM_ok _ _ _ block_text) by (intros b Hb; now apply (@block_lines_ok D m c)). cbn [obind].
    rewrite H8, omapM_map, (@omapM_ok _ _ _ set_text) by (intros b Hb; now apply (@set_lines_ok D m c)). cbn [obind].
    rewrite Hv. cbn [obind]. rewrite H2, H5, !map_length, total_ids. unfold content_lines, header. rewrite <- !app_assoc. reflexivity.
  Qed.
  Lemma vars_ok (m : mesh D) elem derived :
    (forall id, In id (m_block_ids m) -> exists a b, assoc Z.eqb id elem = Some a /\ assoc Z.eqb id derived = Some b /\
                                             Forall data_name a /\ Forall data_name b) ->
    exists vars, elem_var_names m elem derived = Ok vars /\ Forall data_name vars.
  Proof using D. clear Hshow Hword good rdouble zero show reread.
    intros H. unfold elem_var_names.
    rewrite (@omapM_ok _ _ _ (fun id => match assoc Z.eqb id elem, assoc Z.eqb id derived with Some a, Some b => a ++ b | _, _ => [] end)).
    2:{ intros id Hid. destruct (H id Hid) as (a & b & Ha & Hb & _). unfold map_at. rewrite Ha, Hb. reflexivity. }
    cbn [obind]. eexists. split; [reflexivity|]. apply Forall_forall. intros x Hx. apply in_uniq, in_isort, in_concat in Hx.
    destruct Hx as (l & Hl & Hx). apply in_map_iff in Hl. destruct Hl as (id & <- & Hid).
    destruct (H id Hid) as (a & b & Ha & Hb & Fa & Fb). rewrite Ha, Hb in Hx. rewrite Forall_forall in Fa, Fb.
    apply in_app_iff in Hx. destruct Hx; auto.
  Qed.
End Round.
