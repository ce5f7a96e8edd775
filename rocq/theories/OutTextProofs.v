From Coq Require Import NArith.
From Verif Require Import Base ListLemmas Strings InputModel InputSpec MeshTextModel MeshTextSpec MeshTextProofs OutTextModel OutTextSpec.
Local Close Scope string_scope.
Local Open Scope list_scope.
Set Implicit Arguments.
Local Notation length := List.length.

Definition nl : ascii := "010"%char.
Lemma lines_from_line l : ~ In nl l -> forall cur text, lines_from cur (l ++ nl :: text) = (cur ++ l) :: lines_from [] text.
Proof.
  induction l as [|c l IH]; intros H cur text; cbn [app lines_from].
  - rewrite app_nil_r. destruct (ascii_dec nl "010"); [reflexivity|]. exfalso. now apply n.
  - destruct (ascii_dec c "010") as [->|N]; [exfalso; apply H; now left|]. rewrite IH by (intros X; apply H; now right). rewrite <- app_assoc. reflexivity.
Qed.
Lemma lines_of_file ls : Forall (fun l => ~ In nl l) ls -> lines_of (file_of_lines ls) = ls.
Proof.
  intros H. unfold lines_of, file_of_lines. induction H as [|l ls Hl H IH]; [reflexivity|]. cbn [map List.concat]. rewrite <- app_assoc. cbn [app].
  rewrite (@lines_from_line l Hl []). cbn [app]. f_equal. exact IH.
Qed.
Lemma words_from_word w : ~ In " "%char w -> forall cur r, words_from cur (w ++ " "%char :: r) = (cur ++ w) :: words_from [] r.
Proof.
  induction w as [|c w IH]; intros H cur r; cbn [app words_from].
  - rewrite app_nil_r. destruct (ascii_dec " " " "); [reflexivity|]. exfalso. now apply n.
  - destruct (ascii_dec c " ") as [->|N]; [exfalso; apply H; now left|]. rewrite IH by (intros X; apply H; now right). rewrite <- app_assoc. reflexivity.
Qed.
Lemma words_from_last w : ~ In " "%char w -> forall cur, words_from cur w = [cur ++ w].
Proof.
  induction w as [|c w IH]; intros H cur; cbn [words_from]; [now rewrite app_nil_r|].
  destruct (ascii_dec c " ") as [->|N]; [exfalso; apply H; now left|]. rewrite IH by (intros X; apply H; now right). now rewrite <- app_assoc.
Qed.
Lemma digit_not c : is_digit c = true -> c <> " "%char /\ c <> nl /\ c <> "-"%char.
Proof. intros H. repeat split; intros ->; vm_compute in H; discriminate. Qed.
Lemma dec_not n c : In c (dec n) -> c <> " "%char /\ c <> nl /\ c <> "-"%char.
Proof. intros H. pose proof (dec_digits n) as F. rewrite Forall_forall in F. now apply digit_not, F. Qed.
Lemma show_int_not z c : In c (show_int z) -> c <> " "%char /\ c <> nl.
Proof.
  unfold show_int. destruct (z <? 0)%Z; [intros [<-|H]; [split; discriminate|]|intros H]; apply dec_not in H; tauto.
Qed.
Lemma int_of_show z : int_of (show_int z) = z.
Proof.
  unfold show_int. destruct (Z.ltb_spec z 0) as [L|L].
  - cbn [int_of]. rewrite undec_dec. rewrite Z2N.id by lia. lia.
  - assert (E : int_of (dec (Z.to_N z)) = Z.of_N (undec (dec (Z.to_N z)))).
    { pose proof (dec_not (Z.to_N z)) as N. unfold int_of. destruct (dec (Z.to_N z)) as [|c r]; [reflexivity|].
      destruct (ascii_dec c "-") as [->|Nc]; [exfalso; now apply (N "-"%char (or_introl eq_refl))|].
      destruct c as [b0 b1 b2 b3 b4 b5 b6 b7]. destruct b0, b1, b2, b3, b4, b5, b6, b7; try reflexivity. exfalso. now apply Nc. }
    rewrite E, undec_dec, Z2N.id by lia. reflexivity.
Qed.
Lemma take_app {A} (l r : list A) : take (length l) (l ++ r) = Some (l, r).
Proof.
  unfold take. rewrite app_length. rewrite (proj2 (Nat.leb_le _ _)) by lia. rewrite firstn_app, Nat.sub_diag, firstn_all, firstn_O, app_nil_r.
  rewrite skipn_app, Nat.sub_diag, skipn_all. reflexivity.
Qed.
Lemma chunks_concat {A} n (l : list (list A)) : Forall (fun x => length x = n) l -> chunks (length l) n (List.concat l) = l.
Proof.
  induction 1 as [|x l Hx H IH]; [reflexivity|]. cbn [List.length chunks List.concat].
  rewrite firstn_app, Hx, Nat.sub_diag, firstn_O, app_nil_r, <- Hx, firstn_all. rewrite skipn_app, Nat.sub_diag, skipn_all. cbn [app skipn]. rewrite Hx. now rewrite IH.
Qed.

(** the text of a column *)
Definition header (c : column chars) : chars := co_name c ++ sp ++ show_int (co_index c) ++ sp ++ show_int (co_block c) ++ sp ++ show_int (Z.of_nat (length (co_values c))).
Definition column_lines (c : column chars) : list chars := header c :: co_values c.
Lemma header_words c : one_word (co_name c) -> words_of (header c) = [co_name c; show_int (co_index c); show_int (co_block c); show_int (Z.of_nat (length (co_values c)))].
Proof.
  intros [_ H]. unfold words_of, header. change sp with [" "%char]. cbn [app].
  rewrite words_from_word. 2: { intros X. unfold none_of in H. rewrite Forall_forall in H. apply (H _ X). vm_compute. auto. }
  rewrite !words_from_word by (intros X; apply show_int_not in X; tauto). rewrite words_from_last by (intros X; apply show_int_not in X; tauto). reflexivity.
Qed.
Lemma header_not_time c : one_word (co_name c) -> chars_eqb (header c) (lit "time") = false.
Proof.
  intros H. destruct (chars_eqb (header c) (lit "time")) eqn:E; [|reflexivity]. apply chars_eqb_eq in E. apply (f_equal words_of) in E. rewrite header_words in E by auto. discriminate.
Qed.
Lemma read_columns_ok cs rest : Forall (fun c => one_word (co_name c)) cs -> (rest = [] \/ exists r, rest = lit "time" :: r) ->
  forall fuel, length (flat_map column_lines cs ++ rest) <= fuel -> read_columns fuel (flat_map column_lines cs ++ rest) = Some (cs, rest).
Proof.
  intros H Hr. induction H as [|c cs Hc H IH]; intros fuel Hf.
  - cbn [flat_map app] in *. destruct Hr as [->|[r ->]]; [destruct fuel; reflexivity|]. destruct fuel as [|fuel]; [simpl in Hf; lia|]. reflexivity.
  - cbn [flat_map] in *. set (fm := flat_map column_lines cs) in *. unfold column_lines in *. cbn [app] in *. cbn [List.length] in Hf.
    rewrite !app_length in Hf. destruct fuel as [|fuel]; [lia|]. cbn [read_columns].
    rewrite header_not_time, header_words by auto. rewrite int_of_show, Nat2Z.id. rewrite <- app_assoc, take_app.
    rewrite IH by (rewrite app_length; lia). rewrite !int_of_show. destruct c; reflexivity.
Qed.
(** the text of a frame *)
Definition frame_lines (f : frame chars) : list chars :=
  [lit "time"; fr_time f; lit "global_data_values"] ++ fr_global f ++ lit "node_data_values" :: List.concat (fr_node f)
  ++ lit "element_data_values" :: flat_map column_lines (fr_elem f).
Definition frame_ok (g v n : nat) (f : frame chars) : Prop :=
  length (fr_global f) = g /\ length (fr_node f) = v /\ Forall (fun x => length x = n) (fr_node f) /\ Forall (fun c => one_word (co_name c)) (fr_elem f).
Lemma concat_len {A} n (l : list (list A)) : Forall (fun x => length x = n) l -> length (List.concat l) = length l * n.
Proof. induction 1; simpl; [reflexivity|]. rewrite app_length. lia. Qed.
Lemma frames_start fs : flat_map frame_lines fs = [] \/ exists r, flat_map frame_lines fs = lit "time" :: r.
Proof. destruct fs as [|f fs]; [now left|right]. cbn [flat_map]. unfold frame_lines at 1. cbn [app]. eauto. Qed.
Lemma read_frames_ok g v n fs : Forall (frame_ok g v n) fs -> forall fuel, length fs <= fuel -> read_frames g v n fuel (flat_map frame_lines fs) = Some fs.
Proof.
  induction 1 as [|f fs (H1 & H2 & H3 & H4) H IH]; intros fuel Hf; [destruct fuel; reflexivity|].
  cbn [List.length] in Hf. destruct fuel as [|fuel]; [lia|]. cbn [flat_map]. unfold frame_lines at 1. cbn [app read_frames].
  assert (E : forall w, chars_eqb w w = true) by (intros; now apply chars_eqb_eq). rewrite !E. cbn [andb].
  rewrite <- H1. rewrite <- app_assoc, take_app. cbn [app]. rewrite E.
  rewrite <- app_assoc. replace (v * n) with (length (List.concat (fr_node f))) by (rewrite (concat_len H3), H2; reflexivity). rewrite take_app. cbn [app]. rewrite E.
  rewrite read_columns_ok; [|exact H4|apply frames_start|lia]. rewrite H1, IH by lia. rewrite <- H2, chunks_concat by auto. destruct f; reflexivity.
Qed.
Lemma header_no_nl c : one_word (co_name c) -> ~ In nl (header c).
Proof.
  intros [_ H] X. unfold header in X. change sp with [" "%char] in X. 
  repeat (apply in_app_or in X; destruct X as [X|X]); try (apply show_int_not in X; tauto); try (destruct X as [X|[]]; discriminate).
  unfold none_of in H. rewrite Forall_forall in H. apply (H _ X). vm_compute. auto 10.
Qed.
Definition clean_frame (f : frame chars) : Prop :=
  ~ In nl (fr_time f) /\ Forall (fun l => ~ In nl l) (fr_global f) /\ Forall (Forall (fun l => ~ In nl l)) (fr_node f) /\ Forall (fun c => Forall (fun l => ~ In nl l) (co_values c)) (fr_elem f).
Lemma lit_no_nl s : existsb (fun c => if ascii_dec c nl then true else false) (lit s) = false -> ~ In nl (lit s).
Proof. intros H X. enough (existsb (fun c => if ascii_dec c nl then true else false) (lit s) = true) by congruence. apply existsb_exists. exists nl. split; [exact X|reflexivity]. Qed.
Lemma frame_lines_clean f : clean_frame f -> Forall (fun c => one_word (co_name c)) (fr_elem f) -> Forall (fun l => ~ In nl l) (frame_lines f).
Proof.
  intros (H1 & H2 & H3 & H4) H5. unfold frame_lines. apply Forall_app. split; [constructor; [apply lit_no_nl; reflexivity|]; constructor; [exact H1|]; constructor; [apply lit_no_nl; reflexivity|constructor]|].
  apply Forall_app. split; [exact H2|]. constructor; [apply lit_no_nl; reflexivity|]. apply Forall_app. split.
  - clear - H3. induction H3; cbn [List.concat]; [constructor|apply Forall_app; auto].
  - constructor; [apply lit_no_nl; reflexivity|]. induction (fr_elem f) as [|c cs IH]; cbn [flat_map]; [constructor|]. inversion_clear H4. inversion_clear H5. apply Forall_app. split; auto.
    constructor; auto. now apply header_no_nl.
Qed.
Lemma frames_of_ok g v n fs : Forall (frame_ok g v n) fs -> Forall clean_frame fs -> frames_of g v n (file_of_lines (flat_map frame_lines fs)) = Some fs.
Proof.
  intros H1 H2. unfold frames_of. rewrite lines_of_file.
  - apply read_frames_ok; auto. clear. induction fs as [|f fs IH]; [simpl; lia|]. cbn [flat_map List.length]. rewrite app_length. unfold frame_lines at 1. cbn [app List.length]. lia.
  - induction fs as [|f fs IH]; [constructor|]. inversion_clear H1 as [|? ? (_ & _ & _ & Hf) ?]. inversion_clear H2. cbn [flat_map]. apply Forall_app. split; auto. now apply frame_lines_clean.
Qed.
Lemma file_of_lines_app a b : file_of_lines (a ++ b) = file_of_lines a ++ file_of_lines b.
Proof. unfold file_of_lines. now rewrite map_app, concat_app. Qed.

(** * The writer *)
Lemma index_from_ok vars name : forall i, In name vars -> exists k, index_from i vars name = Ok (i + k) /\ nth_error vars k = Some name.
Proof.
  induction vars as [|v vars IH]; intros i []; cbn [index_from].
  - subst. exists 0. rewrite (proj2 (chars_eqb_eq name name) eq_refl), Nat.add_0_r. auto.
  - destruct (chars_eqb v name) eqn:E; [apply chars_eqb_eq in E as ->; exists 0; rewrite Nat.add_0_r; auto|].
    destruct (IH (S i) H) as (k & -> & Hk). exists (S k). split; [f_equal; lia|exact Hk].
Qed.
Section Writer.
  Variable D : Type.
  Variable show : D -> chars.
  Definition pairs (names : list (Z * list chars)) (data : list (Z * list (list D))) (id : Z) : list (chars * list D) :=
    match assoc Z.eqb id names, assoc Z.eqb id data with Some ns, Some ds => combine ns ds | _, _ => [] end.
  Definition has_data (names : list (Z * list chars)) (data : list (Z * list (list D))) (id : Z) : Prop :=
    exists ns, assoc Z.eqb id names = Some ns /\ (ns = [] \/ exists ds, assoc Z.eqb id data = Some ds /\ length ds = length ns).
  Definition index_of (vars : list chars) (name : chars) : Z := match elem_data_index vars name with Ok i => Z.of_nat i | _ => 0%Z end.
  Definition columns (vars : list chars) (id : Z) (l : list (chars * list D)) : list (column D) :=
    map (fun nd => Column (fst nd) (index_of vars (fst nd)) id (snd nd)) l.
  Definition show_column (c : column D) : column chars := Column (co_name c) (co_index c) (co_block c) (map show (co_values c)).
  Lemma step_block_ok vars names data id : has_data names data id ->
    (forall ns, assoc Z.eqb id names = Some ns -> forall n, In n ns -> In n vars) ->
    step_block_lines show vars names data id = Ok (flat_map column_lines (map show_column (columns vars id (pairs names data id)))).
  Proof.
    intros (ns & Hn & [->|(ds & Hd & Hl)]) Hv; unfold step_block_lines, pairs; unfold map_at; rewrite Hn; cbn [obind].
    { cbn [omapM seq List.length obind List.concat]. destruct (assoc Z.eqb id data); reflexivity. }
    specialize (Hv ns Hn). rewrite Hd.
    assert (E : forall nd : chars * list D, In nd (combine ns ds) -> exists k, elem_data_index vars (fst nd) = Ok k).
    { intros [n d] H. apply in_combine_l in H. destruct (@index_from_ok vars n 1 (Hv n H)) as (k & Ek & _). exists (1 + k). exact Ek. }
    assert (Lc : length ns = length (combine ns ds)) by (rewrite combine_length; lia). rewrite Lc.
    assert (Hc : forall i a, nth_error (combine ns ds) i = Some a -> nth_error ns i = Some (fst a) /\ nth_error ds i = Some (snd a)).
    { clear. revert ds. induction ns as [|n ns IH]; intros [|d ds] [|i] [a b] H; try discriminate; cbn [combine nth_error] in *; [injection H as -> ->; auto|]. now apply (IH ds). }
    rewrite (@omapM_seq (chars * list D) (list chars) _ (fun nd => column_lines (show_column (Column (fst nd) (index_of vars (fst nd)) id (snd nd)))) (combine ns ds)).
    2: { intros i a Ha. destruct (Hc i a Ha) as [Ea Eb]. destruct (E a (nth_error_In _ _ Ha)) as (k & Ek). unfold vat. rewrite Ea. cbn [obind]. rewrite Ek. cbn [obind]. rewrite Eb. cbn [obind].
      unfold column_lines, header, show_column, index_of. cbn [co_name co_index co_block co_values]. rewrite Ek, map_length. reflexivity. }
    cbn [obind]. f_equal. unfold columns. rewrite flat_map_concat_map, !map_map. reflexivity.
  Qed.

  (** one step *)
  Record results := Results { r_time : D; r_global : list D; r_node : list (list D); r_elem : list (Z * list (list D)); r_derived : list (Z * list (list D)) }.
  Definition to_frame (ids : list Z) (vars : list chars) (elem_names derived_names : list (Z * list chars)) (r : results) : frame D :=
    Frame (r_time r) (r_global r) (r_node r) (flat_map (fun id => columns vars id (pairs elem_names (r_elem r) id ++ pairs derived_names (r_derived r) id)) ids).
  Lemma step_ok ids vars elem_names derived_names r :
    (forall id, In id ids -> has_data elem_names (r_elem r) id /\ has_data derived_names (r_derived r) id) ->
    (forall id ns, In id ids -> assoc Z.eqb id elem_names = Some ns \/ assoc Z.eqb id derived_names = Some ns -> forall n, In n ns -> In n vars) ->
    step_lines show ids vars (r_time r) (r_global r) (r_node r) elem_names (r_elem r) derived_names (r_derived r) =
    Ok (frame_lines (shown show (to_frame ids vars elem_names derived_names r))).
  Proof.
    intros H1 H2. unfold step_lines.
    rewrite (@omapM_ok _ _ _ (fun id => flat_map column_lines (map show_column (columns vars id (pairs elem_names (r_elem r) id ++ pairs derived_names (r_derived r) id))))).
    - cbn [obind]. unfold frame_lines, shown, to_frame. cbn [fr_time fr_global fr_node fr_elem]. do 2 f_equal. f_equal. f_equal. f_equal. rewrite concat_map. f_equal. f_equal. f_equal.
      clear. induction ids as [|id ids IH]; [reflexivity|]. cbn [map List.concat flat_map]. rewrite map_app, flat_map_app, <- IH. reflexivity.
    - intros id Hid. destruct (H1 id Hid) as [A B]. rewrite (@step_block_ok vars _ _ _ A) by (intros ns Hns; apply (H2 id ns Hid); auto). cbn [obind].
      rewrite (@step_block_ok vars _ _ _ B) by (intros ns Hns; apply (H2 id ns Hid); auto). cbn [obind]. unfold columns. rewrite !map_app, flat_map_app. reflexivity.
  Qed.
End Writer.
