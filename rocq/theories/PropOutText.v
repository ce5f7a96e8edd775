(** C75: the results of the time steps in a text file. *)
From Coq Require Import NArith Sorting.Sorted.
From Verif Require Import Base ListLemmas Strings InputModel InputSpec MeshTextModel MeshTextSpec MeshTextProofs OutTextModel OutTextSpec OutTextProofs.
Local Close Scope string_scope.
Local Open Scope list_scope.
Set Implicit Arguments.
Local Notation length := List.length.

Lemma leb_total a : forall b, chars_leb a b = false -> chars_leb b a = true.
Proof.
  induction a as [|c a IH]; intros [|d b] H; cbn [chars_leb] in *; try reflexivity; try discriminate.
  destruct (N.ltb_spec (N_of_ascii c) (N_of_ascii d)) as [L|L]; [discriminate|].
  destruct (N.ltb_spec (N_of_ascii d) (N_of_ascii c)) as [M|M]; [reflexivity|]. auto.
Qed.
Lemma leb_trans a : forall b c, chars_leb a b = true -> chars_leb b c = true -> chars_leb a c = true.
Proof.
  induction a as [|x a IH]; intros [|y b] [|z c] H1 H2; cbn [chars_leb] in *; try reflexivity; try discriminate.
  destruct (N.ltb_spec (N_of_ascii x) (N_of_ascii y)) as [L|L].
  - destruct (N.ltb_spec (N_of_ascii y) (N_of_ascii z)) as [M|M]; [now rewrite (proj2 (N.ltb_lt _ _)) by lia|].
    destruct (N.ltb_spec (N_of_ascii z) (N_of_ascii y)) as [K|K]; [discriminate|]. now rewrite (proj2 (N.ltb_lt _ _)) by lia.
  - destruct (N.ltb_spec (N_of_ascii y) (N_of_ascii x)) as [L'|L']; [discriminate|].
    replace (N_of_ascii x) with (N_of_ascii y) by lia. destruct (N_of_ascii y <? N_of_ascii z)%N; [reflexivity|]. destruct (N_of_ascii z <? N_of_ascii y)%N; [discriminate|]. eauto.
Qed.
Lemma leb_antisym a : forall b, chars_leb a b = true -> chars_leb b a = true -> a = b.
Proof.
  induction a as [|x a IH]; intros [|y b] H1 H2; cbn [chars_leb] in *; try reflexivity; try discriminate.
  destruct (N.ltb_spec (N_of_ascii x) (N_of_ascii y)) as [L|L].
  - rewrite (proj2 (N.ltb_ge _ _)) in H2 by lia. discriminate.
  - destruct (N.ltb_spec (N_of_ascii y) (N_of_ascii x)) as [L'|L']; [discriminate|]. f_equal; [|auto].
    rewrite <- (ascii_N_embedding x), <- (ascii_N_embedding y). f_equal. lia.
Qed.
Lemma vars_nodup l : NoDup (uniq chars_eqb (isort chars_leb l)).
Proof.
  assert (S : StronglySorted (fun a b => chars_leb a b = true /\ a <> b) (uniq chars_eqb (isort chars_leb l))).
  { apply (@uniq_sorted _ chars_eqb (fun a b => chars_leb a b = true)); [apply chars_eqb_eq|auto| |apply isort_sorted; [apply leb_total|apply leb_trans]].
    intros a b c [H1 H2] H3. split; [eapply leb_trans; eauto|]. intros <-. apply H2. now apply leb_antisym. }
  induction S as [|a m S IH F]; constructor; auto. intros X. rewrite Forall_forall in F. now destruct (F a X).
Qed.

(** what is handed over at one time fits the variables declared at the beginning: one value per
    global variable, one value per node for every node variable, one list per element variable of
    every block (which may have any length); a block without variables needs no data *)
Definition fits {D} (m : mesh D) (global node : list chars) (elem derived : list (Z * list chars)) (r : results D) : Prop :=
  length (r_global r) = length global /\ length (r_node r) = length node /\ Forall (fun x => length x = length (m_x m)) (r_node r) /\
  forall id, In id (m_block_ids m) ->
    (exists ns, assoc Z.eqb id elem = Some ns /\ (ns = [] \/ exists ds, assoc Z.eqb id (r_elem r) = Some ds /\ length ds = length ns)) /\
    (exists ns, assoc Z.eqb id derived = Some ns /\ (ns = [] \/ exists ds, assoc Z.eqb id (r_derived r) = Some ds /\ length ds = length ns)).
(** the element data of a block with their names *)
Definition named {D} (names : list (Z * list chars)) (data : list (Z * list (list D))) (id : Z) : list (chars * list D) :=
  match assoc Z.eqb id names, assoc Z.eqb id data with Some ns, Some ds => combine ns ds | _, _ => [] end.

(** A file that was started by the program for any declared variables, and to which any number of
    steps was appended, is the head of the file followed by a text from which a reader who knows the
    numbers of global variables, node variables and nodes recovers exactly the steps, in order: the
    printed time, global values and node values, and for every block and every element variable its
    name, its number in the list of variables at the end of the head, and its values. *)
Theorem C75_results_read_back : forall D (show : D -> chars) (m : mesh D) global node elem derived head,
  (forall d, ~ In "010"%char (show d)) ->
  (forall id ns n, In id (m_block_ids m) -> assoc Z.eqb id elem = Some ns \/ assoc Z.eqb id derived = Some ns -> In n ns -> one_word n) ->
  write_database show m global node elem derived = Ok head ->
  exists front vars, head = file_of_lines (front ++ lit "element_data" :: show_int (Z.of_nat (length vars)) :: vars) /\ NoDup vars /\
  elem_var_names m elem derived = Ok vars /\
  forall steps, Forall (fits m global node elem derived) steps ->
  exists text frames,
    ofold (fun file r => write_step show file (m_block_ids m) vars (r_time r) (r_global r) (r_node r) elem (r_elem r) derived (r_derived r)) steps head
      = Ok (head ++ text) /\
    frames_of (length global) (length node) (length (m_x m)) text = Some (map (shown show) frames) /\
    Forall2 (fun r f =>
      fr_time f = r_time r /\ fr_global f = r_global r /\ fr_node f = r_node r /\
      map (fun c => (co_block c, (co_name c, co_values c))) (fr_elem f) =
        flat_map (fun id => map (pair id) (named elem (r_elem r) id ++ named derived (r_derived r) id)) (m_block_ids m) /\
      Forall (fun c => (1 <= co_index c)%Z /\ nth_error vars (Z.to_nat (co_index c - 1)) = Some (co_name c)) (fr_elem f)) steps frames.
Proof.
  intros D show m global node elem derived head Hshow Hw Hh. unfold write_database, database_lines in Hh.
  destruct (omapM (node_line show m) _) as [nodes| | |]; try discriminate. cbn [obind] in Hh.
  destruct (omapM (block_lines m) _) as [blocks| | |]; try discriminate. cbn [obind] in Hh.
  destruct (omapM (set_lines m) _) as [sets| | |]; try discriminate. cbn [obind] in Hh.
  destruct (elem_var_names m elem derived) as [vars| | |] eqn:Ev; try discriminate. cbn [obind] in Hh.
  assert (Oi : forall x y : chars, Ok x = Ok y -> x = y) by (intros x y E; now injection E). apply Oi in Hh. clear Oi.
  eexists _, vars. split; [|split; [|split; [reflexivity|]]].
  - rewrite <- Hh. rewrite !app_assoc. reflexivity.
  - unfold elem_var_names in Ev. destruct (omapM _ (m_block_ids m)) as [ns| | |]; try discriminate. cbn [obind] in Ev. injection Ev as <-. apply vars_nodup.
  - assert (Hin : forall id ns, In id (m_block_ids m) -> assoc Z.eqb id elem = Some ns \/ assoc Z.eqb id derived = Some ns -> forall n, In n ns -> In n vars).
    { unfold elem_var_names in Ev. intros id ns Hid Hns n Hn. destruct (omapM _ (m_block_ids m)) as [l| | |] eqn:El; try discriminate. cbn [obind] in Ev. injection Ev as <-.
      apply uniq_In; [apply chars_eqb_eq|]. apply isort_In. clear - El Hid Hns Hn. revert l El. induction (m_block_ids m) as [|i ids IH]; intros l El; [destruct Hid|]. cbn [omapM] in El. unfold map_at in El at 1.
      destruct (assoc Z.eqb i elem) as [a|] eqn:Ea; [|discriminate]. cbn [obind] in El. unfold map_at in El at 1.
      destruct (assoc Z.eqb i derived) as [b|] eqn:Eb; [|discriminate]. cbn [obind] in El.
      destruct (omapM _ ids) as [l'| | |]; try discriminate. cbn [obind] in El. injection El as <-. cbn [List.concat]. apply in_or_app.
      destruct Hid as [->|Hid]; [left|right; apply (IH Hid l' eq_refl)]. apply in_or_app. destruct Hns as [Hns|Hns]; [left|right]; congruence. }
    clear Hh Ev. intros steps F. set (fr := @to_frame D (m_block_ids m) vars elem derived).
    exists (file_of_lines (flat_map frame_lines (map (shown show) (map fr steps)))), (map fr steps). split; [|split].
    + revert head. induction F as [|r steps Hr F IH]; intros head; [cbn; now rewrite app_nil_r|]. cbn [ofold map flat_map]. unfold write_step at 1.
      rewrite step_ok; [|intros id Hid; destruct Hr as (_ & _ & _ & Hr); exact (Hr id Hid)|exact Hin]. cbn [obind].
      fold (fr r). rewrite IH. now rewrite file_of_lines_app, app_assoc.
    + apply frames_of_ok.
      * apply Forall_forall. intros f Hf. apply in_map_iff in Hf as (f' & <- & Hf). apply in_map_iff in Hf as (r & <- & Hr). rewrite Forall_forall in F. destruct (F r Hr) as (H1 & H2 & H3 & H4).
        unfold frame_ok, shown, fr, to_frame. cbn [fr_time fr_global fr_node fr_elem]. rewrite !map_length. split; [auto|]. split; [auto|]. split.
        -- apply Forall_map. eapply Forall_impl; [|exact H3]. intros x Hx. now rewrite map_length.
        -- apply Forall_map. cbn [co_name]. apply Forall_forall. intros c Hc. apply in_flat_map in Hc as (id & Hid & Hc). unfold columns in Hc. apply in_map_iff in Hc as ([n d] & <- & Hc). cbn [co_name fst].
           apply in_app_or in Hc. destruct (H4 id Hid) as [(ns & E1 & _) (ns' & E1' & _)]. unfold pairs in Hc. rewrite E1, E1' in Hc. assert (Hc' : In n ns \/ In n ns') by (destruct Hc as [Hc|Hc]; [destruct (assoc Z.eqb id (r_elem r)); [left; eapply in_combine_l; exact Hc|destruct Hc]|destruct (assoc Z.eqb id (r_derived r)); [right; eapply in_combine_l; exact Hc|destruct Hc]]). clear Hc. rename Hc' into Hc.
           destruct Hc as [Hc|Hc]; [apply (Hw id ns n)|apply (Hw id ns' n)]; auto.
      * apply Forall_forall. intros f Hf. apply in_map_iff in Hf as (f' & <- & _). unfold clean_frame, shown. cbn [fr_time fr_global fr_node fr_elem].
        assert (A : forall l, Forall (fun x => ~ In nl x) (map show l)) by (intros l; apply Forall_map, Forall_forall; intros; apply Hshow).
        split; [apply Hshow|]. split; [apply A|]. split; [apply Forall_map, Forall_forall; intros; apply A|]. apply Forall_map, Forall_forall. intros. apply A.
    + induction F as [|r steps Hr F IH]; cbn [map]; constructor; auto. unfold fr, to_frame. cbn [fr_time fr_global fr_node fr_elem].
      split; [reflexivity|]. split; [reflexivity|]. split; [reflexivity|]. split.
      * clear. induction (m_block_ids m) as [|id ids IH]; [reflexivity|]. cbn [flat_map]. rewrite map_app, IH. f_equal. unfold columns. rewrite map_map. cbn [co_block co_name co_values]. 
        apply map_ext. intros []; reflexivity.
      * destruct Hr as (_ & _ & _ & H4). apply Forall_forall. intros c Hc. apply in_flat_map in Hc as (id & Hid & Hc). unfold columns in Hc. apply in_map_iff in Hc as ([n d] & <- & Hc). cbn [co_index co_name fst].
        assert (Hv : In n vars).
        { apply in_app_or in Hc. destruct (H4 id Hid) as [(ns & E1 & _) (ns' & E1' & _)]. unfold pairs in Hc. rewrite E1, E1' in Hc. assert (Hc' : In n ns \/ In n ns') by (destruct Hc as [Hc|Hc]; [destruct (assoc Z.eqb id (r_elem r)); [left; eapply in_combine_l; exact Hc|destruct Hc]|destruct (assoc Z.eqb id (r_derived r)); [right; eapply in_combine_l; exact Hc|destruct Hc]]). clear Hc. rename Hc' into Hc.
          destruct Hc as [Hc|Hc]; [apply (Hin id ns Hid)|apply (Hin id ns' Hid)]; auto. }
        unfold index_of, elem_data_index. destruct (@index_from_ok vars n 1 Hv) as (k & -> & Hk). split; [lia|].
        replace (Z.to_nat (Z.of_nat (1 + k) - 1)) with k by lia. exact Hk.
Qed.
Print Assumptions C75_results_read_back.

(** a mesh with two blocks, an element variable on both and another on one of them, two steps *)
Definition demo : mesh Z := (Mesh 3 [0; 1; 2; 3] [0; 1; 1; 0] [0; 0; 1; 1] [0; 0; 0; 0] [0; 1] [1; 2] [1; 2]
  [(1, lit "a"); (2, lit "b")] [(1, lit "a"); (2, lit "b")] [(1, [0]); (2, [1])] [(1, 2); (2, 2)] [(1, [0; 1]); (2, [2; 3])] [] [] [])%Z.
Definition demo_elem : list (Z * list chars) := [(1%Z, [lit "stress"]); (2%Z, [lit "stress"; lit "eps"])].
Definition demo_derived : list (Z * list chars) := [(1%Z, [lit "volume"]); (2%Z, [])].
Definition demo_step (t : Z) : results Z :=
  Results t [] [[t; t + 1; t + 2; t + 3]]%Z [(1%Z, [[7 + t]]%Z); (2%Z, [[8]; [9]]%Z)] [(1%Z, [[1]]%Z); (2%Z, [])].
Example C75_used :
  match write_database show_int demo [] [lit "temperature"] demo_elem demo_derived with
  | Ok head =>
      elem_var_names demo demo_elem demo_derived = Ok [lit "eps"; lit "stress"; lit "volume"] /\
      Forall (fits demo [] [lit "temperature"] demo_elem demo_derived) [demo_step 0; demo_step 5] /\
      (forall id ns n, In id (m_block_ids demo) -> assoc Z.eqb id demo_elem = Some ns \/ assoc Z.eqb id demo_derived = Some ns -> In n ns -> one_word n)
  | _ => False
  end.
Proof.
  vm_compute write_database. split; [vm_compute; reflexivity|]. split.
  - assert (H : forall t, fits demo [] [lit "temperature"] demo_elem demo_derived (demo_step t)).
    { intros t. split; [reflexivity|]. split; [reflexivity|]. split; [repeat constructor|].
      intros id [<-|[<-|[]]]; split; eexists; (split; [reflexivity|]); right; eexists; (split; reflexivity). }
    constructor; [apply H|constructor; [apply H|constructor]].
  - assert (W : forall n, In n [lit "stress"; lit "eps"; lit "volume"] -> one_word n).
    { intros n [<-|[<-|[<-|[]]]]; (split; [discriminate|]); unfold none_of; apply Forall_forall; intros c Hc X; simpl in Hc, X; repeat (destruct Hc as [<-|Hc]); try destruct Hc; repeat (destruct X as [X|X]); try discriminate X; destruct X. }
    intros id ns n [<-|[<-|[]]] [E|E] Hn; vm_compute in E; injection E as <-; apply W; simpl in *; intuition.
Qed.
Print Assumptions C75_used.
Example C75_file :
  match step_lines show_int (m_block_ids demo) [lit "eps"; lit "stress"; lit "volume"] 5%Z [] [[5; 6; 7; 8]%Z] demo_elem (r_elem (demo_step 5)) demo_derived (r_derived (demo_step 5)) with
  | Ok ls => ls = map lit ["time"; "5"; "global_data_values"; "node_data_values"; "5"; "6"; "7"; "8"; "element_data_values";
                           "stress 2 1 1"; "12"; "volume 3 1 1"; "1"; "stress 2 2 1"; "8"; "eps 1 2 1"; "9"]%string
  | _ => False
  end.
Proof. vm_compute. reflexivity. Qed.
