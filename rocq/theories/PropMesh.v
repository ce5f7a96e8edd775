(** * C40, C41, C63: meshes and their text files *)
From Coq Require Import NArith Reals Lra Permutation.
From Verif Require Import Base ListLemmas Strings InputModel InputSpec InputProofs InputProofs2 InputProofs3
  MeshTextModel MeshTextSpec MeshTextProofs MeshTextProofs2.
Local Close Scope string_scope.
Local Open Scope list_scope.
Set Implicit Arguments.
Notation length := List.length.

(** The file written for a mesh, followed by anything that opens no section (e.g. the results of the
    time steps), reads back as a mesh of the same content; [reread x] is the double obtained by
    reading what is printed for [x]. *)
Theorem C40_roundtrip :
  forall D (rdouble : chars -> option (D * chars)) zero show reread (m : mesh D) c global node elem derived more file_name,
    holds m c -> sound c ->
    (forall b, In b (c_blocks c) -> assoc Z.eqb (b_id b) (m_all_block_names m) = Some (b_name b)) ->
    (forall x, In x (coordinates c) -> one_word (show x) /\
       forall r, (r = [] \/ exists t, r = " "%char :: t) -> rdouble (show x ++ r) = Some (reread x, r)) ->
    Forall data_name global -> Forall data_name node ->
    (forall b, In b (c_blocks c) -> exists e d, assoc Z.eqb (b_id b) elem = Some e /\ assoc Z.eqb (b_id b) derived = Some d /\
       Forall data_name e /\ Forall data_name d) ->
    more <> [] -> Forall harmless more -> file_name <> lit "none" ->
    exists text m',
      write_database show m global node elem derived = Ok text /\
      read_text_file rdouble zero (empty_mesh D) file_name (Some (text ++ unlines more)) = Ok m' /\
      holds m' (map_coordinates reread c) /\ m_dim m' = 3%Z.
Proof.
  intros D rdouble zero show reread m c global node elem derived more name Hh Hs Hn Hd Hg Hnd He Hmne Hm Hname.
  destruct (@vars_ok D m elem derived) as (vars & Hv & Fv).
  { destruct Hh as (_ & _ & _ & _ & _ & -> & _). intros id Hid. apply in_map_iff in Hid. destruct Hid as (b & <- & Hb).
    destruct (He b Hb) as (e & d & H1 & H2 & H3 & H4). eauto 8. }
  set (tail := names_lines (lit "global_data") global ++ names_lines (lit "node_data") node ++ names_lines (lit "element_data") vars).
  assert (Ht : Forall harmless tail).
  { repeat (apply Forall_app; split); apply names_lines_harmless; auto; apply lit_data_name; try reflexivity; discriminate. }
  assert (Hnl : forall l, Forall harmless l -> Forall (fun l => ~ In "010"%char l) l).
  { intros l Hl. eapply Forall_impl; [|exact Hl]. now intros a (H & _). }
  exists (file_of_lines (content_lines show c ++ tail)), (rs_mesh (after_content reread c (set_dim (empty_mesh D) 3))).
  split; [|split].
  - unfold write_database. rewrite (@write_content D show m c _ _ _ _ vars Hh Hs Hn Hv). reflexivity.
  - unfold read_text_file. destruct (chars_eqb name (lit "none")) eqn:E; [apply chars_eqb_eq in E; contradiction|].
    rewrite file_lines_of.
    2:{ apply Forall_app. split; [|now apply Hnl].
        apply (@content_newline D rdouble show reread (fun x => In x (coordinates c))); auto.
        - intros x r Hx Hr. destruct (Hd x Hx) as (_ & H). now apply H.
        - intros x Hx. now destruct (Hd x Hx).
        - now apply Forall_forall. }
    rewrite file_lines_unlines by auto. rewrite <- app_assoc.
    rewrite (@read_content D rdouble zero show reread (fun x => In x (coordinates c))); auto.
    + intros x r Hx Hr. destruct (Hd x Hx) as (_ & H). now apply H.
    + intros x Hx. now destruct (Hd x Hx).
    + now apply Forall_forall.
    + apply Forall_app. auto.
    + rewrite !app_length. unfold content_lines, header. rewrite !app_length. cbn [length].
      assert (Hb : length (c_blocks c) <= length (List.concat (map block_text (c_blocks c)))).
      { clear. induction (c_blocks c) as [|b l IH]; cbn; [lia|]. rewrite app_length. lia. }
      assert (Hx : length (c_sets c) <= length (List.concat (map set_text (c_sets c)))).
      { clear. induction (c_sets c) as [|b l IH]; cbn; [lia|]. rewrite app_length. lia. }
      lia.
  - destruct (after_content_holds reread Hs) as (H1 & _ & H3). auto.
Qed.
Print Assumptions C40_roundtrip.
(** .. hence the same mesh, when every coordinate survives printing and reading *)
Theorem C40_roundtrip_same :
  forall D (rdouble : chars -> option (D * chars)) zero show (m : mesh D) c global node elem derived file_name,
    holds m c -> sound c ->
    (forall b, In b (c_blocks c) -> assoc Z.eqb (b_id b) (m_all_block_names m) = Some (b_name b)) ->
    (forall x, In x (coordinates c) -> one_word (show x) /\
       forall r, (r = [] \/ exists t, r = " "%char :: t) -> rdouble (show x ++ r) = Some (x, r)) ->
    Forall data_name global -> Forall data_name node ->
    (forall b, In b (c_blocks c) -> exists e d, assoc Z.eqb (b_id b) elem = Some e /\ assoc Z.eqb (b_id b) derived = Some d /\
       Forall data_name e /\ Forall data_name d) ->
    file_name <> lit "none" ->
    exists text m',
      write_database show m global node elem derived = Ok text /\
      read_text_file rdouble zero (empty_mesh D) file_name (Some text) = Ok m' /\ holds m' c.
Proof.
  intros D rdouble zero show m c global node elem derived name Hh Hs Hn Hd Hg Hnd He Hname.
  destruct (@C40_roundtrip D rdouble zero show (fun x => x) m c global node elem derived [[]] name) as (text & m' & H1 & H2 & H3 & _); auto.
  { discriminate. }
  { apply Forall_cons; [|apply Forall_nil]. split; [intros []|]. left. constructor. }
  exists text, m'. cbn [unlines] in H2. rewrite app_nil_r in H2. split; [auto|]. split; [auto|].
  replace c with (map_coordinates (fun x : D => x) c); auto. destruct c as [nodes bs ss]. unfold map_coordinates. cbn.
  f_equal. rewrite <- (map_id nodes) at 2. apply map_ext. now intros (i & ((x & y) & z)).
Qed.
Print Assumptions C40_roundtrip_same.

(** A mesh set up with Initialize from the tables of any sound content (on a fresh mesh, so without
    node sets) holds that content, so all the queries of C63 and C41 apply to it, and it can be written
    and read back. *)
Definition tables {D} (c : content D) : mesh D :=
  initialize (empty_mesh D) (map fst (c_nodes c)) (map (fun n => fst (fst (snd n))) (c_nodes c)) (map (fun n => snd (fst (snd n))) (c_nodes c))
    (map (fun n => snd (snd n)) (c_nodes c)) (List.concat (map (fun b => map fst (b_elems b)) (c_blocks c))) (map b_id (c_blocks c))
    (map (fun b => (b_id b, b_name b)) (c_blocks c)) (map (fun b => (b_id b, map fst (b_elems b))) (c_blocks c))
    (map (fun b => (b_id b, Z.of_nat (b_npe b))) (c_blocks c)) (map (fun b => (b_id b, List.concat (map snd (b_elems b)))) (c_blocks c)).
Lemma assoc_table {V} (f : block -> V) bs b : NoDup (map b_id bs) -> In b bs -> assoc Z.eqb (b_id b) (map (fun b => (b_id b, f b)) bs) = Some (f b).
Proof.
  induction bs as [|a bs IH]; intros Hd Hb; [destruct Hb|]. cbn [map] in *. inversion Hd as [|? ? Hn Hd']; subst. cbn [assoc].
  destruct Hb as [->|Hb]; [now rewrite Z.eqb_refl|]. destruct (Z.eqb_spec (b_id b) (b_id a)) as [E|_]; auto.
  exfalso. apply Hn. rewrite <- E. now apply in_map.
Qed.
Theorem C40_initialized_roundtrip :
  forall D (rdouble : chars -> option (D * chars)) zero show (c : content D) global node elem derived file_name,
    sound c -> c_sets c = [] ->
    holds (tables c) c /\
    ((forall x, In x (coordinates c) -> one_word (show x) /\
       forall r, (r = [] \/ exists t, r = " "%char :: t) -> rdouble (show x ++ r) = Some (x, r)) ->
    Forall data_name global -> Forall data_name node ->
    (forall b, In b (c_blocks c) -> exists e d, assoc Z.eqb (b_id b) elem = Some e /\ assoc Z.eqb (b_id b) derived = Some d /\
       Forall data_name e /\ Forall data_name d) ->
    file_name <> lit "none" ->
    exists text m',
      write_database show (tables c) global node elem derived = Ok text /\
      read_text_file rdouble zero (empty_mesh D) file_name (Some text) = Ok m' /\ holds m' c).
Proof.
  intros D rdouble zero show c global node elem derived name Hs He.
  assert (Hh : holds (tables c) c).
  { unfold holds, tables, initialize. cbn [m_node_id m_x m_y m_z m_elem_id m_block_ids m_block_names m_nodes_per_elem m_block_elem_ids m_conn m_ns_ids m_ns_names m_ns_nodes].
    rewrite He. do 6 (split; [reflexivity|]). split; [|split; [reflexivity|intros s []]].
    intros b Hb. pose proof (so_block_ids Hs) as Hd. repeat split; (rewrite assoc_table by auto; reflexivity). }
  split; auto. intros Hd Hg Hn Hv Hf.
  apply (@C40_roundtrip_same D rdouble zero show (tables c) c global node elem derived name); auto.
  intros b Hb. unfold tables, initialize. cbn [m_all_block_names]. apply assoc_table; auto. apply (so_block_ids Hs).
Qed.
Print Assumptions C40_initialized_roundtrip.
(** the premises: [cube_content] below without its node set *)

(** a mesh that meets the premises: one hexahedron, one node set; doubles are unary numbers here *)
Definition cube_content : content nat :=
  Content (map (fun i => (Z.of_nat i, (i, 0, i))) (seq 0 8))
    [Block 1 (lit "block_1") 8 [(0%Z, [0; 1; 2; 3; 4; 5; 6; 7]%Z)]] [NodeSet 3 (lit "left") [0; 3]%Z].
Definition cube_mesh : mesh nat :=
  Mesh 3 [0; 1; 2; 3; 4; 5; 6; 7]%Z (seq 0 8) (repeat 0 8) (seq 0 8) [0%Z] [1%Z] [1%Z] [(1%Z, lit "block_1")] [(1%Z, lit "block_1")]
    [(1%Z, [0%Z])] [(1%Z, 8%Z)] [(1%Z, [0; 1; 2; 3; 4; 5; 6; 7]%Z)] [3%Z] [(3%Z, lit "left")] [(3%Z, [0; 3]%Z)].
Definition show_nat (n : nat) : chars := dec (N.of_nat n).
Definition read_nat (s : chars) : option (nat * chars) :=
  match take_digits s with [] => None | ds => Some (N.to_nat (undec ds), skipn (length ds) s) end.
Example C40_used : holds cube_mesh cube_content /\ sound cube_content.
Proof.
  split.
  - unfold holds. repeat split; cbn.
    all: try (destruct H as [<-|[]]; reflexivity).
  - assert (Hi : forall z, (0 <= z <= 100)%Z -> int_id z) by (unfold int_id, int_range; lia).
    constructor; cbn [c_nodes c_blocks c_sets cube_content].
    + apply Forall_map, Forall_forall. intros i Hin. apply in_seq in Hin. apply Hi. cbn [fst]. lia.
    + unfold int_range. cbn. lia.
    + apply Forall_cons; [|apply Forall_nil]. cbn. split; [unfold int_range; lia|]. split.
      * split; [discriminate|]. apply Forall_forall. intros c Hc. apply isspace_not.
        repeat (destruct Hc as [<-|Hc]; [reflexivity|]). destruct Hc.
      * split; [lia|]. split; [unfold int_range; cbn; lia|]. split; [unfold int_range; cbn; lia|].
        apply Forall_cons; [|apply Forall_nil]. cbn [fst snd]. split; [apply Hi; lia|]. split; [reflexivity|].
        repeat (apply Forall_cons; [apply Hi; lia|]). apply Forall_nil.
    + cbn. constructor; [intros []|constructor].
    + unfold int_range. cbn. lia.
    + apply Forall_cons; [|apply Forall_nil]. cbn. split; [unfold int_range; lia|]. split.
      * split; [discriminate|]. apply Forall_forall. intros c Hc. apply isspace_not.
        repeat (destruct Hc as [<-|Hc]; [reflexivity|]). destruct Hc.
      * split; [unfold int_range; cbn; lia|]. repeat (apply Forall_cons; [apply Hi; lia|]). apply Forall_nil.
    + cbn. constructor; [intros []|constructor].
Qed.
Example C40_initialized_used : let c := Content (c_nodes cube_content) (c_blocks cube_content) [] in sound c /\ c_sets c = [].
Proof. destruct C40_used as (_ & [H1 H2 H3 H4 H5 _ _]). split; [|reflexivity]. constructor; auto; constructor. Qed.
Example C40_used_io : forall x, one_word (show_nat x) /\
  forall r, (r = [] \/ exists t, r = " "%char :: t) -> read_nat (show_nat x ++ r) = Some (x, r).
Proof.
  intros x. split.
  - split; [apply dec_nonempty|apply dec_white].
  - intros r Hr. unfold read_nat, show_nat. rewrite take_digits_ends by (auto using dec_digits).
    pose proof (dec_nonempty (N.of_nat x)) as Hne. destruct (dec (N.of_nat x)) as [|c ds] eqn:E; [congruence|]. rewrite <- E.
    rewrite undec_dec, Nat2N.id. rewrite skipn_app, skipn_all, Nat.sub_diag. reflexivity.
Qed.

(** ** What the English statement promises and the code does not do *)
(** A mesh read from a text file that has a block cannot be written: GetBlockName looks in a table
    that only the exodus reader fills. *)
Lemma read_keeps_names D (rdouble : chars -> option (D * chars)) zero fuel : forall s ls s',
  read_sections rdouble zero fuel s ls = Ok s' -> m_all_block_names (rs_mesh s') = m_all_block_names (rs_mesh s).
Proof.
  induction fuel as [|fuel IH]; intros s ls s' H; cbn [read_sections] in H; [now injection H as <-|].
  destruct ls as [|l ls]; [now injection H as <-|].
  destruct (read_section rdouble zero s l ls) as [(s1 & ls1)| | |] eqn:E; try discriminate. cbn [obind fst snd] in H.
  rewrite (IH _ _ _ H). clear H IH. unfold read_section in E.
  repeat match type of E with (if ?b then _ else _) = _ => destruct b end; try (now injection E as <- <-).
  - destruct (fst (get_int _ _)) as [n|]; [|discriminate]. destruct (n <? 0)%Z; [discriminate|]. now injection E as <- <-.
  - unfold read_node_section in E. destruct (rs_nodes s) as [n|]; [|discriminate]. destruct (n <? 0)%Z; [discriminate|].
    destruct (read_nodes _ _ _ _ _) as [r| | |]; try discriminate. now injection E as <- <-.
  - unfold read_block_section in E. destruct (getline l ls) as (str & ls2). destruct (get_int (Some str) None) as (id & st).
    destruct (get_word st []) as (nm & st2). destruct (get_int st2 None) as (n & st3). destruct (get_int st3 None) as (npe & st4).
    destruct id as [id|], n as [n|], npe as [npe|]; try discriminate.
    destruct (negb (in_int (n * npe))); [discriminate|]. destruct ((n * npe <? 0) || (n <? 0))%Z; [discriminate|].
    destruct (read_elems _ _ _ _ _ _) as [r| | |]; try discriminate. cbn [obind] in E.
    destruct r as (((ids & conn) & (all & next)) & ls3). now injection E as <- <-.
  - unfold read_set_section in E. destruct (getline l ls) as (str & ls2). destruct (get_int (Some str) None) as (id & st).
    destruct (get_word st []) as (nm & st2). destruct (get_int st2 None) as (n & st3).
    destruct id as [id|], n as [n|]; try discriminate. destruct (n <? 0)%Z; [discriminate|].
    destruct (read_set _ _ _) as [r| | |]; try discriminate. now injection E as <- <-.
Qed.
Theorem C40_text_mesh_cannot_be_written_refuted :
  forall D (rdouble : chars -> option (D * chars)) zero show file_name file m,
    read_text_file rdouble zero (empty_mesh D) file_name file = Ok m -> m_block_ids m <> [] ->
    forall global node elem derived text, write_database show m global node elem derived <> Ok text.
Proof.
  intros D rdouble zero show file_name file m H Hb global node elem derived text E.
  assert (Hn : m_all_block_names m = []).
  { unfold read_text_file in H. destruct (chars_eqb file_name (lit "none")); [now injection H as <-|].
    destruct file as [t|]; [|discriminate].
    destruct (read_sections _ _ _ _ _) as [s| | |] eqn:Er; try discriminate. cbn [obind] in H. injection H as <-.
    now rewrite (read_keeps_names _ _ _ _ _ Er). }
  unfold write_database, database_lines in E.
  destruct (omapM (node_line show m) (seq 0 (length (m_x m)))); cbn [obind] in E; try discriminate.
  destruct (m_block_ids m) as [|id ids]; [congruence|]. cbn [omapM] in E. unfold block_lines at 1 in E.
  unfold map_at at 1 in E. rewrite Hn in E. discriminate.
Qed.
Print Assumptions C40_text_mesh_cannot_be_written_refuted.
(** .. such meshes exist *)
Theorem C40_text_mesh_exists : exists m,
  read_text_file read_nat 0 (empty_mesh nat) (lit "a.g")
    (Some (unlines [lit "number_of_elements 1"; lit "element_block"; lit "7 b 1 1"; lit "1 1"])) = Ok m /\ m_block_ids m = [7%Z].
Proof. eexists. split; [vm_compute; reflexivity|reflexivity]. Qed.

(** 16 digits do not determine a double: whatever is read back for what is printed, some coordinate
    changes. *)
Theorem C40_precision_refuted :
  forall print read : R -> R, (forall x, double x -> prints x (print x)) -> exists x, double x /\ read (print x) <> x.
Proof.
  intros print read Hp. set (y := (1 + powerRZ 2 (-52))%R).
  assert (E52 : powerRZ 2 (-52) = (/ 4503599627370496)%R).
  { change (powerRZ 2 (-52)) with (/ (2 ^ 52))%R. f_equal. rewrite (pow_IZR 2 52). reflexivity. }
  assert (D1 : double 1). { exists 1%Z, 0%Z. split; [reflexivity|]. split; [lia|]. cbn. lra. }
  assert (Dy : double y).
  { exists (2 ^ 52 + 1)%Z, (-52)%Z. split; [reflexivity|]. split; [lia|]. unfold y. rewrite E52.
    change (2 ^ 52 + 1)%Z with 4503599627370497%Z. lra. }
  assert (S1 : sixteen_digits 1).
  { exists (10 ^ 15)%Z, (-15)%Z. split; [lia|]. change (powerRZ 10 (-15)) with (/ (10 ^ 15))%R.
    rewrite (pow_IZR 10 15). change (Z.of_nat 15) with 15%Z. change (10 ^ 15)%Z with 1000000000000000%Z. lra. }
  assert (Ey : y = (1 + / 4503599627370496)%R) by (unfold y; now rewrite E52). clearbody y.
  (* a printed number other than 1 is at least twice as far away from y as 1 is *)
  assert (Hfar : forall q, sixteen_digits q -> q = 1%R \/ (q < 1)%R \/ (1 + / 1000000000000000 <= q)%R).
  { intros q (k & e & Hk & ->). destruct (Z_lt_le_dec k 0) as [Hk0|Hk0].
    - right. left. assert (0 < powerRZ 10 e)%R by (apply powerRZ_lt; lra). apply (IZR_lt k 0) in Hk0. nra.
    - rewrite Z.abs_eq in Hk by auto. destruct (Z.lt_trichotomy e (-15)) as [He|[->|He]].
      + right. left. assert (Hq : (IZR k * powerRZ 10 e < IZR (10 ^ 16) * powerRZ 10 (-16))%R).
        { apply Rlt_le_trans with (IZR (10 ^ 16) * powerRZ 10 e)%R.
          - apply Rmult_lt_compat_r; [apply powerRZ_lt; lra|]. apply IZR_lt. lia.
          - apply Rmult_le_compat_l; [apply (IZR_le 0); lia|].
            replace e with (-16 - (-16 - e))%Z by lia. unfold Zminus at 1. rewrite powerRZ_add by lra.
            assert (H1 : (powerRZ 10 (- (-16 - e)) <= 1)%R).
            { destruct (Z.eq_dec (-16 - e) 0) as [->|Hne]; [cbn; lra|]. destruct (- (-16 - e))%Z eqn:E; try lia.
              cbn [powerRZ]. rewrite <- Rinv_1. apply Rinv_le_contravar; [lra|].
              apply pow_R1_Rle. lra. }
            assert (H2 : (0 < powerRZ 10 (-16))%R) by (apply powerRZ_lt; lra). nra. }
        eapply Rlt_le_trans; [exact Hq|]. change (powerRZ 10 (-16)) with (/ (10 ^ 16))%R.
        rewrite (pow_IZR 10 16). change (Z.of_nat 16) with 16%Z. rewrite Rinv_r; [lra|]. apply (IZR_neq _ 0). lia.
      + assert (E : powerRZ 10 (-15) = (/ 1000000000000000)%R).
        { change (powerRZ 10 (-15)) with (/ (10 ^ 15))%R. f_equal. rewrite (pow_IZR 10 15). reflexivity. }
        rewrite E. destruct (Z.eq_dec k (10 ^ 15)) as [->|Hne].
        * left. change (10 ^ 15)%Z with 1000000000000000%Z. lra.
        * right. right. assert (1000000000000001 <= k)%Z by lia. apply IZR_le in H. lra.
      + right. right. assert (Hq : (IZR (10 ^ 15) * powerRZ 10 (-14) <= IZR k * powerRZ 10 e)%R).
        { apply Rmult_le_compat; [apply (IZR_le 0); lia|left; apply powerRZ_lt; lra|apply IZR_le; lia|].
          replace e with (-14 + (e + 14))%Z by lia. rewrite powerRZ_add by lra.
          assert (H1 : (1 <= powerRZ 10 (e + 14))%R).
          { destruct (e + 14)%Z as [|p|p] eqn:E; [cbn; lra| |lia]. cbn [powerRZ]. apply pow_R1_Rle. lra. }
          assert (H2 : (0 < powerRZ 10 (-14))%R) by (apply powerRZ_lt; lra). nra. }
        eapply Rle_trans; [|exact Hq]. change (powerRZ 10 (-14)) with (/ (10 ^ 14))%R.
        rewrite (pow_IZR 10 14). change (Z.of_nat 14) with 14%Z. change (10 ^ 15)%Z with 1000000000000000%Z.
        change (10 ^ 14)%Z with 100000000000000%Z. lra. }
  assert (P1 : print 1%R = 1%R).
  { destruct (Hp _ D1) as (Hs & Hmin). specialize (Hmin _ S1). replace (1 - 1)%R with 0%R in Hmin by lra. rewrite Rabs_R0 in Hmin.
    pose proof (Rabs_pos (1 - print 1%R)). assert (E0 : Rabs (1 - print 1%R) = 0%R) by lra.
    destruct (Req_dec (1 - print 1%R) 0) as [H0|H0]; [lra|]. apply Rabs_no_R0 in H0. contradiction. }
  assert (Py : print y = 1%R).
  { destruct (Hp _ Dy) as (Hs & Hmin). specialize (Hmin _ S1).
    assert (Ea : Rabs (y - 1) = (/ 4503599627370496)%R).
    { rewrite Ey. replace (1 + / 4503599627370496 - 1)%R with (/ 4503599627370496)%R by lra. apply Rabs_right. lra. }
    rewrite Ea in Hmin. destruct (Hfar _ Hs) as [H|[H|H]]; auto; exfalso.
    - rewrite Rabs_right in Hmin by lra. lra.
    - rewrite Rabs_left in Hmin by lra. lra. }
  destruct (Req_dec (read 1%R) 1) as [H|H].
  - exists y. split; auto. rewrite Py, H. lra.
  - exists 1%R. split; auto. now rewrite P1.
Qed.
Print Assumptions C40_precision_refuted.
(** Malformed files are not rejected: a missing node number becomes node -1 .. *)
Theorem C40_short_row_refuted :
  forall D (rdouble : chars -> option (D * chars)) zero, exists m,
    read_text_file rdouble zero (empty_mesh D) (lit "a.g")
      (Some (unlines [lit "number_of_elements 1"; lit "element_block"; lit "1 b 1 4"; lit "1 5 6"])) = Ok m /\
    m_conn m = [(1%Z, [4; 5; -1; -1]%Z)].
Proof. intros. eexists. split; [vm_compute; reflexivity|reflexivity]. Qed.
Print Assumptions C40_short_row_refuted.
(** .. a block with more elements than announced is written beyond the end of the array .. *)
Theorem C40_element_count_refuted :
  forall D (rdouble : chars -> option (D * chars)) zero,
    read_text_file rdouble zero (empty_mesh D) (lit "a.g")
      (Some (unlines [lit "number_of_elements 1"; lit "element_block"; lit "1 b 2 1"; lit "1 1"; lit "2 2"])) = UB.
Proof. reflexivity. Qed.
Print Assumptions C40_element_count_refuted.
(** .. and a file that ends too early repeats its last line. *)
Theorem C40_truncated_refuted :
  forall D (rdouble : chars -> option (D * chars)) zero, exists m,
    read_text_file rdouble zero (empty_mesh D) (lit "a.g")
      (Some (unlines [lit "nodeset"; lit "1 s 3"; lit "9"])) = Ok m /\ m_ns_nodes m = [(1%Z, [8; 8; 8]%Z)].
Proof. intros. eexists. split; [vm_compute; reflexivity|reflexivity]. Qed.
Print Assumptions C40_truncated_refuted.
