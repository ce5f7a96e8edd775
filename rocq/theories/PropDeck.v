(** Properties of the input deck: C48 options, C61 element blocks and materials, C62 boundary
    condition lines. *)
From Verif Require Import Base ListLemmas Strings InputSpec InputModel InputProofs InputProofs2 InputProofs3 InputProofs4.
From Coq Require Import NArith.
Local Close Scope string_scope.
Local Open Scope list_scope.
Set Implicit Arguments.
Notation length := List.length.

(** * C48: the input deck *)

(** on/off and integer options *)
Definition on_off (v : option chars) (d b : bool) : Prop :=
  match v with
  | Some v => (says_yes v /\ b = true) \/ (says_no v /\ b = false)
  | None => b = d
  end.
Definition int_value (v : option chars) (d z : Z) : Prop :=
  match v with
  | Some v => forall z', int_notation z' v -> int_range z' -> z = z'
  | None => z = d
  end.
Definition visualization (v : option chars) (entities boxes : bool) (file : chars) : Prop :=
  match v with
  | Some v => forall e b, plain_word file ->
      In e [lit "on"; lit "off"] -> In b [lit "on"; lit "off"] ->
      forall f, plain_word f ->
      v = unwords [lit "visualize_contact_entities"; e; lit "visualize_bounding_boxes"; b; lit "file_name"; f] ->
      entities = (if list_eq_dec ascii_dec e (lit "on") then true else false) /\
      boxes = (if list_eq_dec ascii_dec b (lit "on") then true else false) /\ file = f
  | None => entities = false /\ boxes = false /\ file = lit "none"
  end.

Lemma plain_lit (s : string) : (forallb (fun c => negb (isspace c) && (if ascii_dec c """" then false else true)) (lit s) = true) ->
  lit s <> [] -> plain_word (lit s).
Proof.
  intros H Hn. rewrite forallb_forall in H. split; [auto|]. split; apply Forall_forall; intros c Hc; specialize (H _ Hc);
    apply andb_true_iff in H; destruct H as (H1 & H2).
  - apply isspace_not. now destruct (isspace c).
  - intros ->. discriminate H2.
Qed.
Lemma visualization_value e b f : plain_word f -> In e [lit "on"; lit "off"] -> In b [lit "on"; lit "off"] ->
  parse_visualization (unwords [lit "visualize_contact_entities"; e; lit "visualize_bounding_boxes"; b; lit "file_name"; f])
  = Ok (chars_eqb e (lit "on"), chars_eqb b (lit "on"), f).
Proof.
  intros Hf He Hb. unfold parse_visualization. rewrite words_unwords.
  - destruct He as [<-|[<-|[]]], Hb as [<-|[<-|[]]]; reflexivity.
  - assert (Hoo : forall x, In x [lit "on"; lit "off"] -> plain_word x)
      by (intros x [<-|[<-|[]]]; apply plain_lit; [reflexivity|discriminate|reflexivity|discriminate]).
    repeat (apply Forall_cons; [first [apply Hoo; assumption | assumption | apply plain_lit; [reflexivity|discriminate]]|]).
    apply Forall_nil.
Qed.

Section Deck.
  Variable D : Type.
  Variable atof : chars -> D.
  Variable tol zero : D.
  Variable cfg : build.
  Notation read := (read_file atof tol zero cfg).

  Lemma read_deck ls kvs : ls <> [] -> Forall2 deck_line ls kvs -> Forall text_line ls ->
    read (unlines ls) = Finished (ofold (set_option atof cfg) (settings kvs) (defaults tol zero)).
  Proof.
    intros Hne H Ht. unfold read_file. rewrite file_lines_unlines; auto.
    - now apply read_lines_deck.
    - eapply Forall_impl; [|exact Ht]. now intros l (_ & Hl & _).
  Qed.
End Deck.

(** the last value given for a key *)
Definition given (k : string) (kvs : list (option (chars * chars))) : option chars := last_value (lit k) (settings kvs).
Arguments given k%string kvs.

(** Every option of the deck has the value of the last line naming it, or its default; boundary
    conditions are collected in order. *)
Theorem C48_options :
  forall D (atof : chars -> D) tol zero cfg ls kvs o,
    ls <> [] -> Forall2 deck_line ls kvs -> Forall text_line ls ->
    read_file atof tol zero cfg (unlines ls) = Finished (Ok o) ->
    o_genesis o = or_default (lit "none") (given "genesis input file" kvs) /\
    o_exodus o = or_default (lit "none") (given "exodus output file" kvs) /\
    on_off (given "use two level mesh decomposition" kvs) false (o_two_level o) /\
    on_off (given "write timing data file" kvs) false (o_timing o) /\
    o_scheme o = or_default (lit "explicit") (given "time integration scheme" kvs) /\
    o_tolerance o = or_default tol (option_map atof (given "nonlinear solver relative tolerance" kvs)) /\
    int_value (given "nonlinear solver maximum iterations" kvs) 200 (o_max_iterations o) /\
    o_initial_time o = or_default zero (option_map atof (given "initial time" kvs)) /\
    o_final_time o = or_default zero (option_map atof (given "final time" kvs)) /\
    int_value (given "number of load steps" kvs) 0 (o_load_steps o) /\
    int_value (given "output frequency" kvs) 1 (o_output_frequency o) /\
    o_contact o = or_default [] (given "contact" kvs) /\
    o_contact_backend o = or_default [] (given "contact backend" kvs) /\
    visualization (given "contact visualization" kvs) (o_vis_entities o) (o_vis_boxes o) (o_vis_file o) /\
    o_bcs o = values (lit "boundary condition") (settings kvs) /\
    o_output_fields o = or_default [] (given "output fields" kvs) /\
    (have_uq cfg = true -> o_uq_model o = or_default [] (given "uq model" kvs)).
Proof.
  intros D atof tol zero cfg ls kvs o Hne H Ht E. rewrite (read_deck atof tol zero cfg Hne H Ht) in E.
  injection E as E. unfold given.
  assert (Hon : forall (f : options D -> bool) key, f (defaults tol zero) = false ->
    (forall o k v o', parse_key_value atof cfg o k v = Ok o' ->
       if chars_eqb k key then parse_bool v = Ok (f o') else f o' = f o) ->
    on_off (last_value key (settings kvs)) false (f o)).
  { intros f key Hd Hs. pose proof (@fold_last D atof cfg bool f key (fun v b => parse_bool v = Ok b) Hs _ _ _ E) as F.
    unfold on_off. destruct (last_value key (settings kvs)) as [v|]; [|congruence].
    destruct (f o); [left|right]; split; auto; [now apply parse_bool_true|now apply parse_bool_false]. }
  assert (Hint : forall (f : options D -> Z) key d, f (defaults tol zero) = d ->
    (forall o k v o', parse_key_value atof cfg o k v = Ok o' ->
       if chars_eqb k key then atoi v = Ok (f o') else f o' = f o) ->
    int_value (last_value key (settings kvs)) d (f o)).
  { intros f key d Hd Hs. pose proof (@fold_last D atof cfg Z f key (fun v b => atoi v = Ok b) Hs _ _ _ E) as F.
    unfold int_value. destruct (last_value key (settings kvs)) as [v|]; [|congruence].
    intros z Hz Hr. rewrite (atoi_notation Hz Hr) in F. congruence. }
  assert (Hstr : forall (f : options D -> chars) key d, f (defaults tol zero) = d ->
    (forall o k v o', parse_key_value atof cfg o k v = Ok o' -> f o' = if chars_eqb k key then v else f o) ->
    f o = or_default d (last_value key (settings kvs))).
  { intros f key d Hd Hs. rewrite (@fold_last_eq D atof cfg chars f key (fun v => v) Hs _ _ _ E). rewrite Hd.
    destruct (last_value key (settings kvs)); reflexivity. }
  assert (Hdbl : forall (f : options D -> D) key d, f (defaults tol zero) = d ->
    (forall o k v o', parse_key_value atof cfg o k v = Ok o' -> f o' = if chars_eqb k key then atof v else f o) ->
    f o = or_default d (option_map atof (last_value key (settings kvs)))).
  { intros f key d Hd Hs. rewrite (@fold_last_eq D atof cfg D f key atof Hs _ _ _ E). now rewrite Hd. }
  repeat match goal with |- _ /\ _ => split end.
  - apply Hstr; [reflexivity|]. intros ? ? ? ? P. apply (st_genesis (parse_step _ _ _ _ _ P)).
  - apply Hstr; [reflexivity|]. intros ? ? ? ? P. apply (st_exodus (parse_step _ _ _ _ _ P)).
  - apply Hon; [reflexivity|]. intros ? ? ? ? P. apply (st_two_level (parse_step _ _ _ _ _ P)).
  - apply Hon; [reflexivity|]. intros ? ? ? ? P. apply (st_timing (parse_step _ _ _ _ _ P)).
  - apply Hstr; [reflexivity|]. intros ? ? ? ? P. apply (st_scheme (parse_step _ _ _ _ _ P)).
  - apply Hdbl; [reflexivity|]. intros ? ? ? ? P. apply (st_tol (parse_step _ _ _ _ _ P)).
  - apply Hint; [reflexivity|]. intros ? ? ? ? P. apply (st_maxit (parse_step _ _ _ _ _ P)).
  - apply Hdbl; [reflexivity|]. intros ? ? ? ? P. apply (st_it (parse_step _ _ _ _ _ P)).
  - apply Hdbl; [reflexivity|]. intros ? ? ? ? P. apply (st_ft (parse_step _ _ _ _ _ P)).
  - apply Hint; [reflexivity|]. intros ? ? ? ? P. apply (st_steps (parse_step _ _ _ _ _ P)).
  - apply Hint; [reflexivity|]. intros ? ? ? ? P. apply (st_freq (parse_step _ _ _ _ _ P)).
  - apply Hstr; [reflexivity|]. intros ? ? ? ? P. apply (st_contact (parse_step _ _ _ _ _ P)).
  - apply Hstr; [reflexivity|]. intros ? ? ? ? P. apply (st_backend (parse_step _ _ _ _ _ P)).
  - pose proof (@fold_last D atof cfg (bool * bool * chars) (fun o => (o_vis_entities o, o_vis_boxes o, o_vis_file o))
      (lit "contact visualization") (fun v b => parse_visualization v = Ok b)
      (fun o k v o' P => st_vis (parse_step _ _ _ _ _ P)) _ _ _ E) as F.
    unfold visualization. destruct (last_value _ _) as [v|].
    + intros e b _ He Hb f Hf ->. rewrite visualization_value in F by auto. 
      unfold chars_eqb in F. destruct (list_eq_dec ascii_dec e (lit "on")), (list_eq_dec ascii_dec b (lit "on"));
        injection F as Ha Hb' Hc; auto.
    + injection F as -> -> ->. auto.
  - rewrite (@fold_bcs D atof cfg _ _ _ E). reflexivity.
  - apply Hstr; [reflexivity|]. intros ? ? ? ? P. apply (st_fields (parse_step _ _ _ _ _ P)).
  - intros Hu. apply Hstr; [reflexivity|]. intros ? ? ? ? P. now apply (st_uq (parse_step _ _ _ _ _ P)).
Qed.
Print Assumptions C48_options.

(** Which decks are accepted: every key known, on/off values and integers well written. *)
Definition value_ok (k v : chars) : Prop :=
  (In k (map lit ["use two level mesh decomposition"; "write timing data file"]%string) -> says_yes v \/ says_no v) /\
  (In k (map lit ["nonlinear solver maximum iterations"; "number of load steps"; "output frequency"; "contact dicing"]%string) ->
     exists z, int_notation z v /\ int_range z) /\
  (k = lit "contact visualization" -> exists e b f, In e [lit "on"; lit "off"] /\ In b [lit "on"; lit "off"] /\ plain_word f /\
     v = unwords [lit "visualize_contact_entities"; e; lit "visualize_bounding_boxes"; b; lit "file_name"; f]).
Theorem C48_accepted :
  forall D (atof : chars -> D) tol zero cfg ls kvs,
    ls <> [] -> Forall2 deck_line ls kvs -> Forall text_line ls ->
    Forall (fun kv => (In (fst kv) plain_keys \/ (have_uq cfg = true /\ In (fst kv) uq_keys)) /\
                      value_ok (fst kv) (snd kv)) (settings kvs) ->
    exists o, read_file atof tol zero cfg (unlines ls) = Finished (Ok o).
Proof.
  intros D atof tol zero cfg ls kvs Hne H Ht Hk. rewrite (read_deck atof tol zero cfg Hne H Ht).
  generalize (defaults tol zero). clear H Ht Hne. induction (settings kvs) as [|[k v] l IH]; intros o; [eexists; reflexivity|].
  pose proof (Forall_inv Hk) as (Hin & Hb & Hi & Hv). pose proof (Forall_inv_tail Hk) as Hl. cbn [fst snd] in Hin, Hb, Hi, Hv.
  destruct (@parse_accepts D atof cfg o k v) as (o' & E);
    [exact Hin| | | |].
  - intros Hkb. destruct (Hb Hkb) as [Hy|Hn]; [exists true; now apply parse_bool_true|exists false; now apply parse_bool_false].
  - intros Hki. destruct (Hi Hki) as (z & Hz & Hr). exists z. now apply atoi_notation.
  - intros Hkv. destruct (Hv Hkv) as (e & b & f & He & Hbb & Hf & ->). eexists. now apply visualization_value.
  - cbn [ofold]. unfold set_option at 1. cbn [fst snd]. rewrite E. cbn [obind]. now apply IH.
Qed.
Print Assumptions C48_accepted.
(** .. and a deck with an unknown key or a badly written on/off value is not. *)
Theorem C48_rejected :
  forall D (atof : chars -> D) tol zero cfg ls kvs k v,
    ls <> [] -> Forall2 deck_line ls kvs -> Forall text_line ls -> In (k, v) (settings kvs) ->
    (~ In k plain_keys /\ (have_uq cfg = true -> ~ In k uq_keys)) \/
    (In k (map lit ["use two level mesh decomposition"; "write timing data file"]%string) /\ ~ says_yes v /\ ~ says_no v) ->
    exists r, read_file atof tol zero cfg (unlines ls) = Finished r /\ forall o, r <> Ok o.
Proof.
  intros D atof tol zero cfg ls kvs k v Hne H Ht Hin Hbad. rewrite (read_deck atof tol zero cfg Hne H Ht).
  eexists. split; [reflexivity|]. intros o.
  assert (Hp : forall o1 o2, parse_key_value atof cfg o1 k v <> Ok o2).
  { intros o1 o2 E. destruct Hbad as [(H1 & H2)|(Hk & Hy & Hn)].
    - rewrite parse_unknown in E by auto. discriminate.
    - assert (F : exists b, parse_bool v = Ok b).
      { destruct Hk as [<-|[<-|[]]].
        - pose proof (st_two_level (parse_step _ _ _ _ _ E)) as F. rewrite chars_eqb_refl in F. eauto.
        - pose proof (st_timing (parse_step _ _ _ _ _ E)) as F. rewrite chars_eqb_refl in F. eauto. }
      destruct F as ([|] & F); [apply Hy; now apply parse_bool_true|apply Hn; now apply parse_bool_false]. }
  generalize (defaults tol zero). clear H Ht Hne. induction (settings kvs) as [|[k' v'] l IH]; intros o1; [destruct Hin|].
  cbn [ofold]. unfold set_option at 1. cbn [fst snd]. destruct (parse_key_value atof cfg o1 k' v') as [o2| | |] eqn:E;
    cbn [obind]; try discriminate.
  destruct Hin as [[= -> ->]|Hin]; [exfalso; now apply (Hp _ _ E)|now apply IH].
Qed.
Print Assumptions C48_rejected.
(** Comments and empty lines, spaces around keys and values, have no effect: only the settings count. *)
Theorem C48_only_settings_count :
  forall D (atof : chars -> D) tol zero cfg ls ls' kvs kvs',
    ls <> [] -> ls' <> [] -> Forall2 deck_line ls kvs -> Forall2 deck_line ls' kvs' ->
    Forall text_line ls -> Forall text_line ls' -> settings kvs = settings kvs' ->
    read_file atof tol zero cfg (unlines ls) = read_file atof tol zero cfg (unlines ls').
Proof.
  intros. rewrite (@read_deck D atof tol zero cfg ls kvs), (@read_deck D atof tol zero cfg ls' kvs') by auto. congruence.
Qed.
Print Assumptions C48_only_settings_count.

(** a deck that meets the premises *)
Definition sample_lines : list chars := map lit
  ["# a comment"; "genesis input file:   bar.g"; ""; "  number of load steps : 10  # ten"; "boundary condition: initial_velocity s x 1.0"]%string.
Definition sample_settings : list (option (chars * chars)) :=
  [None; Some (lit "genesis input file", lit "bar.g"); None; Some (lit "number of load steps", lit "10");
   Some (lit "boundary condition", lit "initial_velocity s x 1.0")].
Lemma trimmed_check s : match s with [] => false | c :: _ => negb (mem c [" "; "009"]%char) end
    && match rev s with [] => false | c :: _ => negb (mem c [" "; "009"]%char) end = true -> trimmed s.
Proof.
  intros H. apply andb_true_iff in H. destruct H as (H1 & H2). split; [destruct s; [discriminate|discriminate]|]. split.
  - intros c t ->. cbn [hd] in H1. intros Hb. apply (mem_In c) in Hb. now rewrite Hb in H1.
  - intros c t ->. rewrite rev_app_distr in H2. cbn [rev app] in H2. intros Hb. apply (mem_In c) in Hb. now rewrite Hb in H2.
Qed.
Lemma notin_check (c : ascii) s : mem c s = false -> ~ In c s. Proof. now apply mem_not. Qed.
Example C48_used : Forall2 deck_line sample_lines sample_settings /\ Forall text_line sample_lines.
Proof.
  split.
  - unfold sample_lines, sample_settings.
    repeat apply Forall2_cons; [| | | | |apply Forall2_nil].
    + apply deck_comment. right. now eexists.
    + apply (@deck_setting [] (lit "genesis input file") [] (lit "   ") (lit "bar.g") [] []);
        try (now constructor); try (now repeat constructor); try (apply trimmed_check; reflexivity); now apply notin_check.
    + apply deck_comment. now left.
    + apply (@deck_setting (lit "  ") (lit "number of load steps") (lit " ") (lit " ") (lit "10") (lit "  ") (lit "# ten"));
        try (apply trimmed_check; reflexivity); try (now apply notin_check);
        try (unfold all_of; repeat (apply Forall_cons; [vm_compute; tauto|]); apply Forall_nil).
      right. now eexists.
    + apply (@deck_setting [] (lit "boundary condition") [] (lit " ") (lit "initial_velocity s x 1.0") [] []);
        try (now constructor); try (now repeat constructor); try (apply trimmed_check; reflexivity); now apply notin_check.
  - unfold sample_lines. repeat (apply Forall_cons; [|]); try apply Forall_nil;
      (split; [cbn; lia|split; now apply notin_check]).
Qed.

(** ** What the English statement promises and the code does not do *)
(** keys are case sensitive *)
Theorem C48_case_refuted :
  forall D (atof : chars -> D) tol zero cfg,
    read_file atof tol zero cfg (lit "Genesis input file: bar.g") = Finished Throw.
Proof.
  intros. unfold read_file. rewrite file_lines_one by now apply notin_check. cbn [read_lines].
  change (length (lit "Genesis input file: bar.g") <? max_chars_per_line) with true. cbv iota.
  unfold process_line. rewrite until_nul_id by now apply notin_check.
  change (strip_line (lit "Genesis input file: bar.g")) with (Ok (lit "Genesis input file: bar.g")). cbn [obind].
  change (key_value (lit "Genesis input file: bar.g")) with (Ok (lit "Genesis input file", lit "bar.g")).
  cbn [lit list_ascii_of_string obind fst snd].
  rewrite parse_unknown; [reflexivity| |].
  - intros HI. apply listed_In in HI. vm_compute in HI. discriminate HI.
  - intros _ HI. apply listed_In in HI. vm_compute in HI. discriminate HI.
Qed.
Print Assumptions C48_case_refuted.
(** a line of blanks, or an indented comment, ends the run: any blanks, any comment, anywhere in the deck *)
Theorem C48_blank_line_refuted :
  forall D (atof : chars -> D) tol zero cfg b com rest,
    b <> [] -> all_of blank b -> comment com -> text_line (b ++ com) ->
    read_file atof tol zero cfg (unlines ((b ++ com) :: rest)) = Finished Throw.
Proof.
  intros D atof tol zero cfg b com rest Hne Hb Hcom (Hlen & Hnl & Hnul). unfold read_file.
  assert (Hf : exists ls, file_lines (unlines ((b ++ com) :: rest)) = (b ++ com) :: ls).
  { destruct rest as [|l rest].
    - exists []. cbn [unlines]. now apply file_lines_one.
    - exists (file_lines (unlines (l :: rest))). now apply file_lines_app. }
  destruct Hf as (ls & ->). cbn [read_lines].
  replace (length (b ++ com) <? max_chars_per_line) with true by (symmetry; apply Nat.ltb_lt; exact Hlen).
  unfold process_line. rewrite until_nul_id by auto. unfold strip_line.
  assert (Hb' : ~ In "#"%char b).
  { intros HI. unfold all_of in Hb. rewrite Forall_forall in Hb. specialize (Hb _ HI). destruct Hb as [Hb|[Hb|[]]]; discriminate. }
  rewrite cut_comment by auto. destruct b as [|c b]; [congruence|].
  rewrite first_not_none by exact Hb. reflexivity.
Qed.
Print Assumptions C48_blank_line_refuted.
(** a tab after the colon becomes part of the value *)
Theorem C48_tab_refuted :
  forall D (atof : chars -> D) tol zero cfg, exists o,
    read_file atof tol zero cfg (lit "exodus output file:" ++ ["009"%char] ++ lit "a.e") = Finished (Ok o) /\
    o_exodus o = "009"%char :: lit "a.e".
Proof. intros. eexists. split; [vm_compute; reflexivity|reflexivity]. Qed.
Print Assumptions C48_tab_refuted.
(** a line without a colon that spells a key is taken as a setting of that key to its own name *)
Theorem C48_no_colon_refuted :
  forall D (atof : chars -> D) tol zero cfg, exists o,
    read_file atof tol zero cfg (lit "contact") = Finished (Ok o) /\ o_contact o = lit "contact".
Proof. intros. eexists. split; [vm_compute; reflexivity|reflexivity]. Qed.
Print Assumptions C48_no_colon_refuted.
(** a comment line of 1000 characters or more makes the reader loop for ever *)
Theorem C48_long_line_refuted :
  forall D (atof : chars -> D) tol zero cfg t, 999 <= length t -> ~ In "010"%char t ->
    read_file atof tol zero cfg ("#"%char :: t) = Hangs.
Proof.
  intros D atof tol zero cfg t Hl Hn. unfold read_file. rewrite file_lines_one.
  2:{ intros [H|H]; [discriminate|contradiction]. }
  cbn [read_lines]. replace (length ("#"%char :: t) <? max_chars_per_line) with false
    by (symmetry; apply Nat.ltb_ge; cbn [length]; unfold max_chars_per_line; lia).
  replace (firstn (max_chars_per_line - 1) ("#"%char :: t)) with ("#"%char :: firstn 998 t) by reflexivity.
  unfold process_line. cbn [until_nul]. destruct (ascii_dec "#" Ascii.zero) as [E|_]; [discriminate E|]. reflexivity.
Qed.
Print Assumptions C48_long_line_refuted.

(** * C61: element blocks and materials *)
(** The material description of block N is the one given for the material named in its
    "element block: <stem>_N <material>" line. *)
Theorem C61_block_material :
  forall D (atof : chars -> D) tol zero cfg ls kvs o blocks materials,
    ls <> [] -> Forall2 deck_line ls kvs -> Forall text_line ls ->
    read_file atof tol zero cfg (unlines ls) = Finished (Ok o) ->
    Forall2 block_entry (values (lit "element block") (settings kvs)) blocks ->
    Forall2 material_entry (values (lit "material parameters") (settings kvs)) materials ->
    forall id, get_model_material_parameters o id =
      match last_of id blocks with
      | None => Ok (lit "none")
      | Some m => match last_value m materials with Some p => Ok p | None => Throw end
      end.
Proof.
  intros D atof tol zero cfg ls kvs o blocks materials Hne H Ht E Hb Hm id.
  rewrite (read_deck atof tol zero cfg Hne H Ht) in E. injection E as E.
  unfold get_model_material_parameters.
  assert (Hblk : option_map bp_material (assoc Z.eqb id (o_blocks o)) = last_of id blocks).
  { rewrite (@fold_map D atof cfg Z block_props Z.eqb Z.eqb_eq (fun o => o_blocks o) (lit "element block")
      (fun v => bp_id (block_properties v)) block_properties
      (fun o k v o' P => st_blk (parse_step _ _ _ _ _ P)) _ _ _ id E).
    cbn [o_blocks defaults assoc]. clear -Hb. induction Hb as [|v [i m] vs bl He _ IH]; [reflexivity|].
    destruct He as (stem & ds & -> & Hst & Hds & (Hdig & Hu) & Hpos & Hr). cbn [fst snd] in *.
    assert (Ei : Z.of_N (undec ds) = i) by (rewrite Hu; lia).
    assert (Eb : block_properties (stem ++ lit "_" ++ ds ++ lit " " ++ m) = BlockProps (stem ++ lit "_" ++ ds) i m).
    { rewrite <- Ei. apply block_properties_digits; auto; [now apply none_space_in|now rewrite Ei]. }
    cbn [rev last_of]. rewrite <- IH. clear IH.
    assert (Hf : forall (p : chars -> bool) x y, find p (x ++ y) = match find p x with Some z => Some z | None => find p y end).
    { intros p x y. induction x as [|u x IHx]; cbn [app find]; auto. destruct (p u); auto. }
    rewrite Hf. destruct (find _ (rev vs)); [reflexivity|]. cbn [find]. rewrite Eb. cbn [bp_id].
    destruct (id =? i)%Z; [now rewrite Eb|reflexivity]. }
  destruct (assoc Z.eqb id (o_blocks o)) as [b|]; cbn [option_map] in Hblk; rewrite <- Hblk; [|reflexivity].
  assert (Hmat : assoc chars_eqb (bp_material b) (o_materials o) = last_value (bp_material b) materials).
  { rewrite (@fold_map D atof cfg chars chars chars_eqb chars_eqb_eq (fun o => o_materials o) (lit "material parameters")
      (fun v => fst (split_space v)) (fun v => snd (split_space v))
      (fun o k v o' P => st_mat (parse_step _ _ _ _ _ P)) _ _ _ (bp_material b) E).
    cbn [o_materials defaults assoc]. generalize (bp_material b). clear -Hm. intros mk.
    induction Hm as [|v [k p] vs ms (-> & Hk) _ IH]; [reflexivity|]. cbn [fst snd] in *.
    assert (Es : split_space (k ++ lit " " ++ p) = (k, p)) by (apply split_space_app; now apply none_space_in).
    rewrite last_value_cons, <- IH. clear IH. cbn [rev].
    assert (Hf : forall (p : chars -> bool) x y, find p (x ++ y) = match find p x with Some z => Some z | None => find p y end).
    { intros q x y. induction x as [|u x IHx]; cbn [app find]; auto. destruct (q u); auto. }
    rewrite Hf. destruct (find _ (rev vs)); [reflexivity|]. cbn [find]. rewrite Es. cbn [fst snd].
    destruct (chars_eqb mk k); [now rewrite Es|reflexivity]. }
  now rewrite Hmat.
Qed.
Print Assumptions C61_block_material.
Example C61_used : block_entry (lit "block_12 steel") (12%Z, lit "steel")
  /\ material_entry (lit "steel elastic density 1.0") (lit "steel", lit "elastic density 1.0").
Proof.
  split.
  - exists (lit "block"), (lit "12"). split; [reflexivity|]. split; [now apply none_space_in, notin_check|].
    split; [discriminate|]. split; [split; [repeat constructor|reflexivity]|]. split; [cbn; lia|]. unfold int_range. cbn [fst]. lia.
  - split; [reflexivity|]. now apply none_space_in, notin_check.
Qed.

(** GetBlockIdFromMaterial: the smallest id of a block with that material, -1 if there is none *)
Theorem C61_block_of_material :
  forall D (o : options D) key,
    let owners := filter (fun e => if list_eq_dec ascii_dec key (bp_material (snd e)) then true else false) (o_blocks o) in
    match owners with
    | [] => get_block_id_from_material o key = (-1)%Z
    | _ => In (get_block_id_from_material o key) (map fst owners) /\
           Forall (fun id => (get_block_id_from_material o key <= id)%Z) (map fst owners)
    end.
Proof.
  intros D o key owners. unfold get_block_id_from_material.
  set (leb := fun a b : Z * block_props => (fst a <=? fst b)%Z).
  set (p := fun e : Z * block_props => chars_eqb key (bp_material (snd e))).
  assert (Ep : owners = filter p (o_blocks o)) by reflexivity. clearbody owners.
  assert (Hins : forall a l, (forall x, In x (insert leb a l) <-> x = a \/ In x l)).
  { intros a l. induction l as [|b l IH]; intros x; cbn [insert In]; [intuition|].
    destruct (leb a b); cbn [In]; [intuition|]. rewrite IH. intuition. }
  assert (Hin : forall l x, In x (isort leb l) <-> In x l).
  { induction l as [|a l IH]; intros x; cbn [isort In]; [tauto|]. rewrite Hins, IH. intuition. }
  assert (Hsort : forall l, Sorted.StronglySorted (fun a b => (fst a <= fst b)%Z) (isort leb l)).
  { induction l as [|a l IH]; cbn [isort]; [constructor|].
    assert (Hi : forall m, Sorted.StronglySorted (fun a b => (fst a <= fst b)%Z) m ->
      Sorted.StronglySorted (fun a b => (fst a <= fst b)%Z) (insert leb a m)).
    { induction m as [|b m IHm]; intros Hs; cbn [insert]; [repeat constructor|].
      inversion Hs as [|? ? Hs' Hf]; subst. destruct (leb a b) eqn:El.
      - constructor; auto. unfold leb in El. constructor; [lia|]. eapply Forall_impl; [|exact Hf]. cbn beta. intros; lia.
      - constructor; auto. apply Forall_forall. intros x Hx. apply Hins in Hx. unfold leb in El.
        destruct Hx as [->|Hx]; [lia|]. rewrite Forall_forall in Hf. now apply Hf. }
    auto. }
  specialize (Hsort (o_blocks o)). specialize (Hin (o_blocks o)).
  assert (Hfin : forall x, In x (filter p (isort leb (o_blocks o))) <-> In x owners).
  { intros x. rewrite Ep, !filter_In, Hin. tauto. }
  assert (Hfs : Sorted.StronglySorted (fun a b => (fst a <= fst b)%Z) (filter p (isort leb (o_blocks o)))).
  { clear -Hsort. induction Hsort as [|a l _ IH Hf]; cbn [filter]; [constructor|]. destruct (p a); auto.
    constructor; auto. rewrite Forall_forall in *. intros x Hx. apply filter_In in Hx. now apply Hf. }
  destruct (filter p (isort leb (o_blocks o))) as [|e es] eqn:Ef.
  - destruct owners as [|w ws]; [reflexivity|]. exfalso. apply (Hfin w). now left.
  - destruct owners as [|w ws]; [exfalso; apply (Hfin e); now left|]. split.
    + apply in_map. apply Hfin. now left.
    + apply Forall_forall. intros id Hid. apply in_map_iff in Hid. destruct Hid as (x & <- & Hx).
      apply Hfin in Hx. inversion Hfs as [|? ? _ Hf]; subst. destruct Hx as [<-|Hx]; [lia|].
      rewrite Forall_forall in Hf. now apply Hf.
Qed.
Print Assumptions C61_block_of_material.

(** Block names that do not end in a number are not told apart: two such blocks end up as one. *)
Theorem C61_named_blocks_refuted :
  forall D (atof : chars -> D) tol zero cfg, exists o,
    read_file atof tol zero cfg (unlines [lit "element block: block_steel steel"; lit "element block: block_foam foam"])
      = Finished (Ok o) /\
    o_blocks o = [(0%Z, BlockProps (lit "block_foam") 0 (lit "foam"))].
Proof. intros. eexists. split; [vm_compute; reflexivity|reflexivity]. Qed.
Print Assumptions C61_named_blocks_refuted.

(** * C62: boundary condition lines *)
Definition kinds : list (chars * bc_kind) :=
  [(lit "initial_velocity", InitialVelocity); (lit "prescribed_velocity", PrescribedVelocity);
   (lit "prescribed_displacement", PrescribedDisplacement); (lit "prescribed_traction", PrescribedTraction)].
Definition coordinates : list (chars * Z) :=
  [(lit "x", 0%Z); (lit "X", 0%Z); (lit "y", 1%Z); (lit "Y", 1%Z); (lit "z", 2%Z); (lit "Z", 2%Z)].
Definition neumann (k : bc_kind) : bool := match k with PrescribedTraction => true | _ => false end.
(** the id under which the mesh knows the named set; -1 (and "not valid") if this rank has none *)
Definition set_id (sets : list (Z * chars)) (name : chars) (id : Z) : Prop :=
  In (id, name) sets \/ ((forall i, ~ In (i, name) sets) /\ id = (-1)%Z).
Definition result {D F} (kind : bc_kind) (set : chars) (id c : Z) (m : D) (e : option (chars * F)) : bool * bc_fields D F :=
  (negb (id =? -1)%Z,
   BcFields kind (if neumann kind then lit "unknown" else set) (if neumann kind then -1 else id)%Z
            (if neumann kind then set else lit "unknown") (if neumann kind then id else -1)%Z c m e).

Lemma kind_of_table w k : In (w, k) kinds -> kind_of w = Ok k.
Proof. intros [H|[H|[H|[H|[]]]]]; injection H as <- <-; reflexivity. Qed.
Lemma kind_of_not w : (forall k, ~ In (w, k) kinds) -> kind_of w = Throw.
Proof.
  intros H. unfold kind_of.
  repeat match goal with |- (if chars_eqb w ?x then _ else _) = _ =>
    let E := fresh in destruct (chars_eqb w x) eqn:E;
    [apply chars_eqb_eq in E; exfalso; subst w; eapply H; cbn; eauto; fail|] end. reflexivity.
Qed.
Lemma coordinate_of_table w c : In (w, c) coordinates -> coordinate_of w = Ok c.
Proof. intros [H|[H|[H|[H|[H|[H|[]]]]]]]; injection H as <- <-; reflexivity. Qed.
Lemma set_id_find sets name id : NoDup (map snd sets) -> set_id sets name id -> find_name_id sets name = id.
Proof. intros Hd [H|(H & ->)]; [now apply find_name_in|now apply find_name_absent]. Qed.

(** "<type> <set> <coordinate> <number>" *)
Theorem C62_number :
  forall D (rdouble : chars -> D) zero F (functor : chars -> outcome F) node_sets side_sets
         type kind set coord c num id,
    In (type, kind) kinds -> In (coord, c) coordinates -> plain_word set -> plain_word num ->
    NoDup (map snd node_sets) -> NoDup (map snd side_sets) ->
    set_id (if neumann kind then side_sets else node_sets) set id ->
    bc_initialize rdouble zero functor (unwords [type; set; coord; num]) node_sets side_sets
    = Ok (result kind set id c (rdouble num) None).
Proof.
  intros D rdouble zero F functor ns ss type kind set coord c num id Hk Hc Hs Hn Hdn Hds Hid.
  assert (Hw : Forall plain_word [type; set; coord; num]).
  { apply Forall_cons; [|apply Forall_cons; [auto|apply Forall_cons; [|apply Forall_cons; [auto|apply Forall_nil]]]].
    - destruct Hk as [H|[H|[H|[H|[]]]]]; apply pair_equal_spec in H; destruct H as (<- & _); apply plain_lit; reflexivity || discriminate.
    - destruct Hc as [H|[H|[H|[H|[H|[H|[]]]]]]]; apply pair_equal_spec in H; destruct H as (<- & _); apply plain_lit; reflexivity || discriminate. }
  unfold bc_initialize. rewrite words_unwords by auto. cbn [nth nth_error].
  rewrite (@kind_of_table _ _ Hk). cbn [obind]. rewrite count_zero by now apply noquote_unwords.
  cbn [Nat.eqb obind]. rewrite (@coordinate_of_table _ _ Hc). cbn [obind fst snd].
  unfold result. destruct kind; cbn [neumann] in *; rewrite (@set_id_find _ _ id) by auto; reflexivity.
Qed.
Print Assumptions C62_number.
(** "<type> <set> <coordinate> "<expression>"": the expression is the text between the quotes *)
Theorem C62_expression :
  forall D (rdouble : chars -> D) zero F (functor : chars -> outcome F) node_sets side_sets
         type kind set coord c text rest id f,
    In (type, kind) kinds -> In (coord, c) coordinates -> plain_word set ->
    ~ In """"%char text -> ~ In """"%char rest ->
    NoDup (map snd node_sets) -> NoDup (map snd side_sets) ->
    set_id (if neumann kind then side_sets else node_sets) set id ->
    functor text = Ok f ->
    bc_initialize rdouble zero functor
      (unwords [type; set; coord] ++ lit " " ++ """"%char :: text ++ """"%char :: rest) node_sets side_sets
    = Ok (result kind set id c zero (Some (text, f))).
Proof.
  intros D rdouble zero F functor ns ss type kind set coord c text rest id f Hk Hc Hs Hq Hr Hdn Hds Hid Hf.
  assert (Hw : Forall plain_word [type; set; coord]).
  { apply Forall_cons; [|apply Forall_cons; [auto|apply Forall_cons; [|apply Forall_nil]]].
    - destruct Hk as [H|[H|[H|[H|[]]]]]; apply pair_equal_spec in H; destruct H as (<- & _); apply plain_lit; reflexivity || discriminate.
    - destruct Hc as [H|[H|[H|[H|[H|[H|[]]]]]]]; apply pair_equal_spec in H; destruct H as (<- & _); apply plain_lit; reflexivity || discriminate. }
  assert (Hnq : noquote (unwords [type; set; coord] ++ lit " ")).
  { intros HI. apply in_app_iff in HI. destruct HI as [HI|[HI|[]]]; [|discriminate]. now apply (noquote_unwords Hw). }
  set (s := unwords [type; set; coord] ++ lit " " ++ """"%char :: text ++ """"%char :: rest).
  assert (Es : s = (unwords [type; set; coord] ++ lit " ") ++ quote :: text ++ quote :: rest)
    by (unfold s; rewrite <- app_assoc; reflexivity).
  assert (Ew : words None s = [type; set; coord] ++ words None (quote :: text ++ quote :: rest)).
  { unfold s. change (lit " " ++ """"%char :: text ++ """"%char :: rest) with (" "%char :: quote :: text ++ quote :: rest).
    apply words_unwords_app; auto. discriminate. }
  unfold bc_initialize. rewrite Ew. cbn [nth app].
  rewrite (@kind_of_table _ _ Hk). cbn [obind].
  assert (Ecnt : count_char quote s = 2) by (rewrite Es; now apply quote_count).
  assert (Eq : quoted_part s = text) by (rewrite Es; now apply quoted_part_ok).
  rewrite Ecnt, Eq, Hf. cbn [Nat.eqb obind]. rewrite (@coordinate_of_table _ _ Hc). cbn [obind fst snd].
  unfold result. destruct kind; cbn [neumann] in *; rewrite (@set_id_find _ _ id) by auto; reflexivity.
Qed.
Print Assumptions C62_expression.
(** unknown types, unknown directions, a wrong number of quotes and bad expressions are rejected *)
Theorem C62_rejected :
  forall D (rdouble : chars -> D) zero F (functor : chars -> outcome F) node_sets side_sets ws,
    Forall plain_word ws ->
    (forall k, ~ In (nth 0 ws [], k) kinds) \/
    (forall c, ~ In (nth 2 ws [], c) coordinates) ->
    forall r, bc_initialize rdouble zero functor (unwords ws) node_sets side_sets <> Ok r.
Proof.
  intros D rdouble zero F functor ns ss ws Hw Hbad r. unfold bc_initialize. rewrite words_unwords by auto.
  rewrite (@count_zero _ _ (noquote_unwords Hw)). cbn [Nat.eqb obind].
  destruct Hbad as [Hk|Hc].
  - rewrite kind_of_not; [discriminate|]. destruct ws as [|w ws]; [|exact Hk].
    intros k [H|[H|[H|[H|[]]]]]; discriminate H.
  - destruct (kind_of (nth 0 ws (lit "undefined"))); cbn [obind]; try discriminate.
    assert (Ec : coordinate_of (nth 2 ws (lit "undefined")) = Throw).
    { destruct (nth_error ws 2) as [w|] eqn:E.
      - rewrite (nth_error_nth ws 2 _ E). rewrite (nth_error_nth ws 2 _ E) in Hc.
        unfold coordinate_of.
        assert (Hl : forall x y, map tolower w = [x] -> (forall z, tolower z = x -> exists c, In ([z], c) coordinates) -> y = true -> False).
        { intros x y Hx Hz _. destruct w as [|z [|z' w]]; try discriminate Hx. injection Hx as Hx.
          destruct (Hz _ Hx) as (c & Hin). apply (Hc c Hin). }
        assert (Hlow : forall z x, tolower z = x -> z = x \/ z = ascii_of_N (N_of_ascii x - 32)).
        { intros z x <-. unfold tolower. destruct ((65 <=? N_of_ascii z)%N && (N_of_ascii z <=? 90)%N) eqn:Ez; [|now left].
          right. rewrite N_ascii_embedding by lia. rewrite N.add_sub. symmetry. apply ascii_N_embedding. }
        repeat match goal with |- (if chars_eqb ?a ?b then _ else _) = _ =>
          let E' := fresh in destruct (chars_eqb a b) eqn:E';
          [exfalso; apply chars_eqb_eq in E'; eapply (Hl _ true E'); [|reflexivity];
           let z := fresh in let Hz := fresh in intros z Hz;
           destruct (Hlow _ _ Hz) as [->| ->]; eexists; cbn; eauto 12; fail|] end.
        reflexivity.
      - rewrite nth_overflow by (now apply nth_error_None). reflexivity. }
    rewrite Ec. cbn [obind]. discriminate.
Qed.
Print Assumptions C62_rejected.
Theorem C62_quotes_rejected :
  forall D (rdouble : chars -> D) zero F (functor : chars -> outcome F) node_sets side_sets s,
    count_occ ascii_dec s """"%char <> 0 -> count_occ ascii_dec s """"%char <> 2 ->
    forall r, bc_initialize rdouble zero functor s node_sets side_sets <> Ok r.
Proof.
  intros D rdouble zero F functor ns ss s H0 H2 r. unfold bc_initialize.
  assert (Ec : count_char quote s = count_occ ascii_dec s """"%char).
  { induction s as [|c s IH]; auto. cbn [count_char count_occ]. fold quote in *.
    clear H0 H2. assert (IH' : count_char quote s = count_occ ascii_dec s quote).
    { clear. induction s as [|c s IH]; auto. cbn [count_char count_occ]. destruct (ascii_dec c quote); rewrite IH; reflexivity. }
    destruct (ascii_dec c quote); rewrite IH'; reflexivity. }
  rewrite Ec. destruct (kind_of _); cbn [obind]; try discriminate.
  replace (count_occ ascii_dec s """"%char =? 2) with false by (symmetry; now apply Nat.eqb_neq).
  replace (count_occ ascii_dec s """"%char =? 0) with false by (symmetry; now apply Nat.eqb_neq).
  discriminate.
Qed.
Print Assumptions C62_quotes_rejected.
Example C62_used : exists r,
  bc_initialize (fun v => v) [] (fun s => Ok s) (lit "prescribed_velocity nodelist_1 X ""0.1*t""")
    [(7%Z, lit "nodelist_1")] [] = Ok r /\ snd r = BcFields PrescribedVelocity (lit "nodelist_1") 7 (lit "unknown") (-1) 0 [] (Some (lit "0.1*t", lit "0.1*t")).
Proof. eexists. split; vm_compute; reflexivity. Qed.
(** A line without its number is accepted as 0, and a type is not recognised in upper case although
    a coordinate is. *)
Theorem C62_missing_number_refuted :
  forall D (rdouble : chars -> D) zero F (functor : chars -> outcome F),
    bc_initialize rdouble zero functor (lit "prescribed_displacement s x") [(1%Z, lit "s")] []
    = Ok (result PrescribedDisplacement (lit "s") 1 0 zero None).
Proof. reflexivity. Qed.
Print Assumptions C62_missing_number_refuted.
Theorem C62_type_case_refuted :
  forall D (rdouble : chars -> D) zero F (functor : chars -> outcome F),
    bc_initialize rdouble zero functor (lit "Prescribed_Displacement s x 1.0") [(1%Z, lit "s")] [] = Throw.
Proof. reflexivity. Qed.
Print Assumptions C62_type_case_refuted.
