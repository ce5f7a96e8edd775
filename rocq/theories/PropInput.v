(** Properties of the input-text layer: C20 file names, C21 tokens, C22 material parameters,
    C23 switches, C24 string comparison, C48 input deck, C61 blocks and materials, C62 boundary
    condition lines. *)
From Verif Require Import Base ListLemmas Strings InputSpec InputModel InputProofs InputProofs2 InputProofs3 InputProofs4.
From Coq Require Import NArith.
Local Close Scope string_scope.
Local Open Scope list_scope.
Set Implicit Arguments.
Notation length := List.length.

(** * C20: file names *)

(** In a run on several ranks the name of rank r is the serial name followed by ".<n>.<r>", the
    rank padded with zeros to the width of n: different ranks get different names of the same length.
    Names must contain no white space (see the refutation below). *)
Theorem C20_rank_names :
  forall serial extension label n, serial <> lit "none" -> (1 < n)%N ->
    none_of white (io_file_name serial extension label 0 1) ->
    (forall r, (r < n)%N -> exists suffix,
        io_file_name serial extension label r n = io_file_name serial extension label 0 1 ++ suffix /\
        rank_suffix n r suffix) /\
    (forall r r', (r < n)%N -> (r' < n)%N ->
        length (io_file_name serial extension label r n) = length (io_file_name serial extension label r' n) /\
        (r <> r' -> io_file_name serial extension label r n <> io_file_name serial extension label r' n)).
Proof.
  intros serial e l n Hs Hn Hw. change (io_file_name serial e l 0 1) with (serial_stem serial e l) in *.
  assert (Hskip : skip_ws (serial_stem serial e l) = serial_stem serial e l) by now apply skip_ws_id.
  assert (Hname : forall r, io_file_name serial e l r n = serial_stem serial e l ++ lit "." ++ dec n ++ lit "." ++ padded n r).
  { intros r. rewrite io_parallel_trim; auto; rewrite Hskip; auto. }
  split.
  - intros r Hr. eexists. split; [apply Hname|]. now apply rank_suffix_of.
  - intros r r' Hr Hr'. rewrite !Hname. split.
    + rewrite !app_length, !padded_length by auto. reflexivity.
    + intros Hne E. apply app_inv_head in E. do 3 apply app_inv_head in E. apply padded_inj in E. contradiction.
Qed.
Print Assumptions C20_rank_names.
(** the premise in terms of the arguments *)
Theorem C20_rank_names_premise :
  forall serial extension label, serial <> lit "none" ->
    none_of white serial -> none_of white extension -> none_of white label ->
    none_of white (io_file_name serial extension label 0 1).
Proof.
  intros serial e l Hs H1 H2 H3. change (io_file_name serial e l 0 1) with (serial_stem serial e l).
  destruct (stem_form e l Hs) as (base & cut & E & ->). subst serial.
  assert (Hdot : none_of white (lit ".")) by (constructor; [apply dot_not_white|constructor]).
  unfold none_of in *. apply Forall_app in H1. destruct H1 as (Hb & _).
  apply Forall_app; split; auto. apply Forall_app; split; [destruct l; [constructor|apply Forall_app; now split]|].
  apply Forall_app; now split.
Qed.
Print Assumptions C20_rank_names_premise.
Example C20_used : io_file_name (lit "mesh.g") (lit "g") [] 3 16 = lit "mesh.g.16.03"
  /\ io_file_name (lit "mesh.e") (lit "e") (lit "out") 12 16 = lit "mesh.out.e.16.12".
Proof. split; vm_compute; reflexivity. Qed.

(** Exactly when the ranks' names differ: no white space after the leading one. *)
Theorem C20_distinct_iff :
  forall serial extension label n, serial <> lit "none" -> (1 < n)%N ->
    ((forall r r', (r < n)%N -> (r' < n)%N -> r <> r' ->
        io_file_name serial extension label r n <> io_file_name serial extension label r' n)
     <-> exists t, ltrimmed (io_file_name serial extension label 0 1) t /\ none_of white t).
Proof.
  intros serial e l n Hs Hn. change (io_file_name serial e l 0 1) with (serial_stem serial e l). split.
  - intros H. exists (skip_ws (serial_stem serial e l)). split; [now apply ltrimmed_skip|].
    destruct (until_ws_cut (skip_ws (serial_stem serial e l))) as [Hw|(t & c & u & E & Ht & Hc)]; auto.
    exfalso. apply (H 0%N 1%N); try lia. apply io_parallel_cut; auto. rewrite E. intros Hw.
    apply Forall_app in Hw. destruct Hw as (_ & Hw). inversion_clear Hw. contradiction.
  - intros (t & Ht & Hw) r r' Hr Hr' Hne E. apply ltrimmed_skip in Ht. subst t.
    rewrite !io_parallel_trim in E by auto. apply app_inv_head in E. do 3 apply app_inv_head in E.
    apply padded_inj in E. contradiction.
Qed.
Print Assumptions C20_distinct_iff.

(** The names as stated fail when a name contains a space: all ranks share one file. *)
Theorem C20_space_refuted :
  exists serial, serial <> lit "none" /\
    forall n r r', (1 < n)%N -> io_file_name serial (lit "g") [] r n = io_file_name serial (lit "g") [] r' n.
Proof.
  exists (lit "my mesh.g"). split; [discriminate|]. intros n r r' Hn. apply io_parallel_cut; auto; [discriminate|].
  vm_compute. intros H. inversion_clear H as [|? ? _ H1]. inversion_clear H1 as [|? ? _ H2]. inversion_clear H2 as [|? ? H3 _].
  apply H3. now left.
Qed.
Print Assumptions C20_space_refuted.

(** A serial run: no rank in the name; only a trailing ".g.." / ".e.." part of the given name is
    replaced by ".label.extension". *)
Theorem C20_serial_name :
  forall serial extension label r n, serial <> lit "none" -> (n <= 1)%N ->
    io_file_name serial extension label r n = io_file_name serial extension label 0 1 /\
    exists base cut, serial = base ++ cut /\
      io_file_name serial extension label r n =
      base ++ match label with [] => [] | _ => lit "." ++ label end ++ lit "." ++ extension.
Proof.
  intros serial e l r n Hs Hn. rewrite io_serial by auto. split; [reflexivity|]. now apply stem_form.
Qed.
Print Assumptions C20_serial_name.
Theorem C20_plain_base :
  forall base extension label suffix, In suffix [lit ".g"; lit ".e"] ->
    ~ occurs (lit ".g") base -> ~ occurs (lit ".e") base -> base ++ suffix <> lit "none" ->
    io_file_name (base ++ suffix) extension label 0 1 =
    base ++ match label with [] => [] | _ => lit "." ++ label end ++ lit "." ++ extension.
Proof.
  intros base e l suffix Hsuf Hg He Hn. unfold io_file_name. apply chars_eqb_false in Hn. rewrite Hn.
  change (1 <? 1)%N with false. cbv iota zeta.
  destruct Hsuf as [<-|[<-|[]]].
  - rewrite suffix_rfind by discriminate. cbn [upto]. rewrite firstn_prefix.
    rewrite (absent_rfind (p:=lit ".e")) by (auto; discriminate). cbn [upto].
    destruct l; rewrite <- ?app_assoc; reflexivity.
  - assert (Hg' : ~ occurs (lit ".g") (base ++ lit ".e")).
    { intros (a & b & E). change (lit ".e") with (["."; "e"]%char) in E. change (lit ".g") with (["."; "g"]%char) in E.
      destruct b as [|x b _] using rev_ind.
      - rewrite app_nil_r in E. change (["."; "e"]%char) with (["."%char] ++ ["e"%char]) in E.
        change (["."; "g"]%char) with (["."%char] ++ ["g"%char]) in E. rewrite !app_assoc in E.
        apply app_inj_tail in E. destruct E as (_ & E). discriminate E.
      - destruct b as [|y b _] using rev_ind.
        + change (["."; "e"]%char) with (["."%char] ++ ["e"%char]) in E.
          change (["."; "g"]%char ++ [] ++ [x]) with (["."%char] ++ ["g"%char] ++ [x]) in E. rewrite !app_assoc in E.
          apply app_inj_tail in E. destruct E as (E & _). rewrite <- ?app_assoc in E.
          rewrite app_assoc in E. apply app_inj_tail in E. destruct E as (_ & E). discriminate E.
        + apply Hg. change (["."; "e"]%char) with (["."%char] ++ ["e"%char]) in E. rewrite !app_assoc in E.
          apply app_inj_tail in E. destruct E as (E & _). apply app_inj_tail in E. destruct E as (E & _).
          exists a, b. rewrite E. now rewrite <- app_assoc. }
    rewrite (absent_rfind (p:=lit ".g")) by (auto; discriminate). cbn [upto].
    rewrite suffix_rfind by discriminate. cbn [upto]. rewrite firstn_prefix.
    destruct l; rewrite <- ?app_assoc; reflexivity.
Qed.
Print Assumptions C20_plain_base.
(** Names ending in ".e" with an earlier ".g" part are cut there: two different output files become one. *)
Theorem C20_distinct_outputs_refuted :
  exists a b, a <> b /\ forall r n,
    io_file_name a (lit "e") (lit "out") r n = io_file_name b (lit "e") (lit "out") r n.
Proof.
  exists (lit "run.grid1.e"), (lit "run.grid2.e"). split; [discriminate|]. intros r n.
  unfold io_file_name. reflexivity.
Qed.
Print Assumptions C20_distinct_outputs_refuted.

(** IOFileNameThreadSafe: different (rank, thread) pairs get different names of the same length. *)
Theorem C20_thread_names :
  forall serial extension label n m, (1 < n)%N -> (1 < m)%N ->
  forall r r' t t', (r < n)%N -> (r' < n)%N -> (t < m)%N -> (t' < m)%N ->
  exists a b, io_file_name_thread_safe serial extension label r n t m = Ok a /\
    io_file_name_thread_safe serial extension label r' n t' m = Ok b /\
    length a = length b /\ ((r, t) <> (r', t') -> a <> b).
Proof.
  intros serial e l n m Hn Hm r r' t t' Hr Hr' Ht Ht'.
  rewrite !thread_safe_name by auto. eexists _, _. split; [reflexivity|]. split; [reflexivity|].
  replace (1 <? n)%N with true by lia. replace (1 <? m)%N with true by lia. split.
  - rewrite !app_length, !padded_length by auto. reflexivity.
  - intros Hne E. apply app_inv_head in E. rewrite <- !app_assoc in E. do 3 apply app_inv_head in E.
    apply app_inj_length in E; [|now rewrite !padded_length]. destruct E as (E1 & E2).
    do 3 apply app_inv_head in E2. apply padded_inj in E1. apply padded_inj in E2. congruence.
Qed.
Print Assumptions C20_thread_names.
Theorem C20_thread_serial :
  forall serial extension label r n t m, (n <= 1)%N -> (m <= 1)%N ->
    io_file_name_thread_safe serial extension label r n t m =
    io_file_name_thread_safe serial extension label 0 1 0 1.
Proof.
  intros. rewrite !thread_safe_name by (right; lia). replace (1 <? n)%N with false by lia.
  replace (1 <? m)%N with false by lia. reflexivity.
Qed.
Print Assumptions C20_thread_serial.
Example C20_thread_used :
  io_file_name_thread_safe (lit "mesh.g") (lit "e") (lit "out") 3 16 2 4 = Ok (lit "mesh.out.e.16.03.4.2").
Proof. vm_compute. reflexivity. Qed.

(** * C21: tokens *)

(** A text without quotes is split into its words: nothing else, nothing lost, in order. *)
Theorem C21_words :
  forall s, ~ In """"%char s -> forall ws, splits s ws <-> tokenize_string s = ws.
Proof. intros s H ws. rewrite tokenize_noquote by auto. apply splits_iff. Qed.
Print Assumptions C21_words.
(** .. in particular, when the only white space is the space *)
Theorem C21_maximal_runs :
  forall s, ~ In """"%char s -> (forall c, In c s -> white c -> c = " "%char) ->
    Forall (fun w => w <> [] /\ none_of white w) (tokenize_string s) /\
    List.concat (tokenize_string s) = filter (fun c => if ascii_dec c " " then false else true) s.
Proof.
  intros s Hq Hw. destruct (splits_exists s) as (ws & H). rewrite (proj1 (@C21_words s Hq ws) H).
  clear Hq. induction H as [b Hb|b c w rest ws Hb Hc Hcw Hr _ IH].
  - split; [constructor|]. cbn [List.concat]. symmetry. unfold all_of in Hb. rewrite Forall_forall in Hb.
    assert (Hall : forall d, In d b -> d = " "%char) by auto. clear Hw Hb.
    induction b as [|d b IHb]; auto. cbn [filter].
    rewrite (Hall d (or_introl eq_refl)). destruct (ascii_dec " " " "); [|congruence].
    apply IHb. intros. apply Hall. now right.
  - destruct IH as (IH1 & IH2).
    { intros d Hd. apply Hw. apply in_app_iff. right. apply in_app_iff. now right. }
    split.
    + constructor; auto. split; [discriminate|]. unfold none_of. rewrite Forall_forall. intros d Hd Hwd.
      apply none_space_in in Hcw. apply Hcw. rewrite <- (Hw d); auto. apply in_app_iff. right. apply in_app_iff. now left.
    + assert (Hfa : forall p (x y : chars), filter p (x ++ y) = filter p x ++ filter p y).
      { intros p x y. induction x as [|z x IHx]; auto. cbn [app filter]. destruct (p z); cbn [app]; now rewrite IHx. }
      rewrite !Hfa. cbn [List.concat]. rewrite IH2.
      replace (filter (fun c => if ascii_dec c " " then false else true) b) with (@nil ascii).
      * cbn [app]. replace (filter (fun c => if ascii_dec c " " then false else true) (c :: w)) with (c :: w); auto.
        apply none_space_in in Hcw. symmetry. clear -Hcw. induction (c :: w) as [|d u IHu]; auto. cbn [filter].
        destruct (ascii_dec d " ") as [->|]; [exfalso; apply Hcw; now left|]. rewrite IHu; auto.
        intros HI. apply Hcw. now right.
      * unfold all_of in Hb. rewrite Forall_forall in Hb.
        assert (Hall : forall d, In d b -> d = " "%char).
        { intros d Hd. apply Hw; auto. apply in_app_iff. now left. }
        clear -Hall. induction b as [|d b IHb]; auto. cbn [filter].
        rewrite (Hall d (or_introl eq_refl)). destruct (ascii_dec " " " "); [|congruence].
        apply IHb. intros. apply Hall. now right.
Qed.
Print Assumptions C21_maximal_runs.
(** A quoted part is one token, whatever blanks it contains, except that leading blanks are dropped. *)
Theorem C21_quoted :
  forall p q q' rest, ~ In """"%char p -> ~ In """"%char q -> ltrimmed q q' ->
    tokenize_string (p ++ """"%char :: q ++ """"%char :: rest) =
    tokenize_string p ++ q' :: tokenize_string rest.
Proof. intros p q q' rest Hp Hq Ht. apply ltrimmed_skip in Ht. subst. now apply tokenize_quoted. Qed.
Print Assumptions C21_quoted.
Theorem C21_unclosed_quote :
  forall p q q', ~ In """"%char p -> ~ In """"%char q -> ltrimmed q q' ->
    tokenize_string (p ++ """"%char :: q) = tokenize_string p ++ match q' with [] => [] | _ => [q'] end.
Proof. intros p q q' Hp Hq Ht. apply ltrimmed_skip in Ht. subst. rewrite tokenize_open_quote by auto. destruct (skip_ws q); reflexivity. Qed.
Print Assumptions C21_unclosed_quote.
Example C21_used : tokenize_string (lit "neohookean  density ""1.0 e3"" x") =
  [lit "neohookean"; lit "density"; lit "1.0 e3"; lit "x"].
Proof. vm_compute. reflexivity. Qed.
(** tabs do not separate words, and a quoted token is not taken literally *)
Theorem C21_tab_refuted : exists s, tokenize_string s = [s] /\ exists c, In c s /\ white c.
Proof. exists ["a"; "009"; "b"]%char. split; [reflexivity|]. exists "009"%char. split; [right; now left|]. right. now left. Qed.
Print Assumptions C21_tab_refuted.
Theorem C21_quoted_literally_refuted :
  exists q, ~ In """"%char q /\ tokenize_string ("""" :: q ++ [""""])%char <> [q].
Proof. exists [" "; "a"]%char. split; [intros [H|[H|[]]]; discriminate|]. vm_compute. discriminate. Qed.
Print Assumptions C21_quoted_literally_refuted.

(** * C22: material parameters *)

(** The text "name k1 v1 k2 v2 ..": each parameter gets the value following its name (the first one,
    if a name is repeated), parameters not named do not exist.  [vd] / [vs] are the registered names
    of number and text parameters. *)
Theorem C22_parameters :
  forall D (rdouble : chars -> option D) zero dbl_max vd vs name pairs points,
    plain_word name -> Forall plain_word (flat pairs) -> pairs <> [] ->
    Forall (fun kv => In (fst kv) vd \/ In (fst kv) vs) pairs ->
    exists p,
      parse_material_parameters rdouble zero dbl_max vd vs (unwords (name :: flat pairs)) points = Ok p /\
      mp_name p = name /\ mp_points p = points /\
      (forall k, In k vd -> get_parameter_value p k =
         match first_value k pairs with
         | Some v => Ok (match rdouble v with Some x => x | None => zero end)
         | None => Throw
         end) /\
      (forall k, ~ In k vd -> get_parameter_value p k = Throw) /\
      (forall k, In k vs -> ~ In k vd -> get_string_parameter_value p k =
         match first_value k pairs with Some v => Ok v | None => Throw end) /\
      (forall k, In k vd \/ ~ In k vs -> get_string_parameter_value p k = Throw).
Proof.
  intros D rdouble zero dbl_max vd vs name pairs points Hn Hp Hne Hk.
  unfold parse_material_parameters. rewrite tokenize_unwords by (constructor; auto).
  destruct pairs as [|[k1 v1] pairs]; [congruence|]. cbn [flat].
  change (k1 :: v1 :: flat pairs) with (flat ((k1, v1) :: pairs)).
  destruct (@read_pairs_ok D rdouble zero dbl_max vd vs _ Hk [] []) as (s' & d' & E & Hd & Hs).
  rewrite E. cbn [obind fst snd]. eexists. split; [reflexivity|]. split; [reflexivity|]. split; [reflexivity|].
  unfold get_parameter_value, get_string_parameter_value. cbn [mp_doubles mp_strings].
  assert (Hlist : forall k l, ~ In k l -> listed k l = false).
  { intros k l H. destruct (listed k l) eqn:El; auto. apply listed_In in El. contradiction. }
  assert (Hword : forall (k v : chars) l, Forall plain_word (flat l) -> first_value k l = Some v -> plain_word v).
  { clear. intros k v l. induction l as [|[a b] l IH]; cbn [flat]; intros H E; [discriminate|].
    inversion_clear H as [|? ? _ H1]. inversion_clear H1 as [|? ? Hb H2].
    rewrite first_value_cons in E. destruct (chars_eqb k a); [now injection E as <-|auto]. }
  split; [|split; [|split]].
  - intros k Hin. rewrite Hd. cbn [assoc]. apply listed_In in Hin. rewrite Hin.
    destruct (first_value k ((k1, v1) :: pairs)) as [v|] eqn:Ev; cbn [option_map]; auto.
    unfold string_to_double. pose proof (Hword _ _ _ Hp Ev) as (Hv & Hw & _).
    rewrite skip_ws_id by auto. destruct v; [congruence|]. reflexivity.
  - intros k Hin. rewrite Hd. cbn [assoc]. now rewrite Hlist.
  - intros k Hin Hnin. rewrite Hs. cbn [assoc]. rewrite Hlist by auto. apply listed_In in Hin. rewrite Hin. reflexivity.
  - intros k Hin. rewrite Hs. cbn [assoc]. destruct (listed k vd) eqn:Ed; auto.
    destruct Hin as [Hin|Hin]; [apply listed_In in Hin; congruence|]. now rewrite (Hlist k vs).
Qed.
Print Assumptions C22_parameters.
(** the variant that returns the map *)
Theorem C22_map :
  forall D (rdouble : chars -> option D) zero dbl_max vd vs s points p,
    parse_material_parameters rdouble zero dbl_max vd vs s points = Ok p ->
    parse_material_map rdouble zero dbl_max vd vs s = Ok (mp_doubles p).
Proof.
  intros D rdouble zero dbl_max vd vs s points p H. unfold parse_material_parameters in H. unfold parse_material_map.
  destruct (tokenize_string s) as [|name [|t ts]]; try discriminate.
  destruct (read_pairs _ _ _ _ _ _ _ _) as [r| | |]; try discriminate. cbn [obind] in *. now injection H as <-.
Qed.
Print Assumptions C22_map.
(** unknown names are rejected *)
Theorem C22_unknown_rejected :
  forall D (rdouble : chars -> option D) zero dbl_max vd vs name pairs points,
    plain_word name -> Forall plain_word (flat pairs) ->
    (exists kv, In kv pairs /\ ~ In (fst kv) vd /\ ~ In (fst kv) vs) ->
    parse_material_parameters rdouble zero dbl_max vd vs (unwords (name :: flat pairs)) points = Throw.
Proof.
  intros D rdouble zero dbl_max vd vs name pairs points Hn Hp Hk.
  unfold parse_material_parameters. rewrite tokenize_unwords by (constructor; auto).
  destruct pairs as [|[k1 v1] pairs]; [destruct Hk as (? & [] & _)|]. cbn [flat].
  change (k1 :: v1 :: flat pairs) with (flat ((k1, v1) :: pairs)).
  rewrite <- (app_nil_r (flat ((k1, v1) :: pairs))). rewrite read_pairs_unknown by auto. reflexivity.
Qed.
Print Assumptions C22_unknown_rejected.
(** a name alone is rejected (the program ends) *)
Theorem C22_no_parameters_rejected :
  forall D (rdouble : chars -> option D) zero dbl_max vd vs name points, plain_word name ->
    parse_material_parameters rdouble zero dbl_max vd vs name points = Abort.
Proof.
  intros. unfold parse_material_parameters. change name with (unwords [name]).
  rewrite tokenize_unwords by (constructor; auto). reflexivity.
Qed.
Print Assumptions C22_no_parameters_rejected.
(** Malformed lists are not rejected: a missing last value reads past the end of the list. *)
Theorem C22_odd_list_refuted :
  forall D (rdouble : chars -> option D) zero dbl_max vd vs name pairs k points,
    plain_word name -> Forall plain_word (flat pairs) -> plain_word k ->
    Forall (fun kv => In (fst kv) vd \/ In (fst kv) vs) pairs ->
    parse_material_parameters rdouble zero dbl_max vd vs (unwords (name :: flat pairs ++ [k])) points = UB.
Proof.
  intros D rdouble zero dbl_max vd vs name pairs k points Hn Hp Hk Hv.
  unfold parse_material_parameters.
  rewrite tokenize_unwords by (constructor; [auto|apply Forall_app; split; auto]).
  destruct (flat pairs ++ [k]) as [|x y] eqn:E; [destruct (flat pairs); discriminate|].
  rewrite <- E. now rewrite read_pairs_odd.
Qed.
Print Assumptions C22_odd_list_refuted.
(** .. and a value that is no number is taken as 0, a repeated name keeps its first value *)
Theorem C22_bad_number_refuted :
  forall D (rdouble : chars -> option D) zero dbl_max v, rdouble v = None -> plain_word v ->
    exists p, parse_material_parameters rdouble zero dbl_max base_double_names base_string_names
                (unwords [lit "elastic"; lit "density"; v]) 0 = Ok p /\
              get_parameter_value p (lit "density") = Ok zero.
Proof.
  intros D rdouble zero dbl_max v Hv Hw.
  assert (Hpw : forall x, In x [lit "elastic"; lit "density"] -> plain_word x).
  { intros x [<-|[<-|[]]]; (split; [discriminate|split; repeat constructor; intros H; cbn in H; intuition discriminate]). }
  destruct (@C22_parameters D rdouble zero dbl_max base_double_names base_string_names (lit "elastic")
    [(lit "density", v)] 0) as (p & E & _ & _ & Hp & _).
  - apply Hpw. now left.
  - constructor; [apply Hpw; right; now left|]. constructor; auto.
  - discriminate.
  - constructor; [|constructor]. left. cbn. tauto.
  - exists p. split; [exact E|]. rewrite Hp by (cbn; tauto). rewrite first_value_cons, chars_eqb_refl. now rewrite Hv.
Qed.
Print Assumptions C22_bad_number_refuted.

(** The material created from a description: density, bulk and shear modulus as written, in any order. *)
Theorem C22_material_created :
  forall D (rdouble : chars -> option D) zero dbl_max pairs points d b s,
    Forall plain_word (flat pairs) -> Forall (fun kv => In (fst kv) base_double_names) pairs ->
    first_value (lit "density") pairs = Some d -> first_value (lit "bulk_modulus") pairs = Some b ->
    first_value (lit "shear_modulus") pairs = Some s ->
    let num v := match rdouble v with Some x => x | None => zero end in
    parse_and_create rdouble zero dbl_max (unwords (lit "neohookean" :: flat pairs)) points
      = Ok (Neohookean (num d) (num b) (num s)) /\
    parse_and_create rdouble zero dbl_max (unwords (lit "elastic" :: flat pairs)) points
      = Ok (Elastic (num d) (num b) (num s)).
Proof.
  intros D rdouble zero dbl_max pairs points d b s Hp Hk Hd Hb Hs num.
  assert (Hpw : forall x, In x [lit "elastic"; lit "neohookean"] -> plain_word x).
  { intros x [<-|[<-|[]]]; (split; [discriminate|split; repeat constructor; intros H; cbn in H; intuition discriminate]). }
  assert (Hne : pairs <> []) by (intros ->; discriminate Hd).
  assert (Hk' : Forall (fun kv => In (fst kv) base_double_names \/ In (fst kv) base_string_names) pairs)
    by (eapply Forall_impl; [|exact Hk]; cbn beta; auto).
  unfold parse_and_create.
  destruct (@C22_parameters D rdouble zero dbl_max base_double_names base_string_names (lit "neohookean") pairs points)
    as (p & E & Hn & _ & Hv & _); [apply Hpw; right; now left|auto|auto|auto|].
  destruct (@C22_parameters D rdouble zero dbl_max base_double_names base_string_names (lit "elastic") pairs points)
    as (p' & E' & Hn' & _ & Hv' & _); [apply Hpw; now left|auto|auto|auto|].
  rewrite E, E'. cbn [obind]. unfold create_material. rewrite Hn, Hn'.
  rewrite !Hv, !Hv' by (cbn; tauto). rewrite Hd, Hb, Hs. split; reflexivity.
Qed.
Print Assumptions C22_material_created.
Theorem C22_other_material_rejected :
  forall D (rdouble : chars -> option D) zero dbl_max name pairs points,
    plain_word name -> Forall plain_word (flat pairs) -> pairs <> [] ->
    name <> lit "neohookean" -> name <> lit "elastic" ->
    Forall (fun kv => In (fst kv) base_double_names) pairs ->
    parse_and_create rdouble zero dbl_max (unwords (name :: flat pairs)) points = Throw.
Proof.
  intros D rdouble zero dbl_max name pairs points Hn Hp Hne H1 H2 Hk. unfold parse_and_create.
  destruct (@C22_parameters D rdouble zero dbl_max base_double_names base_string_names name pairs points)
    as (p & E & Hnm & _); auto.
  { eapply Forall_impl; [|exact Hk]; cbn beta; auto. }
  rewrite E. cbn [obind]. unfold create_material. rewrite Hnm.
  apply chars_eqb_false in H1. apply chars_eqb_false in H2. now rewrite H1, H2.
Qed.
Print Assumptions C22_other_material_rejected.
Example C22_used :
  parse_and_create (fun v => Some v) [] [] (lit "neohookean density 1.0 shear_modulus 2e5 bulk_modulus 3e6") 0
  = Ok (Neohookean (lit "1.0") (lit "3e6") (lit "2e5")).
Proof. vm_compute. reflexivity. Qed.

(** * C23: command line switches *)
Definition built_with (cfg : cli_build) (s : switch) : bool :=
  match s with UseTpetra => have_trilinos cfg | UseVT => have_vt cfg | UseUQ => cli_have_uq cfg end.
Definition turned_on (c : cli) (s : switch) : bool :=
  match s with UseTpetra => use_tpetra c | UseVT => use_vt c | UseUQ => use_uq c end.
(** without --use_uq, exactly the given switches are on; a switch the build lacks is rejected *)
Theorem C23_switches_partial :
  forall cfg given, ~ In UseUQ given ->
    (forallb (built_with cfg) given = false -> cli_parse cfg given = Throw) /\
    (forallb (built_with cfg) given = true -> exists c, cli_parse cfg given = Ok c /\
       forall s, turned_on c s = true <-> In s given).
Proof.
  intros cfg given Hu.
  assert (H : forall g c, ~ In UseUQ g ->
    (forallb (built_with cfg) g = false -> ofold (cli_flag cfg) g c = Throw) /\
    (forallb (built_with cfg) g = true -> exists c', ofold (cli_flag cfg) g c = Ok c' /\
       forall s, turned_on c' s = true <-> turned_on c s = true \/ In s g)).
  { induction g as [|s g IH]; intros c Hn; cbn [forallb ofold].
    - split; [discriminate|]. intros _. exists c. split; auto. intros s. cbn [In]. tauto.
    - assert (Hn' : ~ In UseUQ g) by (intros HI; apply Hn; now right).
      destruct s; [| |exfalso; apply Hn; now left]; cbn [cli_flag built_with].
      + destruct (have_trilinos cfg); cbn [andb obind]; [|split; [reflexivity|discriminate]].
        destruct (IH (Cli true (use_vt c) (use_uq c)) Hn') as (I1 & I2). split; auto.
        intros Hb. destruct (I2 Hb) as (c' & E & Hc). exists c'. split; auto. intros s. rewrite Hc.
        destruct s; cbn [turned_on use_tpetra use_vt use_uq In]; intuition (try discriminate; auto).
      + destruct (have_vt cfg); cbn [andb obind]; [|split; [reflexivity|discriminate]].
        destruct (IH (Cli (use_tpetra c) true (use_uq c)) Hn') as (I1 & I2). split; auto.
        intros Hb. destruct (I2 Hb) as (c' & E & Hc). exists c'. split; auto. intros s. rewrite Hc.
        destruct s; cbn [turned_on use_tpetra use_vt use_uq In]; intuition (try discriminate; auto). }
  destruct (H given (Cli false false false) Hu) as (H1 & H2). split; auto. intros Hb.
  destruct (H2 Hb) as (c & E & Hc). exists c. split; auto. intros s. rewrite Hc.
  destruct s; cbn [turned_on use_tpetra use_vt use_uq]; intuition discriminate.
Qed.
Print Assumptions C23_switches_partial.
Example C23_used : ~ In UseUQ [UseVT; UseTpetra]
  /\ forallb (built_with (CliBuild true true false)) [UseVT; UseTpetra] = true.
Proof. split; [cbn; intuition discriminate|reflexivity]. Qed.
(** --use_uq never turns UQ on; it turns VT on instead *)
Theorem C23_uq_refuted :
  forall cfg, cli_have_uq cfg = true -> exists c, cli_parse cfg [UseUQ] = Ok c /\
    turned_on c UseUQ = false /\ turned_on c UseVT = true.
Proof.
  intros cfg H. exists (Cli false true false). unfold cli_parse. cbn [ofold cli_flag]. rewrite H. cbn. auto.
Qed.
Print Assumptions C23_uq_refuted.
Theorem C23_uq_never_refuted : forall cfg given c, cli_parse cfg given = Ok c -> turned_on c UseUQ = false.
Proof.
  intros cfg given c. unfold cli_parse.
  assert (H : forall g c0, use_uq c0 = false -> ofold (cli_flag cfg) g c0 = Ok c -> use_uq c = false).
  { induction g as [|s g IH]; intros c0 H0 H; cbn [ofold] in H; [now injection H as <-|].
    destruct s; cbn [cli_flag] in H;
      [destruct (have_trilinos cfg)|destruct (have_vt cfg)|destruct (cli_have_uq cfg)]; cbn [obind] in H; try discriminate H;
      (eapply IH; [|exact H]; cbn [use_uq]; exact H0). }
  apply H. reflexivity.
Qed.
Print Assumptions C23_uq_never_refuted.

(** * C24: string comparison *)
(** StringsAreEqual holds exactly when one string is a prefix of the other .. *)
Theorem C24_prefix : forall a b, strings_are_equal a b = true <->
  (exists t, b = a ++ t) \/ (exists t, a = b ++ t).
Proof. apply strings_are_equal_prefix. Qed.
Print Assumptions C24_prefix.
(** .. so it is equality on strings of one length .. *)
Theorem C24_same_length_partial : forall a b, length a = length b -> (strings_are_equal a b = true <-> a = b).
Proof.
  intros a b Hl. rewrite strings_are_equal_prefix. split.
  - intros [(t & E)|(t & E)]; assert (H := f_equal (@length _) E); rewrite app_length in H;
      (destruct t; [rewrite app_nil_r in E; auto|simpl in H; lia]).
  - intros ->. left. exists []. now rewrite app_nil_r.
Qed.
Print Assumptions C24_same_length_partial.
(** .. and not in general *)
Theorem C24_refuted : exists a b, a <> b /\ strings_are_equal a b = true.
Proof. exists (lit "elastic"), (lit "elastic_plastic"). split; [discriminate|reflexivity]. Qed.
Print Assumptions C24_refuted.
