(** The options set by an input deck; element blocks; boundary condition lines. *)
From Verif Require Import Base ListLemmas Strings InputSpec InputModel InputProofs InputProofs2.
From Coq Require Import NArith.
Local Close Scope string_scope.
Local Open Scope list_scope.
Set Implicit Arguments.
Notation length := List.length.

Lemma last_value_cons {V} k k' (v : V) l :
  last_value k ((k', v) :: l) =
  match last_value k l with Some w => Some w | None => if chars_eqb k k' then Some v else None end.
Proof.
  unfold last_value. cbn [rev]. induction (rev l) as [|[a b] m IH].
  - cbn [app first_value]. unfold chars_eqb. destruct (list_eq_dec ascii_dec k k'); auto.
  - cbn [app]. rewrite !first_value_cons. destruct (chars_eqb k a); auto.
Qed.
Lemma values_cons {V} k k' (v : V) l :
  values k ((k', v) :: l) = (if chars_eqb k k' then [v] else []) ++ values k l.
Proof.
  unfold values. cbn [filter fst]. unfold chars_eqb. destruct (list_eq_dec ascii_dec k k'); reflexivity.
Qed.
Lemma assoc_assoc_set {K V} (eqb : K -> K -> bool) (Heq : forall a b, eqb a b = true <-> a = b) k k' (v : V) m :
  assoc eqb k (assoc_set eqb k' v m) = if eqb k k' then Some v else assoc eqb k m.
Proof.
  assert (Hr : forall a, eqb a a = true) by (intros; now apply Heq).
  induction m as [|[a b] m IH]; cbn [assoc_set assoc].
  - destruct (eqb k k'); reflexivity.
  - destruct (eqb k' a) eqn:E.
    + apply Heq in E. subst a. cbn [assoc]. destruct (eqb k k'); reflexivity.
    + cbn [assoc]. destruct (eqb k a) eqn:E'.
      * apply Heq in E'. subst a. destruct (eqb k k') eqn:E2; auto. apply Heq in E2. subst. congruence.
      * exact IH.
Qed.

Section Options.
  Variable D : Type.
  Variable atof : chars -> D.
  Variable cfg : build.
  Notation parse_kv := (parse_key_value atof cfg).
  Notation fold_set := (ofold (set_option atof cfg)).
  Notation K k s := (chars_eqb k (lit s)).

  Record step (o : options D) (k v : chars) (o' : options D) : Prop := Step {
    st_genesis : o_genesis o' = if K k "genesis input file" then v else o_genesis o;
    st_exodus : o_exodus o' = if K k "exodus output file" then v else o_exodus o;
    st_two_level : if K k "use two level mesh decomposition" then parse_bool v = Ok (o_two_level o')
                   else o_two_level o' = o_two_level o;
    st_timing : if K k "write timing data file" then parse_bool v = Ok (o_timing o') else o_timing o' = o_timing o;
    st_scheme : o_scheme o' = if K k "time integration scheme" then v else o_scheme o;
    st_tol : o_tolerance o' = if K k "nonlinear solver relative tolerance" then atof v else o_tolerance o;
    st_maxit : if K k "nonlinear solver maximum iterations" then atoi v = Ok (o_max_iterations o')
               else o_max_iterations o' = o_max_iterations o;
    st_it : o_initial_time o' = if K k "initial time" then atof v else o_initial_time o;
    st_ft : o_final_time o' = if K k "final time" then atof v else o_final_time o;
    st_steps : if K k "number of load steps" then atoi v = Ok (o_load_steps o') else o_load_steps o' = o_load_steps o;
    st_freq : if K k "output frequency" then atoi v = Ok (o_output_frequency o')
              else o_output_frequency o' = o_output_frequency o;
    st_contact : o_contact o' = if K k "contact" then v else o_contact o;
    st_backend : o_contact_backend o' = if K k "contact backend" then v else o_contact_backend o;
    st_vis : if K k "contact visualization"
             then parse_visualization v = Ok (o_vis_entities o', o_vis_boxes o', o_vis_file o')
             else (o_vis_entities o', o_vis_boxes o', o_vis_file o') = (o_vis_entities o, o_vis_boxes o, o_vis_file o);
    st_mat : o_materials o' = if K k "material parameters"
             then assoc_set chars_eqb (fst (split_space v)) (snd (split_space v)) (o_materials o) else o_materials o;
    st_blk : o_blocks o' = if K k "element block"
             then assoc_set Z.eqb (bp_id (block_properties v)) (block_properties v) (o_blocks o) else o_blocks o;
    st_bcs : o_bcs o' = o_bcs o ++ if K k "boundary condition" then [v] else [];
    st_fields : o_output_fields o' = if K k "output fields" then v else o_output_fields o;
    st_uq : have_uq cfg = true -> o_uq_model o' = if K k "uq model" then v else o_uq_model o;
    st_uqp : have_uq cfg = true -> o_uq_params o' = if K k "uq parameters"
             then assoc_set chars_eqb (fst (split_space v)) (snd (split_space v)) (o_uq_params o) else o_uq_params o;
    st_known : In k plain_keys \/ (have_uq cfg = true /\ In k uq_keys)
  }.

  Ltac eval_keys := repeat match goal with
    | |- context [chars_eqb (lit ?a) (lit ?b)] =>
        let r := eval vm_compute in (chars_eqb (lit a) (lit b)) in
        change (chars_eqb (lit a) (lit b)) with r
    end.
  Ltac in_keys := unfold plain_keys, uq_keys; cbn [map In]; tauto.
  Ltac finish H :=
    cbn [obind] in H; try discriminate H; injection H as <-;
    constructor; cbn [o_genesis o_exodus o_two_level o_timing o_scheme o_tolerance o_max_iterations o_initial_time
      o_final_time o_load_steps o_output_frequency o_contact o_contact_backend o_vis_entities o_vis_boxes o_vis_file
      o_materials o_blocks o_bcs o_output_fields o_dicing o_splitting o_uq_params o_uq_model fst snd];
    eval_keys; cbv iota; rewrite ?app_nil_r; auto; try (intros; reflexivity); try (left; in_keys); try (right; split; [assumption|in_keys]).

  Lemma parse_step o k v o' : parse_kv o k v = Ok o' -> step o k v o'.
  Proof.
    intros H. destruct o. unfold parse_key_value in H.
    repeat match type of H with
    | (if chars_eqb k (lit ?x) then _ else _) = _ =>
        let E := fresh "E" in
        destruct (chars_eqb k (lit x)) eqn:E;
        [apply chars_eqb_eq in E; subst k;
         try match type of H with obind ?e _ = _ => destruct e eqn:?; try discriminate H end;
         try match goal with x : (bool * bool * chars)%type |- _ => destruct x as [[? ?] ?] end;
         finish H|]
    end.
    destruct (have_uq cfg) eqn:Eu; cbn [andb] in H; [|discriminate H].
    repeat match type of H with
    | (if chars_eqb k (lit ?x) then _ else _) = _ =>
        let E := fresh "E" in
        destruct (chars_eqb k (lit x)) eqn:E; [apply chars_eqb_eq in E; subst k; finish H|]
    end.
    discriminate H.
  Qed.

  Lemma fold_last {A} (f : options D -> A) key (R : chars -> A -> Prop) :
    (forall o k v o', parse_kv o k v = Ok o' -> if chars_eqb k key then R v (f o') else f o' = f o) ->
    forall l o o', fold_set l o = Ok o' ->
    match last_value key l with Some v => R v (f o') | None => f o' = f o end.
  Proof.
    intros Hs. induction l as [|[k v] l IH]; intros o o' H; cbn [ofold] in H.
    - injection H as <-. reflexivity.
    - unfold set_option at 1 in H. cbn [fst snd] in H.
      destruct (parse_kv o k v) as [o1| | |] eqn:E; try discriminate H. cbn [obind] in H.
      specialize (IH o1 o' H). rewrite last_value_cons. destruct (last_value key l); auto.
      specialize (Hs _ _ _ _ E). destruct (chars_eqb key k) eqn:Ek.
      + apply chars_eqb_eq in Ek. subst. rewrite chars_eqb_refl in Hs. now rewrite IH.
      + destruct (chars_eqb k key) eqn:Ek'; [apply chars_eqb_eq in Ek'; subst; rewrite chars_eqb_refl in Ek; discriminate|].
        congruence.
  Qed.
  Lemma fold_last_eq {A} (f : options D -> A) key (g : chars -> A) :
    (forall o k v o', parse_kv o k v = Ok o' -> f o' = if chars_eqb k key then g v else f o) ->
    forall l o o', fold_set l o = Ok o' -> f o' = or_default (f o) (option_map g (last_value key l)).
  Proof.
    intros Hs l o o' H. pose proof (@fold_last A f key (fun v a => a = g v)) as F.
    specialize (F ltac:(intros o1 k v o2 E; specialize (Hs _ _ _ _ E); destruct (chars_eqb k key); auto) l o o' H).
    destruct (last_value key l); auto.
  Qed.
  Lemma fold_known l : forall o o', fold_set l o = Ok o' ->
    Forall (fun kv => In (fst kv) plain_keys \/ (have_uq cfg = true /\ In (fst kv) uq_keys)) l.
  Proof.
    induction l as [|[k v] l IH]; intros o o' H; [constructor|]. cbn [ofold] in H.
    unfold set_option at 1 in H. cbn [fst snd] in H.
    destruct (parse_kv o k v) as [o1| | |] eqn:E; try discriminate H. cbn [obind] in H.
    constructor; [|eapply IH; eauto]. apply (st_known (parse_step _ _ _ E)).
  Qed.
  Lemma fold_bcs l : forall o o', fold_set l o = Ok o' ->
    o_bcs o' = o_bcs o ++ values (lit "boundary condition") l.
  Proof.
    induction l as [|[k v] l IH]; intros o o' H; cbn [ofold] in H.
    - injection H as <-. now rewrite app_nil_r.
    - unfold set_option at 1 in H. cbn [fst snd] in H.
      destruct (parse_kv o k v) as [o1| | |] eqn:E; try discriminate H. cbn [obind] in H.
      rewrite (IH _ _ H), (st_bcs (parse_step _ _ _ E)), values_cons, <- app_assoc. f_equal. f_equal.
      destruct (chars_eqb k (lit "boundary condition")) eqn:Ek.
      + apply chars_eqb_eq in Ek. subst. now rewrite chars_eqb_refl.
      + destruct (chars_eqb (lit "boundary condition") k) eqn:Ek'; auto.
        apply chars_eqb_eq in Ek'. subst. rewrite chars_eqb_refl in Ek. discriminate.
  Qed.

  (** maps filled by one key *)
  Lemma fold_map {A B} (eqb : A -> A -> bool) (Heq : forall a b, eqb a b = true <-> a = b)
      (f : options D -> list (A * B)) key (ka : chars -> A) (va : chars -> B) :
    (forall o k v o', parse_kv o k v = Ok o' ->
       f o' = if chars_eqb k key then assoc_set eqb (ka v) (va v) (f o) else f o) ->
    forall l o o' a, fold_set l o = Ok o' ->
    assoc eqb a (f o') =
    match find (fun v => eqb a (ka v)) (rev (values key l)) with
    | Some v => Some (va v)
    | None => assoc eqb a (f o)
    end.
  Proof.
    intros Hs. induction l as [|[k v] l IH]; intros o o' a H; cbn [ofold] in H.
    - injection H as <-. reflexivity.
    - unfold set_option at 1 in H. cbn [fst snd] in H.
      destruct (parse_kv o k v) as [o1| | |] eqn:E; try discriminate H. cbn [obind] in H.
      rewrite (IH _ _ a H), values_cons, rev_app_distr.
      assert (Hf : forall (p : chars -> bool) x y, find p (x ++ y) = match find p x with Some z => Some z | None => find p y end).
      { intros p x y. induction x as [|u x IHx]; cbn [app find]; auto. destruct (p u); auto. }
      rewrite Hf. destruct (find _ (rev (values key l))); auto.
      rewrite (Hs _ _ _ _ E). destruct (chars_eqb key k) eqn:Ek.
      + apply chars_eqb_eq in Ek. subst. rewrite chars_eqb_refl. cbn [rev app find].
        rewrite assoc_assoc_set by auto. destruct (eqb a (ka v)); auto.
      + destruct (chars_eqb k key) eqn:Ek'; [apply chars_eqb_eq in Ek'; subst; rewrite chars_eqb_refl in Ek; discriminate|].
        reflexivity.
  Qed.

  Lemma parse_unknown o k v : ~ In k plain_keys -> (have_uq cfg = true -> ~ In k uq_keys) -> parse_kv o k v = Throw.
  Proof.
    intros Hp Hu. destruct o. unfold parse_key_value.
    assert (Hk : forall x, In (lit x) plain_keys -> chars_eqb k (lit x) = false).
    { intros x Hx. apply chars_eqb_false. intros ->. contradiction. }
    repeat match goal with
    | |- (if chars_eqb k (lit ?x) then _ else _) = _ => rewrite (Hk x) by in_keys
    end.
    destruct (have_uq cfg); cbn [andb]; auto. specialize (Hu eq_refl).
    assert (Hk' : forall x, In (lit x) uq_keys -> chars_eqb k (lit x) = false).
    { intros x Hx. apply chars_eqb_false. intros ->. contradiction. }
    repeat match goal with
    | |- (if chars_eqb k (lit ?x) then _ else _) = _ => rewrite (Hk' x) by in_keys
    end. reflexivity.
  Qed.

  (** accepted values *)
  Definition bool_keys : list chars := map lit ["use two level mesh decomposition"; "write timing data file"]%string.
  Definition int_keys : list chars := map lit
    ["nonlinear solver maximum iterations"; "number of load steps"; "output frequency"; "contact dicing"]%string.
  Lemma parse_accepts o k v :
    (In k plain_keys \/ (have_uq cfg = true /\ In k uq_keys)) ->
    (In k bool_keys -> exists b, parse_bool v = Ok b) ->
    (In k int_keys -> exists z, atoi v = Ok z) ->
    (k = lit "contact visualization" -> exists x, parse_visualization v = Ok x) ->
    exists o', parse_kv o k v = Ok o'.
  Proof.
    intros Hk Hb Hi Hv. destruct o. unfold parse_key_value.
    repeat match goal with
    | |- exists _, (if chars_eqb k (lit ?x) then _ else _) = _ =>
        let E := fresh "E" in
        destruct (chars_eqb k (lit x)) eqn:E;
        [apply chars_eqb_eq in E; subst k;
         first [ eexists; reflexivity
               | destruct (Hb ltac:(unfold bool_keys; cbn [map In]; tauto)) as (y & ->); eexists; reflexivity
               | destruct (Hi ltac:(unfold int_keys; cbn [map In]; tauto)) as (y & ->); eexists; reflexivity
               | destruct (Hv eq_refl) as (y & ->); eexists; reflexivity ]|]
    end.
    destruct Hk as [Hk|(Hu & Hk)].
    - exfalso. unfold plain_keys in Hk. cbn [map In] in Hk.
      repeat (destruct Hk as [Hk|Hk]; [subst k; rewrite chars_eqb_refl in *; discriminate|]). destruct Hk.
    - rewrite Hu. cbn [andb].
      repeat match goal with
      | |- exists _, (if chars_eqb k (lit ?x) then _ else _) = _ =>
        let E := fresh "E" in destruct (chars_eqb k (lit x)) eqn:E; [eexists; reflexivity|]
      end.
      exfalso. unfold uq_keys in Hk. cbn [map In] in Hk.
      repeat (destruct Hk as [Hk|Hk]; [subst k; rewrite chars_eqb_refl in *; discriminate|]). destruct Hk.
  Qed.
End Options.

(** ** values *)
Lemma parse_bool_true v : parse_bool v = Ok true <-> says_yes v.
Proof.
  unfold parse_bool, says_yes. change (map upper v) with (map toupper v). set (u := map toupper v). clearbody u.
  cbn [map In]. split.
  - destruct (chars_eqb u (lit "TRUE") || chars_eqb u (lit "YES") || chars_eqb u (lit "ON")) eqn:E.
    + intros _. apply orb_true_iff in E. destruct E as [E|E]; [apply orb_true_iff in E; destruct E as [E|E]|];
        apply chars_eqb_eq in E; subst; tauto.
    + destruct (chars_eqb u (lit "FALSE") || chars_eqb u (lit "NO") || chars_eqb u (lit "OFF")); intros H; discriminate H.
  - intros [<-|[<-|[<-|[]]]]; reflexivity.
Qed.
Lemma parse_bool_false v : parse_bool v = Ok false <-> says_no v.
Proof.
  unfold parse_bool, says_no. change (map upper v) with (map toupper v). set (u := map toupper v). clearbody u.
  cbn [map In]. split.
  - destruct (chars_eqb u (lit "TRUE") || chars_eqb u (lit "YES") || chars_eqb u (lit "ON")); [discriminate|].
    destruct (chars_eqb u (lit "FALSE") || chars_eqb u (lit "NO") || chars_eqb u (lit "OFF")) eqn:E; [|discriminate].
    intros _. apply orb_true_iff in E. destruct E as [E|E]; [apply orb_true_iff in E; destruct E as [E|E]|];
        apply chars_eqb_eq in E; subst; tauto.
  - intros [<-|[<-|[<-|[]]]]; reflexivity.
Qed.
Lemma parse_bool_cases v : (exists b, parse_bool v = Ok b) \/ parse_bool v = Throw.
Proof. unfold parse_bool. destruct (_ || _); [left; eauto|]. destruct (_ || _); eauto. Qed.

Lemma digit_not_sign c : is_digit c = true -> c <> "-"%char /\ c <> "+"%char.
Proof. intros H. split; intros ->; discriminate. Qed.
Lemma int_notation_text z s r : int_notation z s ->
  match r with [] => True | c :: _ => is_digit c = false end -> int_text (s ++ r) = Some z.
Proof.
  intros (ds & Hne & Hd & H) Hr. destruct ds as [|c ds]; [congruence|].
  pose proof (Forall_inv Hd) as Hc. destruct (digit_not_sign c Hc) as (Hm & Hp).
  destruct H as [(-> & ->)|(-> & ->)].
  - unfold int_text. cbn [app]. destruct (ascii_dec c "-"); [congruence|]. destruct (ascii_dec c "+"); [congruence|].
    change (c :: ds ++ r) with ((c :: ds) ++ r). rewrite take_digits_app by auto. reflexivity.
  - unfold int_text. cbn [app]. destruct (ascii_dec "-" "-"); [|congruence].
    change (c :: ds ++ r) with ((c :: ds) ++ r). rewrite take_digits_app by auto. reflexivity.
Qed.
Lemma int_notation_skip z s : int_notation z s -> skip_ws s = s /\ s <> [].
Proof.
  intros (ds & Hne & Hd & H). destruct ds as [|c ds]; [congruence|]. pose proof (Forall_inv Hd) as Hc.
  destruct H as [(-> & _)|(-> & _)]; split; try discriminate.
  - apply skip_ws_nonwhite. now apply isspace_not, isspace_digit.
  - reflexivity.
Qed.
Lemma int_range_in z : int_range z -> in_int z = true.
Proof. unfold int_range, in_int. lia. Qed.
Lemma atoi_notation z s : int_notation z s -> int_range z -> atoi s = Ok z.
Proof.
  intros H Hr. unfold atoi. destruct (int_notation_skip H) as (-> & _).
  rewrite <- (app_nil_r s). rewrite (@int_notation_text _ _ [] H I). now rewrite int_range_in.
Qed.
Lemma read_int_notation old z s : int_notation z s -> int_range z -> read_int old s = z.
Proof.
  intros H Hr. unfold read_int. destruct (int_notation_skip H) as (-> & Hne).
  destruct s as [|c s]; [congruence|]. rewrite <- (app_nil_r (c :: s)).
  rewrite (@int_notation_text _ _ [] H I). now rewrite int_range_in.
Qed.
Lemma dec_notation n : int_notation (Z.of_N n) (dec n).
Proof.
  exists (dec n). split; [apply dec_nonempty|]. split; [apply dec_digits|]. left. now rewrite undec_dec.
Qed.

(** ** rfind *)
Lemma rfind_absent p s : p <> [] -> (forall a b, s <> a ++ p ++ b) -> rfind_str p s = None.
Proof.
  intros Hp. induction s as [|d s IH]; intros H; cbn [rfind_str].
  - destruct p; congruence.
  - rewrite IH.
    + destruct (starts_with p (d :: s)) eqn:E; auto. apply starts_with_spec in E. destruct E as (t & E).
      exfalso. apply (H [] t). exact E.
    + intros a b E. apply (H (d :: a) b). cbn [app]. now rewrite E.
Qed.
Lemma rfind_last p a b : p <> [] -> (forall x y, b <> x ++ p ++ y) ->
  (forall x y, x <> [] -> p ++ b <> x ++ p ++ y) -> rfind_str p (a ++ p ++ b) = Some (length a).
Proof.
  intros Hp Hb Hpb. induction a as [|d a IH].
  - destruct p as [|c p]; [congruence|]. cbn [app length]. cbn [rfind_str].
    rewrite rfind_absent; [|discriminate|].
    + change (c :: p ++ b) with ((c :: p) ++ b). now rewrite starts_with_app.
    + intros x y E. apply (Hpb (c :: x) y); [discriminate|]. cbn [app] in *. congruence.
  - cbn [app length]. cbn [rfind_str]. now rewrite IH.
Qed.
Lemma rfind_char_last c a b : ~ In c b -> rfind_str [c] (a ++ c :: b) = Some (length a).
Proof.
  intros H. change (a ++ c :: b) with (a ++ [c] ++ b). apply rfind_last; [discriminate| |].
  - intros x y ->. apply H. apply in_app_iff. right. now left.
  - intros x y Hx E. destruct x as [|d x]; [congruence|]. cbn [app] in E. injection E as _ E.
    apply H. rewrite E. apply in_app_iff. right. now left.
Qed.
Lemma skipn_prefix {A} (a b : list A) : skipn (length a) (a ++ b) = b.
Proof. now rewrite skipn_app, skipn_all, Nat.sub_diag. Qed.
Lemma firstn_prefix {A} (a b : list A) : firstn (length a) (a ++ b) = a.
Proof. now rewrite firstn_app, firstn_all, Nat.sub_diag, firstn_O, app_nil_r. Qed.
Lemma skipn_S_prefix {A} (a : list A) c b : skipn (S (length a)) (a ++ c :: b) = b.
Proof.
  replace (S (length a)) with (length (a ++ [c])) by (rewrite app_length; simpl; lia).
  replace (a ++ c :: b) with ((a ++ [c]) ++ b) by now rewrite <- app_assoc. apply skipn_prefix.
Qed.

(** ** element blocks *)
Lemma split_space_app a b : ~ In " "%char a -> split_space (a ++ " "%char :: b) = (a, b).
Proof.
  intros H. unfold split_space. rewrite find_char_app by auto. cbn [upto succ_pos].
  now rewrite firstn_prefix, skipn_S_prefix.
Qed.
Lemma block_properties_digits stem ds mat : ~ In " "%char stem -> ds <> [] ->
  Forall (fun c => is_digit c = true) ds -> int_range (Z.of_N (undec ds)) ->
  block_properties (stem ++ lit "_" ++ ds ++ lit " " ++ mat) =
  BlockProps (stem ++ lit "_" ++ ds) (Z.of_N (undec ds)) mat.
Proof.
  intros Hs Hne Hds Hn. unfold block_properties.
  assert (Hd : ~ In " "%char ds).
  { intros HI. rewrite Forall_forall in Hds. specialize (Hds _ HI). discriminate. }
  assert (Hu : ~ In "_"%char ds).
  { intros HI. rewrite Forall_forall in Hds. specialize (Hds _ HI). discriminate. }
  assert (Hname : ~ In " "%char (stem ++ lit "_" ++ ds)).
  { intros HI. apply in_app_iff in HI. destruct HI as [HI|HI]; auto. apply in_app_iff in HI.
    destruct HI as [[HI|[]]|HI]; [discriminate|auto]. }
  replace (stem ++ lit "_" ++ ds ++ lit " " ++ mat) with ((stem ++ lit "_" ++ ds) ++ " "%char :: mat)
    by now rewrite <- !app_assoc.
  rewrite find_char_app by auto. cbn [upto succ_pos]. rewrite firstn_prefix, skipn_S_prefix. f_equal.
  change (lit "_") with ["_"%char]. change (["_"%char] ++ ds) with ("_"%char :: ds).
  rewrite rfind_char_last by auto. cbn [succ_pos]. rewrite skipn_S_prefix.
  apply read_int_notation; auto. exists ds. auto.
Qed.
