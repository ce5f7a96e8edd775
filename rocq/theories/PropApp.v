(** C79: a run of the whole program: exit code, files, initialisation and finalisation. *)
From Verif Require Import Base Strings DataModel InputModel AppModel PropInput.
Set Implicit Arguments.
Local Open Scope nat_scope.
Local Open Scope list_scope.

Section App.
  Variable D : Type.
  Variable atof : chars -> D.
  Variables tol zero : D.
  Variable deck : build.
  Variable have_mpi : bool.
  Variable cfg : cli_build.
  Notation read text := (read_file atof tol zero deck text).
  Notation go st i := (app_run atof tol zero deck have_mpi cfg st i).
  Notation mesh_of i o := (io_file_name (o_genesis o) (lit "g") [] (in_rank i) (in_ranks i)).
  Notation out_of i o := (io_file_name (o_exodus o) (lit "e") (lit "out") (in_rank i) (in_ranks i)).

  (** every stage works on the deck [o] and the integrator returns [status] *)
  Definition stages_work (st : stages D) (i : input) (o : options D) (scheme : chars) (status : Z) : Prop :=
    st_mesh st (mesh_of i o) = Ok tt /\ (o_scheme o = scheme /\ (scheme = lit "explicit" \/ scheme = lit "quasistatic")) /\
    st_data st o = Ok tt /\ st_blocks st o = Ok tt /\ st_output st (out_of i o) = Ok tt /\
    st_integrate st o scheme (has_contact o) = Ok status.
  (** some stage throws after all earlier ones worked *)
  Definition stage_throws (st : stages D) (i : input) (o : options D) : Prop :=
    st_mesh st (mesh_of i o) = Throw \/ (st_mesh st (mesh_of i o) = Ok tt /\
    ((o_scheme o <> lit "explicit" /\ o_scheme o <> lit "quasistatic") \/ ((o_scheme o = lit "explicit" \/ o_scheme o = lit "quasistatic") /\
    (st_data st o = Throw \/ (st_data st o = Ok tt /\
    (st_blocks st o = Throw \/ (st_blocks st o = Ok tt /\
    (st_output st (out_of i o) = Throw \/ (st_output st (out_of i o) = Ok tt /\
      st_integrate st o (o_scheme o) (has_contact o) = Throw))))))))).
End App.
Local Notation mesh_of i o := (io_file_name (o_genesis o) (lit "g") [] (in_rank i) (in_ranks i)).
Local Notation out_of i o := (io_file_name (o_exodus o) (lit "e") (lit "out") (in_rank i) (in_ranks i)).

(** * lemmas *)
Lemma scheme_cases D (o : options D) :
  (exists s, time_integration_scheme o = Ok s /\ o_scheme o = s /\ (s = lit "explicit" \/ s = lit "quasistatic") /\ chars_eqb s (lit "explicit") || chars_eqb s (lit "quasistatic") = true)
  \/ (time_integration_scheme o = Throw /\ o_scheme o <> lit "explicit" /\ o_scheme o <> lit "quasistatic").
Proof.
  unfold time_integration_scheme.
  destruct (chars_eqb (o_scheme o) (lit "explicit")) eqn:E1.
  - left. exists (o_scheme o). cbn [orb]. rewrite E1. split; auto. split; auto. split; auto. left. now apply chars_eqb_eq.
  - destruct (chars_eqb (o_scheme o) (lit "quasistatic")) eqn:E2.
    + left. exists (o_scheme o). cbn [orb]. rewrite E1, E2. split; auto. split; auto. split; auto. right. now apply chars_eqb_eq.
    + right. split; auto. split; intros C; rewrite C in *.
      * assert (chars_eqb (lit "explicit") (lit "explicit") = true) by (apply chars_eqb_eq; auto). congruence.
      * assert (chars_eqb (lit "quasistatic") (lit "quasistatic") = true) by (apply chars_eqb_eq; auto). congruence.
Qed.
Definition add_events (w : world) (es : list event) : world := World (w_mpi w) (w_kokkos w) (w_vt w) (w_contact w) (w_events w ++ es).

Ltac no := repeat match goal with H : _ \/ _ |- _ => destruct H | H : _ /\ _ |- _ => destruct H end; congruence.
Lemma main_loop_ok D (st : stages D) i o w : w_contact w = has_contact o ->
  match main_loop st i o w with
  | (Val status, w') => exists scheme, stages_work st i o scheme status /\ w' = add_events w [MeshRead (mesh_of i o); OutputOpened (out_of i o); Integrated scheme]
  | (Exc, w') => stage_throws st i o /\ exists es, w' = add_events w es
  | (Ends, _) | (Undef, _) => ~ stage_throws st i o /\ forall scheme status, ~ stages_work st i o scheme status
  | (Loops, _) => False
  end.
Proof.
  intros Hc. unfold main_loop, bind, lift, emit, ret, stages_work, stage_throws.
  assert (Ea : w = add_events w []) by (destruct w; unfold add_events; simpl; now rewrite app_nil_r).
  destruct (st_mesh st (mesh_of i o)) as [[]| | |] eqn:E1; cbn [of_outcome]; cbv beta iota zeta.
  2:{ split; [now left|]. exists []. exact Ea. }
  2,3: split; [intros C; no|intros s0 u C; no].
  destruct (scheme_cases o) as [(s & Es & Hs & Hs' & Hb)|(Es & N1 & N2)]; rewrite Es; cbn [of_outcome]; cbv beta iota zeta.
  2:{ split; [right; split; auto|]. exists [MeshRead (mesh_of i o)]. reflexivity. }
  destruct (st_data st o) as [[]| | |] eqn:E2; cbn [of_outcome]; cbv beta iota zeta.
  2:{ split; [right; split; auto; right; rewrite Hs; split; auto|]. exists [MeshRead (mesh_of i o)]. reflexivity. }
  2,3: split; [intros C; no|intros s0 u C; no].
  destruct (st_blocks st o) as [[]| | |] eqn:E3; cbn [of_outcome]; cbv beta iota zeta.
  2:{ split; [right; split; auto; right; rewrite Hs; split; auto|]. exists [MeshRead (mesh_of i o)]. reflexivity. }
  2,3: split; [intros C; no|intros s0 u C; no].
  destruct (st_output st (out_of i o)) as [[]| | |] eqn:E4; cbn [of_outcome]; cbv beta iota zeta.
  2:{ split; [right; split; auto; right; rewrite Hs; split; auto; right; split; auto; right; split; auto|]. exists [MeshRead (mesh_of i o)]. reflexivity. }
  2,3: split; [intros C; no|intros s0 u C; no].
  rewrite Hb. cbv iota. cbn [w_contact w_events w_mpi w_kokkos w_vt]. rewrite Hc.
  destruct (st_integrate st o s (has_contact o)) as [z| | |] eqn:E5; cbn [of_outcome]; cbv beta iota zeta.
  - exists s. split; [auto 10|]. unfold add_events. cbn [w_contact w_events w_mpi w_kokkos w_vt]. rewrite <- !app_assoc, ?Hc. reflexivity.
  - split; [right; split; auto; right; rewrite Hs; split; auto; right; split; auto; right; split; auto|].
    exists [MeshRead (mesh_of i o); OutputOpened (out_of i o)]. unfold add_events. cbn [w_contact w_events w_mpi w_kokkos w_vt]. rewrite <- !app_assoc, ?Hc. reflexivity.
  - split; [intros C; no|intros s0 u C; no].
  - split; [intros C; no|intros s0 u C; no].
Qed.

Section Theorems.
  Variable D : Type.
  Variable atof : chars -> D.
  Variables tol zero : D.
  Variable deck : build.
  Variable have_mpi : bool.
  Variable cfg : cli_build.
  Local Notation read i := (read_arg atof tol zero deck i).
  Local Notation go st i := (app_run atof tol zero deck have_mpi cfg st i).

  (** what the initialisation leaves, if nothing was used before *)
  Definition after_init (c : cli) (o : options D) : world :=
    World (if have_mpi then Active else Unused) Active (if have_vt cfg && use_vt c then Active else Unused) (has_contact o)
      ((if have_mpi then [MpiInit] else []) ++ [KokkosInit] ++ (if have_vt cfg && use_vt c then [VtInit] else []) ++ [DeckRead]).
  Lemma initialize_ok c i o : read i = Finished (Ok o) ->
    initialize_subsystems atof tol zero deck have_mpi cfg c i new_process = (Val o, after_init c o).
  Proof.
    intros E. unfold initialize_subsystems, after_init. unfold bind, lift. rewrite E.
    destruct have_mpi, (have_vt cfg && use_vt c), (has_contact o) eqn:Ec; cbn; rewrite ?Ec; reflexivity.
  Qed.
  Lemma initialize_bad c i r : read i = r -> (forall o, r <> Finished (Ok o)) ->
    fst (initialize_subsystems atof tol zero deck have_mpi cfg c i new_process) = match r with Finished Throw => Exc | Finished Abort => Ends | Finished UB => Undef | Hangs => Loops | _ => Exc end.
  Proof.
    intros E H. unfold initialize_subsystems. unfold bind, lift. rewrite E.
    destruct have_mpi, (have_vt cfg && use_vt c); cbn; destruct r as [[o| | |]|]; cbn; try reflexivity; exfalso; eapply H; reflexivity.
  Qed.

  Lemma run_cli_bad st i : (forall c, arguments cfg i <> Ok c) -> go st i = ret (in_cli_error i).
  Proof. intros H. unfold app_run. destruct (arguments cfg i) as [c| | |]; auto. exfalso. eapply H. reflexivity. Qed.
  Definition ended (w : world) : world :=
    World (if have_mpi then Done else Unused) Done (match w_vt w with Active => Done | s => s end) false
      (w_events w ++ (match w_vt w with Active => [VtFinal] | _ => [] end) ++ [KokkosFinal] ++ (if have_mpi then [MpiFinal] else [])).
  Lemma run_ok st i c o : arguments cfg i = Ok c -> read i = Finished (Ok o) ->
    match main_loop st i o (after_init c o) with
    | (Val status, w) => go st i new_process = (Val status, ended w)
    | (Exc, w) => go st i new_process = (Val 1%Z, w)
    | r => go st i new_process = r
    end.
  Proof.
    intros Ec Er.
    assert (G : go st i new_process = match main_loop st i o (after_init c o) with
        | (Val status, w) => (run _ <- set_contact false; run _ <- finalize_subsystems have_mpi cfg c; ret status) w
        | (Exc, w) => (Val 1%Z, w)
        | r => r
        end).
    { unfold app_run. rewrite Ec. unfold bind at 1. rewrite (@initialize_ok c i o Er). reflexivity. }
    pose proof (@main_loop_ok D st i o (after_init c o) eq_refl) as H.
    destruct (main_loop st i o (after_init c o)) as [[status| | | |] w]; try exact G. rewrite G.
    destruct H as (scheme & _ & ->). unfold finalize_subsystems, ended, add_events, after_init, bind, set_contact.
    destruct have_mpi, (have_vt cfg && use_vt c); cbn; rewrite <- ?app_assoc; reflexivity.
  Qed.
End Theorems.

(** what the arguments have to be *)
Definition arguments_bad (cfg : cli_build) (i : input) : Prop :=
  (forall c, cli_parse cfg (in_switches i) <> Ok c) \/ in_file i = NotAFile \/ (in_file i = NoFile /\ in_help i = false).
Lemma arguments_file cfg i text : in_file i = File text -> arguments cfg i = cli_parse cfg (in_switches i).
Proof. intros E. unfold arguments. now rewrite E. Qed.
Lemma arguments_bad_iff cfg i : arguments_bad cfg i <-> forall c, arguments cfg i <> Ok c.
Proof.
  unfold arguments_bad, arguments. destruct (in_file i); [destruct (in_help i)| |]; split; intros H; try discriminate; auto.
  - destruct H as [H|[H|(_ & H)]]; try discriminate; auto.
  - destruct H as [H|[H|(H & _)]]; try discriminate; auto.
Qed.
Lemma read_file_arg D (atof : chars -> D) tol zero deck i o :
  read_arg atof tol zero deck i = Finished (Ok o) <-> exists text, in_file i = File text /\ read_file atof tol zero deck text = Finished (Ok o).
Proof.
  unfold read_arg. destruct (in_file i) as [| |t]; split; try discriminate; try (intros (x & C & _); discriminate).
  - intros H. eauto.
  - intros (x & C & H). injection C as <-. exact H.
Qed.

Lemma exit_code_arg :
  forall D (atof : chars -> D) tol zero deck have_mpi cfg st i code,
  exit_code atof tol zero deck have_mpi cfg st i = Some code <->
    ((forall c, arguments cfg i <> Ok c) /\ code = in_cli_error i) \/
    (exists c o, arguments cfg i = Ok c /\ read_arg atof tol zero deck i = Finished (Ok o) /\
       ((exists scheme, stages_work st i o scheme code) \/ (stage_throws st i o /\ code = 1%Z))).
Proof.
  intros D atof tol zero deck have_mpi cfg st i code. unfold exit_code.
  destruct (arguments cfg i) as [c| | |] eqn:Ec.
  2,3,4: rewrite run_cli_bad by (rewrite Ec; discriminate); cbn; split;
    [intros H; injection H as <-; left; split; auto; discriminate|intros [(_ & ->)|(c & o & C & _)]; [reflexivity|congruence]].
  destruct (read_arg atof tol zero deck i) as [[o| | |]|] eqn:Er.
  2,3,4,5: unfold app_run; rewrite Ec; unfold bind at 1;
    pose proof (@initialize_bad D atof tol zero deck have_mpi cfg c i _ Er ltac:(discriminate)) as Hb;
    destruct (initialize_subsystems atof tol zero deck have_mpi cfg c i new_process) as [[| | | |] w]; cbn [fst] in Hb |- *; try discriminate;
    (split; [discriminate|intros [(C & _)|(c' & o' & _ & C & _)]; [exfalso; eapply C; reflexivity|congruence]]).
  pose proof (@run_ok D atof tol zero deck have_mpi cfg st i c o Ec Er) as R.
  pose proof (@main_loop_ok D st i o (after_init have_mpi cfg c o) eq_refl) as H.
  destruct (main_loop st i o (after_init have_mpi cfg c o)) as [[status| | | |] w]; rewrite R; cbn [fst].
  - split.
    + intros E. injection E as <-. right. exists c, o. destruct H as (s & Hs & _). eauto 10.
    + intros [(C & _)|(c' & o' & _ & Eo & K)]; [exfalso; eapply C; reflexivity|].
      assert (o' = o) by congruence. subst o'. f_equal. destruct H as (s & Hs & _). unfold stages_work, stage_throws in *.
      destruct K as [(s' & K)|(K & ->)]; no.
  - split.
    + intros E. injection E as <-. right. exists c, o. destruct H as (Hs & _). eauto 10.
    + intros [(C & _)|(c' & o' & _ & Eo & K)]; [exfalso; eapply C; reflexivity|].
      assert (o' = o) by congruence. subst o'. f_equal. destruct H as (Ht & _). unfold stages_work, stage_throws in *.
      destruct K as [(s' & K)|(K & ->)]; [exfalso|reflexivity]. no.
  - split; [discriminate|]. intros [(C & _)|(c' & o' & _ & Eo & K)]; [exfalso; eapply C; reflexivity|].
    assert (o' = o) by congruence. subst o'. exfalso. destruct H as (H1 & H2). destruct K as [(s' & K)|(K & _)]; [eapply H2; exact K|auto].
  - split; [discriminate|]. intros [(C & _)|(c' & o' & _ & Eo & K)]; [exfalso; eapply C; reflexivity|].
    assert (o' = o) by congruence. subst o'. exfalso. destruct H as (H1 & H2). destruct K as [(s' & K)|(K & _)]; [eapply H2; exact K|auto].
  - destruct H.
Qed.

(** The exit code says exactly what happened: bad arguments give the code of the argument parser;
    otherwise the deck was read and either every stage worked and the code is the integrator's, or a
    stage threw and the code is 1.  Nothing else ends with an exit code. *)
Theorem C79_exit_code :
  forall D (atof : chars -> D) tol zero deck have_mpi cfg st i code,
  exit_code atof tol zero deck have_mpi cfg st i = Some code <->
    (arguments_bad cfg i /\ code = in_cli_error i) \/
    (exists c text o, cli_parse cfg (in_switches i) = Ok c /\ in_file i = File text /\ read_file atof tol zero deck text = Finished (Ok o) /\
       ((exists scheme, stages_work st i o scheme code) \/ (stage_throws st i o /\ code = 1%Z))).
Proof.
  intros D atof tol zero deck have_mpi cfg st i code. rewrite exit_code_arg. rewrite arguments_bad_iff. split.
  - intros [H|(c & o & Ec & Er & K)]; [now left|right]. apply read_file_arg in Er. destruct Er as (t & Et & Er).
    exists c, t, o. rewrite <- (@arguments_file cfg _ _ Et). auto.
  - intros [H|(c & t & o & Ec & Et & Er & K)]; [now left|right]. exists c, o. rewrite (@arguments_file cfg _ _ Et). split; auto.
    split; auto. apply read_file_arg. eauto.
Qed.
Print Assumptions C79_exit_code.

(** Exit code 0 of a run with good arguments: the input was read, all files were opened and the chosen
    integrator reported success. *)
Theorem C79_zero_means_success :
  forall D (atof : chars -> D) tol zero deck have_mpi cfg st i, in_cli_error i <> 0%Z ->
  exit_code atof tol zero deck have_mpi cfg st i = Some 0%Z <->
    exists c text o scheme, cli_parse cfg (in_switches i) = Ok c /\ in_file i = File text /\ read_file atof tol zero deck text = Finished (Ok o) /\
      (o_scheme o = scheme /\ (scheme = lit "explicit" \/ scheme = lit "quasistatic")) /\
      st_mesh st (mesh_of i o) = Ok tt /\ st_data st o = Ok tt /\ st_blocks st o = Ok tt /\ st_output st (out_of i o) = Ok tt /\
      st_integrate st o scheme (has_contact o) = Ok 0%Z.
Proof.
  intros D atof tol zero deck have_mpi cfg st i He. rewrite C79_exit_code. unfold stages_work. split.
  - intros [(_ & C)|(c & t & o & Ec & Et & Er & [(s & K)|(_ & C)])]; [congruence| |discriminate]. exists c, t, o, s. tauto.
  - intros (c & t & o & s & Ec & Et & Er & K). right. exists c, t, o. split; auto. split; auto. split; auto. left. exists s. tauto.
Qed.
Print Assumptions C79_zero_means_success.

(** A run whose stages work does them in order, once each, on the files of its rank, and finalises what
    it initialised. *)
Theorem C79_clean_end :
  forall D (atof : chars -> D) tol zero deck have_mpi cfg st i c text o scheme status,
  cli_parse cfg (in_switches i) = Ok c -> in_file i = File text -> read_file atof tol zero deck text = Finished (Ok o) -> stages_work st i o scheme status ->
  let vt := have_vt cfg && use_vt c in
  exists w, app_run atof tol zero deck have_mpi cfg st i new_process = (Val status, w) /\
    w_mpi w = (if have_mpi then Done else Unused) /\ w_kokkos w = Done /\ w_vt w = (if vt then Done else Unused) /\ w_contact w = false /\
    w_events w = (if have_mpi then [MpiInit] else []) ++ [KokkosInit] ++ (if vt then [VtInit] else []) ++
      [DeckRead; MeshRead (mesh_of i o); OutputOpened (out_of i o); Integrated scheme] ++
      (if vt then [VtFinal] else []) ++ [KokkosFinal] ++ (if have_mpi then [MpiFinal] else []).
Proof.
  intros D atof tol zero deck have_mpi cfg st i c text o scheme status Ec0 Et Er0 Hw vt. pose proof Ec0 as Ec. rewrite <- (@arguments_file cfg _ _ Et) in Ec.
  assert (Er : read_arg atof tol zero deck i = Finished (Ok o)) by (unfold read_arg; now rewrite Et).
  pose proof (@run_ok D atof tol zero deck have_mpi cfg st i c o Ec Er) as R.
  pose proof (@main_loop_ok D st i o (after_init have_mpi cfg c o) eq_refl) as H.
  destruct (main_loop st i o (after_init have_mpi cfg c o)) as [[status'| | | |] w].
  - destruct H as (s & Hs & ->). exists (ended have_mpi (add_events (after_init have_mpi cfg c o) [MeshRead (mesh_of i o); OutputOpened (out_of i o); Integrated s])).
    assert (s = scheme /\ status' = status) as (-> & ->) by (unfold stages_work in *; split; no).
    split; [exact R|]. unfold ended, add_events, after_init, vt.
    destruct have_mpi, (have_vt cfg && use_vt c); cbn; repeat (split; [reflexivity|]); reflexivity.
  - exfalso. destruct H as (H & _). unfold stages_work, stage_throws in *. no.
  - exfalso. destruct H as (_ & H). eapply H. exact Hw.
  - exfalso. destruct H as (_ & H). eapply H. exact Hw.
  - destruct H.
Qed.
Print Assumptions C79_clean_end.

(** The two ranks of a run never open the same file. *)
Theorem C79_files_of_ranks_differ :
  forall D (o : options D) i i', in_ranks i = in_ranks i' -> (1 < in_ranks i)%N -> (in_rank i < in_ranks i)%N -> (in_rank i' < in_ranks i')%N ->
  in_rank i <> in_rank i' ->
  (o_genesis o <> lit "none" -> InputSpec.none_of InputSpec.white (io_file_name (o_genesis o) (lit "g") [] 0 1) -> mesh_of i o <> mesh_of i' o) /\
  (o_exodus o <> lit "none" -> InputSpec.none_of InputSpec.white (io_file_name (o_exodus o) (lit "e") (lit "out") 0 1) -> out_of i o <> out_of i' o).
Proof.
  intros D o i i' En H1 H2 H3 Hn. rewrite <- En in *. split; intros Hs Hw.
  - exact (proj2 (proj2 (@C20_rank_names _ _ _ _ Hs H1 Hw) _ _ H2 H3) Hn).
  - exact (proj2 (proj2 (@C20_rank_names _ _ _ _ Hs H1 Hw) _ _ H2 H3) Hn).
Qed.
Print Assumptions C79_files_of_ranks_differ.

(** A run in which a stage throws ends with code 1 but finalises nothing, and keeps its contact
    interface. *)
Theorem C79_failed_run_not_finalised_refuted :
  forall D (atof : chars -> D) tol zero deck have_mpi cfg st i c text o,
  cli_parse cfg (in_switches i) = Ok c -> in_file i = File text -> read_file atof tol zero deck text = Finished (Ok o) -> stage_throws st i o ->
  exists w, app_run atof tol zero deck have_mpi cfg st i new_process = (Val 1%Z, w) /\ w_kokkos w = Active /\
    w_mpi w = (if have_mpi then Active else Unused) /\ w_contact w = has_contact o.
Proof.
  intros D atof tol zero deck have_mpi cfg st i c text o Ec0 Et Er0 Ht. pose proof Ec0 as Ec. rewrite <- (@arguments_file cfg _ _ Et) in Ec.
  assert (Er : read_arg atof tol zero deck i = Finished (Ok o)) by (unfold read_arg; now rewrite Et).
  pose proof (@run_ok D atof tol zero deck have_mpi cfg st i c o Ec Er) as R.
  pose proof (@main_loop_ok D st i o (after_init have_mpi cfg c o) eq_refl) as H.
  destruct (main_loop st i o (after_init have_mpi cfg c o)) as [[status'| | | |] w].
  - exfalso. destruct H as (s & H & _). unfold stages_work, stage_throws in *. no.
  - destruct H as (_ & es & ->). eexists. split; [exact R|]. cbn. auto.
  - exfalso. destruct H as (H & _). auto.
  - exfalso. destruct H as (H & _). auto.
  - destruct H.
Qed.
Print Assumptions C79_failed_run_not_finalised_refuted.

(** A deck that is rejected does not lead to an exit code: the exception leaves Run. *)
Theorem C79_rejected_deck_escapes_refuted :
  forall D (atof : chars -> D) tol zero deck have_mpi cfg st i c text,
  cli_parse cfg (in_switches i) = Ok c -> in_file i = File text -> read_file atof tol zero deck text = Finished Throw ->
  fst (app_run atof tol zero deck have_mpi cfg st i new_process) = Exc /\ exit_code atof tol zero deck have_mpi cfg st i = None.
Proof.
  intros D atof tol zero deck have_mpi cfg st i c text Ec0 Et Er0. pose proof Ec0 as Ec. rewrite <- (@arguments_file cfg _ _ Et) in Ec.
  assert (Er : read_arg atof tol zero deck i = Finished Throw) by (unfold read_arg; now rewrite Et).
  assert (E : fst (app_run atof tol zero deck have_mpi cfg st i new_process) = Exc).
  { unfold app_run. rewrite Ec. unfold bind at 1.
    pose proof (@initialize_bad D atof tol zero deck have_mpi cfg c i _ Er ltac:(discriminate)) as Hb.
    destruct (initialize_subsystems atof tol zero deck have_mpi cfg c i new_process) as [[| | | |] w]; cbn [fst] in Hb |- *; congruence. }
  split; auto. unfold exit_code. now rewrite E.
Qed.
Print Assumptions C79_rejected_deck_escapes_refuted.

(** Asking for help without a file prints the help, but the run goes on (the error code of the argument
    parser is 0) and dies of the missing file. *)
Theorem C79_help_refuted :
  forall D (atof : chars -> D) tol zero deck have_mpi cfg st i c,
  cli_parse cfg (in_switches i) = Ok c -> in_help i = true -> in_file i = NoFile ->
  fst (app_run atof tol zero deck have_mpi cfg st i new_process) = Exc /\ exit_code atof tol zero deck have_mpi cfg st i = None.
Proof.
  intros D atof tol zero deck have_mpi cfg st i c Ec0 Eh Ef.
  assert (Ec : arguments cfg i = Ok c) by (unfold arguments; now rewrite Ef, Eh).
  assert (Er : read_arg atof tol zero deck i = Finished Throw) by (unfold read_arg; now rewrite Ef).
  assert (E : fst (app_run atof tol zero deck have_mpi cfg st i new_process) = Exc).
  { unfold app_run. rewrite Ec. unfold bind at 1.
    pose proof (@initialize_bad D atof tol zero deck have_mpi cfg c i _ Er ltac:(discriminate)) as Hb.
    destruct (initialize_subsystems atof tol zero deck have_mpi cfg c i new_process) as [[| | | |] w]; cbn [fst] in Hb |- *; congruence. }
  split; auto. unfold exit_code. now rewrite E.
Qed.
Print Assumptions C79_help_refuted.

(** Run is not re-entrant, contrary to its comment: after any run that got past the arguments and
    returned, the next one calls MPI_Init or Kokkos::initialize a second time. *)
Theorem C79_rerun_refuted :
  forall D (atof : chars -> D) tol zero deck have_mpi cfg st i code w st' i',
  ~ arguments_bad cfg i -> app_run atof tol zero deck have_mpi cfg st i new_process = (Val code, w) -> ~ arguments_bad cfg i' ->
  fst (app_run atof tol zero deck have_mpi cfg st' i' w) = Undef.
Proof.
  intros D atof tol zero deck have_mpi cfg st i code w st' i' A R A'.
  assert (G : forall i, ~ arguments_bad cfg i -> exists c, arguments cfg i = Ok c).
  { intros j. rewrite arguments_bad_iff. destruct (arguments cfg j) as [c| | |]; eauto; intros H; exfalso; apply H; discriminate. }
  destruct (G i A) as (c & Ec). destruct (G i' A') as (c' & Ec').
  assert (U : w_kokkos w <> Unused /\ (have_mpi = true -> w_mpi w <> Unused)).
  { destruct (read_arg atof tol zero deck i) as [[o| | |]|] eqn:Er.
    2,3,4,5: exfalso; unfold app_run in R; rewrite Ec in R; unfold bind at 1 in R;
      pose proof (@initialize_bad D atof tol zero deck have_mpi cfg c i _ Er ltac:(discriminate)) as Hb;
      destruct (initialize_subsystems atof tol zero deck have_mpi cfg c i new_process) as [[| | | |] w0]; cbn [fst] in Hb; discriminate.
    pose proof (@run_ok D atof tol zero deck have_mpi cfg st i c o Ec Er) as R'.
    pose proof (@main_loop_ok D st i o (after_init have_mpi cfg c o) eq_refl) as H.
    destruct (main_loop st i o (after_init have_mpi cfg c o)) as [[status'| | | |] w0]; rewrite R' in R; try discriminate; injection R as <- <-.
    - unfold ended. cbn. split; [discriminate|]. intros ->. discriminate.
    - destruct H as (_ & es & ->). cbn. split; [discriminate|]. intros ->. discriminate. }
  unfold app_run. rewrite Ec'. unfold bind at 1, initialize_subsystems, bind at 1.
  destruct have_mpi.
  - unfold mpi_init. destruct (w_mpi w) eqn:Em; cbn [fst]; try reflexivity. exfalso. now apply (proj2 U).
  - cbn [ret]. unfold bind at 1, ret, kokkos_init. destruct (w_kokkos w) eqn:Ek; cbn [fst]; try reflexivity. exfalso. now apply (proj1 U).
Qed.
Print Assumptions C79_rerun_refuted.

(** A case: two ranks, an explicit run with contact that succeeds. *)
Example C79_example :
  let text := lit "genesis input file: cube.g" ++ [newline] ++ lit "exodus output file: cube.e" ++ [newline] ++ lit "contact: x" in
  let st := Stages (fun _ => Ok tt) (fun _ => Ok tt) (fun _ => Ok tt) (fun _ => Ok tt) (fun _ _ _ => Ok 0%Z) in
  let i := Input [] false 106 (File text) 1 2 in
  exit_code (D := nat) (fun _ => 0) 0 0 (Build false false) true (CliBuild false false false) st i = Some 0%Z /\
  w_events (snd (app_run (D := nat) (fun _ => 0) 0 0 (Build false false) true (CliBuild false false false) st i new_process)) =
    [MpiInit; KokkosInit; DeckRead; MeshRead (lit "cube.g.2.1"); OutputOpened (lit "cube.out.e.2.1"); Integrated (lit "explicit"); KokkosFinal; MpiFinal].
Proof. vm_compute. split; reflexivity. Qed.
(** Cases: the mesh cannot be read; the deck has an unknown key. *)
Example C79_failed_example :
  let text := lit "genesis input file: cube.g" ++ [newline] ++ lit "exodus output file: cube.e" ++ [newline] ++ lit "contact: x" in
  let st := Stages (fun _ => Throw) (fun _ => Ok tt) (fun _ => Ok tt) (fun _ => Ok tt) (fun _ _ _ => Ok 0%Z) in
  match cli_parse (CliBuild false false false) [], read_file (D := nat) (fun _ => 0) 0 0 (Build false false) text with
  | Ok _, Finished (Ok o) => stage_throws st (Input [] false 106 (File text) 0 1) o
  | _, _ => False
  end /\ exit_code (D := nat) (fun _ => 0) 0 0 (Build false false) true (CliBuild false false false) st (Input [] false 106 (File text) 0 1) = Some 1%Z.
Proof. vm_compute. split; [left|]; reflexivity. Qed.
Example C79_rejected_example :
  read_file (D := nat) (fun _ => 0) 0 0 (Build false false) (lit "colour: red") = Finished Throw.
Proof. vm_compute. reflexivity. Qed.
