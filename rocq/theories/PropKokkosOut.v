(** C76: what the device version writes to the results file. *)
From Coq Require Import Reals Lra.
From Verif Require Import Base Strings ListLemmas DataModel DataProofs Loops TensorModel TensorSpec ElementModel ElementSpec BlockModel InputModel ElemDataModel PropElement.
From Verif Require Import KokkosModel KokkosSpec3 KokkosProofs KokkosProofs7 PropKokkos.
From Verif Require Import KokkosOutModel KokkosOutSpec KokkosOutProofs1 KokkosOutProofs3 KokkosOutProofs4 KokkosOutProofs5 KokkosOutProofs7 KokkosOutProofs8 KokkosOutProofs9 KokkosOutProofs11.
Set Implicit Arguments.
Local Open Scope nat_scope.
Local Open Scope list_scope.
Local Notation length := List.length.

(** C76: every successful write hands the file exactly the columns asked for: those of the nodes, and
    for each block of the mesh (and nothing else) those of its elements, with the numbers of the
    fields at that moment, whatever the schedules of the loops, whatever happened to the memory
    before, and however often results were written; nodal fields and fields at the points keep
    their contents. *)
Theorem C76_results : forall l d0 out d m sched d' m' nodes elems, device_object l d0 -> session out d0 d m -> valid_sched sched ->
  write_exodus_output sched d m = Ok (d', m', (nodes, elems)) ->
  nodes = node_columns (kd_tables d) (kd_heap d) (split_blank out []) /\
  (forall i id b vr vu, nth_error (kd_blocks d) i = Some (id, b) -> nth_error (kd_gref d) i = Some vr -> nth_error (kd_gdisp d) i = Some vu ->
    assoc Nat.eqb id elems = Some (block_columns (kd_tables d) (kd_heap d) id (mb_num_elem (kb_mesh b)) (held (kd_heap d) vr) (held (kd_heap d) vu) (split_blank out []))) /\
  (forall x, In x (map fst elems) <-> In x (map fst (kd_blocks d))) /\
  (forall k f v, node_field (kd_tables d) k f = Some v -> held (kd_heap d') v = held (kd_heap d) v) /\
  (forall k b f v, point_field (kd_tables d) k b f = Some v -> held (kd_heap d') v = held (kd_heap d) v).
Proof.
  intros l d0 out d m sched d' m' nodes elems O Se Hs E. pose proof (@session_inv _ _ _ _ _ O Se) as I. pose proof (rd_inv (si_ready I)) as T.
  destruct (@write_inv _ _ _ _ _ _ _ _ I Hs E) as (_ & _ & W1 & W2 & W3 & W4). split; [exact W1|]. split; [exact W2|]. split; [exact W3|]. split.
  - intros k f v Hv. unfold node_field in Hv. destruct (get_field_id (kd_tables d) f) as [j| | |]; try discriminate. destruct (host_node (kd_tables d) k (Some j)) as [v'| | |] eqn:Ev; try discriminate.
    assert (v' = v) as -> by congruence. destruct (@host_node_look _ _ (kd_tables d, kd_heap d) T _ _ _ Ev) as (vd & L). cbn [fst] in L. apply held_eq. apply (proj1 (W4 _ _ L ltac:(discriminate))).
  - intros k b f v Hv. unfold point_field in Hv. destruct (get_field_id (kd_tables d) f) as [j| | |]; try discriminate. destruct (dev_ipt (kd_tables d) k b (Some j) STEP_NP1) as [v'| | |] eqn:Ev; try discriminate.
    assert (v' = v) as -> by congruence. destruct (@dev_ipt_look _ _ (kd_tables d, kd_heap d) T _ _ _ _ Ev) as (vh & L). cbn [fst] in L. apply held_eq. apply (proj2 (W4 _ _ L ltac:(discriminate))). discriminate.
Qed.
Print Assumptions C76_results.
(** C76: a write succeeds exactly when every block can be written; in particular not with an
    inverted element when volumes or means are asked for, and not with a point number above 8. *)
Theorem C76_when : forall l d0 out d m sched, device_object l d0 -> session out d0 d m -> valid_sched sched ->
  (exists r, write_exodus_output sched d m = Ok r) <->
  forall i id b vr vu, nth_error (kd_blocks d) i = Some (id, b) -> nth_error (kd_gref d) i = Some vr -> nth_error (kd_gdisp d) i = Some vu ->
    computable (kd_tables d) id (mb_num_elem (kb_mesh b)) (held (kd_heap d) vr) (held (kd_heap d) vu) (split_blank out []).
Proof. intros l d0 out d m sched O Se Hs. apply write_when; [exact (@session_inv _ _ _ _ _ O Se)|exact Hs]. Qed.
Print Assumptions C76_when.
(** C76: the schedules of the loops do not matter. *)
Theorem C76_schedules : forall l d0 out d m s1 s2 d1 m1 o1 d2 m2 o2, device_object l d0 -> session out d0 d m -> valid_sched s1 -> valid_sched s2 ->
  write_exodus_output s1 d m = Ok (d1, m1, o1) -> write_exodus_output s2 d m = Ok (d2, m2, o2) ->
  fst o1 = fst o2 /\ forall id, In id (map fst (kd_blocks d)) -> assoc Nat.eqb id (snd o1) = assoc Nat.eqb id (snd o2).
Proof.
  intros l d0 out d m s1 s2 d1 m1 [n1 e1] d2 m2 [n2 e2] O Se H1 H2 E1 E2. pose proof (@session_inv _ _ _ _ _ O Se) as I. cbn [fst snd].
  destruct (@C76_results _ _ _ _ _ _ _ _ _ _ O Se H1 E1) as (A1 & A2 & _). destruct (@C76_results _ _ _ _ _ _ _ _ _ _ O Se H2 E2) as (B1 & B2 & _). split; [congruence|].
  intros id Hi. destruct (nassoc_some _ _ Hi) as (b & _ & Hin). apply In_nth_error in Hin. destruct Hin as (i & Hi'). destruct (si_gather I i Hi') as (vr & vu & xr & xu & R1 & R2 & _).
  rewrite (A2 _ _ _ _ _ Hi' R1 R2), (B2 _ _ _ _ _ Hi' R1 R2). reflexivity.
Qed.
Print Assumptions C76_schedules.
(** C76: asking for output adds element fields only: the fields at the nodes and at the points, the
    blocks and their work arrays are those of the start. *)
Theorem C76_fields : forall l out d0 d m, device_object l d0 -> session out d0 d m ->
  (forall k f, node_field (kd_tables d) k f = node_field (kd_tables d0) k f) /\ (forall k b f, point_field (kd_tables d) k b f = point_field (kd_tables d0) k b f) /\
  kd_blocks d = kd_blocks d0 /\ kd_gref d = kd_gref d0 /\ kd_gdisp d = kd_gdisp d0.
Proof. exact session_fields. Qed.
Print Assumptions C76_fields.
(** C76: with a block in the mesh, a word "ipt" followed by fewer than three characters is refused,
    whether or not there is such a field. *)
Theorem C76_short_request : forall l d0 out w, device_object l d0 -> kd_blocks d0 <> [] ->
  In w (split_blank out []) -> firstn 3 w = lit "ipt" -> length w < 6 -> forall r, initialize_exodus_output out d0 <> Ok r.
Proof.
  intros l d0 out w O Hne Hw Hi Hl [d m] E. pose proof (@start_inv _ _ _ _ _ O E) as I. destruct (@start_grow _ _ _ _ _ O E) as (_ & _ & Eb & _).
  destruct (kd_blocks d0) as [|[id b] bl] eqn:Ebl; [congruence|].
  assert (Hin : In id (map fst (kd_blocks d))) by (rewrite Eb; now left).
  assert (HN : count d id = Some (mb_num_elem (kb_mesh b))) by (unfold count; rewrite Eb; simpl; now rewrite Nat.eqb_refl).
  destruct (rd_blocks (si_ready I) _ Hin HN) as (F & _). destruct (F w Hw) as (_ & _ & _ & (r & Er)).
  unfold parse_request in Er. rewrite Hi in Er. rewrite (proj2 (chars_eqb_eq _ _) eq_refl) in Er. apply obind_ok in Er. destruct Er as (x & Ex & _). unfold substr_from in Ex.
  destruct (Nat.leb_spec 6 (length w)); [lia|discriminate].
Qed.
Print Assumptions C76_short_request.

(** a cube with a stress field at its points *)
Definition ex_allocs (stress : list R) : list alloc :=
  [Alloc AtNodes VECTOR (lit "displacement") 8 []; Alloc AtNodes VECTOR (lit "velocity") 8 [];
   Alloc (AtPoints 7) SYMMETRIC_TENSOR (lit "stress") 1 stress;
   Alloc (OnElements 7) SYMMETRIC_TENSOR (lit "stress") 1 []; Alloc (OnElements 7) SCALAR (lit "volume") 1 []].
Definition cube_list : list R := map (fun k => corner (k / 3) (k mod 3)) (seq 0 24).
Definition ex_block : kblock := KBlock (MBlock 7 1 8 [0; 1; 2; 3; 4; 5; 6; 7] (KMat 1 1 0 (fun _ _ _ _ _ => Ok zeros))) [].
Definition ex_object (same : bool) (x stress : list R) : outcome kdata :=
  do a <- allocate_all same (ex_allocs stress);
  let h := snd (fst a) in
  Ok (KD same (fst (fst a)) (h ++ [x; repeat 0%R 24]) (FIds None None None None (Some 0) (Some 1) None None None None None None) [(7, ex_block)]
     [View (length h) 1] [View (Datatypes.S (length h)) 1] [] 0%R None None).
Definition serial : scheduler := fun _ its => List.concat its.
Section Example.
  Variables (same : bool) (x : list R) (a b c p q r : R).
  Hypothesis Lx : length x = 24.
  Let stress := [a; b; c; p; q; r].
  Let out := lit "displacement volume stress ipt03_stress".
  Lemma ex_facts : match ex_object same x stress with
    | Ok d0 => device_object (ex_allocs stress) d0 /\
        match initialize_exodus_output out d0 with
        | Ok (d, m) => kd_blocks d = [(7, ex_block)] /\ (exists vr vu, kd_gref d = [vr] /\ kd_gdisp d = [vu] /\ held (kd_heap d) vr = x /\ held (kd_heap d) vu = repeat 0%R 24) /\
            (exists vs, point_field (kd_tables d) KSymIntPt 7 (lit "stress") = Some vs /\ held (kd_heap d) vs = List.concat (repeat stress 8)) /\ point_field (kd_tables d) KFullIntPt 7 (lit "stress") = None /\
            element_field (kd_tables d) KSymElem 7 (lit "stress") <> None /\ element_field (kd_tables d) KSymElem 7 (lit "ipt03_stress") <> None /\ element_field (kd_tables d) KScalarElem 7 (lit "volume") <> None /\
            (forall k, k = KSymIntPt \/ k = KFullIntPt -> point_field (kd_tables d) k 7 (lit "displacement") = None /\ point_field (kd_tables d) k 7 (lit "volume") = None)
        | _ => False
        end
    | _ => False
    end.
  Proof.
    destruct (ex_object same x stress) as [d0| | |] eqn:E0; [|destruct same; vm_compute in E0; discriminate..].
    assert (O : device_object (ex_allocs stress) d0).
    { unfold ex_object in E0. apply obind_ok in E0. destruct E0 as (al & Ea & E0). cbv zeta in E0. match type of E0 with Ok ?z = _ => assert (Ed : d0 = z) by congruence end. clear E0. subst d0.
      assert (Ids : map fst (tb_iidx (fst (fst al))) = [7]) by (destruct same; vm_compute in Ea; injection Ea as <-; reflexivity).
      constructor; cbn [kd_tables kd_blocks kd_same kd_heap kd_gref kd_gdisp].
      - apply Forall_forall. intros y Hy. simpl in Hy. destruct Hy as [<-|[<-|[<-|[<-|[<-|[]]]]]]; (split; [discriminate|]); try (left; reflexivity). right. split; [eexists; reflexivity|]. cbn. lia.
      - intros y id k Hy [E|[]] [H|H]; injection E as <- <-; simpl in Hy; repeat (destruct Hy as [<-|Hy]; [try discriminate; reflexivity|]); destruct Hy.
      - exact Ids.
      - repeat constructor; auto.
      - exists (snd (fst al)), (snd al). split; [rewrite Ea; destruct al as [[? ?] ?]; reflexivity|]. split.
        + intros g y Hy. exists y. split; auto. rewrite nth_error_app1; auto. eapply nth_some_lt; eauto.
        + intros i id k Hi. destruct i as [|i]; [|destruct i; discriminate]. injection Hi as <- <-. exists (View (length (snd (fst al))) 1), (View (Datatypes.S (length (snd (fst al)))) 1), x, (repeat 0%R 24).
          cbn [v_id kb_mesh ex_block mb_num_elem]. split; [reflexivity|]. split; [reflexivity|]. split; [lia|]. split; [lia|].
          split; [rewrite nth_error_app2 by lia; now rewrite Nat.sub_diag|]. split; [rewrite nth_error_app2 by lia; replace (Datatypes.S (length (snd (fst al))) - length (snd (fst al))) with 1 by lia; reflexivity|].
          split; [rewrite Lx; reflexivity|]. reflexivity. }
    split; [exact O|].
    assert (Q : match ex_object same x stress with Ok d0 => match initialize_exodus_output out d0 with
        | Ok (d, m) => kd_blocks d = [(7, ex_block)] /\ (exists vr vu, kd_gref d = [vr] /\ kd_gdisp d = [vu] /\ held (kd_heap d) vr = x /\ held (kd_heap d) vu = repeat 0%R 24) /\
            (exists vs, point_field (kd_tables d) KSymIntPt 7 (lit "stress") = Some vs /\ held (kd_heap d) vs = List.concat (repeat stress 8)) /\ point_field (kd_tables d) KFullIntPt 7 (lit "stress") = None /\
            element_field (kd_tables d) KSymElem 7 (lit "stress") <> None /\ element_field (kd_tables d) KSymElem 7 (lit "ipt03_stress") <> None /\ element_field (kd_tables d) KScalarElem 7 (lit "volume") <> None /\
            (point_field (kd_tables d) KSymIntPt 7 (lit "displacement") = None /\ point_field (kd_tables d) KSymIntPt 7 (lit "volume") = None) /\ point_field (kd_tables d) KFullIntPt 7 (lit "displacement") = None /\ point_field (kd_tables d) KFullIntPt 7 (lit "volume") = None
        | _ => False end | _ => False end).
    { clear. unfold stress. destruct same; vm_compute; (split; [reflexivity|]); (split; [do 2 eexists; repeat split|]); (split; [eexists; repeat split|]); (split; [reflexivity|]); (split; [discriminate|]); (split; [discriminate|]); (split; [discriminate|]); repeat split. }
    rewrite E0 in Q. destruct (initialize_exodus_output out d0) as [[d m]| | |]; auto. destruct Q as (Q1 & Q2 & Q3 & Q4 & Q5 & Q6 & Q7 & Q8 & Q9 & Q10). refine (conj Q1 (conj Q2 (conj Q3 (conj Q4 (conj Q5 (conj Q6 (conj Q7 _))))))).
    intros k [-> | ->]; auto.
  Qed.
End Example.
Lemma ex_same same x s d0 : ex_object same x s = Ok d0 -> kd_same d0 = same.
Proof. unfold ex_object. intros E. apply obind_ok in E. destruct E as (a & _ & E). cbv zeta in E. match type of E with Ok ?z = _ => assert (Ed : d0 = z) by congruence end. rewrite Ed. reflexivity. Qed.
(** the words of the example and what they mean *)
Lemma ex_words : split_blank (lit "displacement volume stress ipt03_stress") [] = [lit "displacement"; lit "volume"; lit "stress"; lit "ipt03_stress"] /\
  meaning (lit "displacement") = Mean (lit "displacement") /\ meaning (lit "volume") = Mean (lit "volume") /\ meaning (lit "stress") = Mean (lit "stress") /\ meaning (lit "ipt03_stress") = AtPoint (lit "stress") 3.
Proof. vm_compute. auto. Qed.
Lemma cube_corners n i : n < 8 -> i < 3 -> corners_of cube_list (repeat 0%R 24) 0 n i = nodes cube n i.
Proof.
  intros Hn Hi. unfold corners_of, cube_list. rewrite Nat.mul_0_l, Nat.add_0_l, nth_repeat, nth_map_seq by lia. unfold nodes, cube. ring.
Qed.
(** Example: for a cube with side 2 and the same stress at its points, the volume, the mean stress and the
    stress at point 3 are what they should be; with a flat element nothing is written. *)
Example C76_example : forall same a b c p q r, exists d0 d m d' m' nodes elems, kd_same d0 = same /\ device_object (ex_allocs [a; b; c; p; q; r]) d0 /\ session (lit "displacement volume stress ipt03_stress") d0 d m /\ valid_sched serial /\
  write_exodus_output serial d m = Ok (d', m', (nodes, elems)) /\
  assoc Nat.eqb 7 elems = Some ((lit "volume", [8%R]) ::
    [(lit "stress_xx", [a]); (lit "stress_yy", [b]); (lit "stress_zz", [c]); (lit "stress_xy", [p]); (lit "stress_yz", [q]); (lit "stress_zx", [r])] ++
    [(lit "ipt03_stress_xx", [a]); (lit "ipt03_stress_yy", [b]); (lit "ipt03_stress_zz", [c]); (lit "ipt03_stress_xy", [p]); (lit "ipt03_stress_yz", [q]); (lit "ipt03_stress_zx", [r])]).
Proof.
  intros same a b c p q r. pose proof (@ex_facts same cube_list a b c p q r) as F. specialize (F eq_refl).
  destruct (ex_object same cube_list [a; b; c; p; q; r]) as [d0| | |] eqn:E0; try contradiction. destruct F as (O & F).
  destruct (initialize_exodus_output (lit "displacement volume stress ipt03_stress") d0) as [[d m]| | |] eqn:Ei; try contradiction.
  destruct F as (Eb & (vr & vu & Er & Eu & Xr & Xu) & (vs & Es & Ds) & Ef & L1 & L2 & L3 & No).
  destruct ex_words as (W & M1 & M2 & M3 & M4). destruct C27_cube as (Cs & Cv & _).
  assert (J : forall g, mdet (jac (corners_of cube_list (repeat 0%R 24) 0) g) = mdet (jac (nodes cube) g)) by (intros g; apply jac_same; intros; now apply cube_corners).
  assert (Sh : all_shaped 1 cube_list (repeat 0%R 24)).
  { intros e He. replace e with 0 by lia. intros g Hg. rewrite J. now apply Cs. }
  assert (Vol : element_volume (corners_of cube_list (repeat 0%R 24) 0) = 8%R) by (unfold element_volume; rewrite <- Cv; unfold element_volume; f_equal; apply FunctionalExtensionality.functional_extensionality; intros g; apply J).
  assert (Se : session (lit "displacement volume stress ipt03_stress") d0 d m) by now apply se_start.
  destruct (proj2 (C76_when O Se C70_serial_schedule)) as ([[d' m'] [nodes elems]] & E).
  { intros i id k vr' vu' Hi Hr Hu. rewrite Eb in Hi. rewrite Er in Hr. rewrite Eu in Hu. destruct i as [|i]; [|destruct i; discriminate].
    assert (vr' = vr) as -> by (simpl in Hr; congruence). assert (vu' = vu) as -> by (simpl in Hu; congruence). assert (id = 7 /\ k = ex_block) as [-> ->] by (simpl in Hi; split; congruence).
    rewrite Xr, Xu, W. cbn [ex_block kb_mesh mb_num_elem]. intros w Hw. destruct Hw as [<-|[<-|[<-|[<-|[]]]]].
    - split; [discriminate|]. rewrite M1. intros kp ke K Hp. exfalso. apply Hp. apply No. tauto.
    - split; [auto|]. rewrite M2. intros kp ke K Hp. exfalso. apply Hp. apply No. tauto.
    - split; [discriminate|]. rewrite M3. intros kp ke [[-> ->]|[-> ->]] Hp; [auto|congruence].
    - split; [discriminate|]. rewrite M4. intros kp ke [[-> ->]|[-> ->]] Hp; [split; [auto|right; lia]|congruence]. }
  destruct (@C76_results _ _ _ _ _ _ _ _ _ _ O Se C70_serial_schedule E) as (_ & R & _).
  exists d0, d, m, d', m', nodes, elems. split; [exact (ex_same _ _ _ E0)|]. split; [exact O|]. split; [exact Se|]. split; [exact C70_serial_schedule|]. split; [exact E|].
  assert (R0 := R 0 7 ex_block vr vu). rewrite Eb, Er, Eu in R0. specialize (R0 eq_refl eq_refl eq_refl). rewrite R0. clear R R0. f_equal. rewrite Xr, Xu, W. cbn [ex_block kb_mesh mb_num_elem].
  unfold block_columns. cbn [flat_map]. unfold tensor_columns. rewrite M1, M2, M3, M4.
  rewrite (proj1 (No KSymIntPt (or_introl eq_refl))), (proj2 (No KSymIntPt (or_introl eq_refl))), (proj1 (No KFullIntPt (or_intror eq_refl))), (proj2 (No KFullIntPt (or_intror eq_refl))), Ef, Es, Ds.
  assert (Mean_is : forall k y, k < 6 -> nth k [a; b; c; p; q; r] 0%R = y -> mean_of 6 k cube_list (repeat 0%R 24) (List.concat (repeat [a; b; c; p; q; r] 8)) 0 = y).
  { intros k y Hk Hy. unfold mean_of. rewrite Vol. rewrite Nat.mul_0_l.
    assert (Q : forall g, g < 8 -> nth (0 + (6 * g + k)) (List.concat (repeat [a; b; c; p; q; r] 8)) 0%R = y).
    { intros g Hg. rewrite <- Hy. do 8 (destruct g as [|g]; [do 6 (destruct k as [|k]; [reflexivity|]); lia|]). lia. }
    unfold element_volume in Vol. cbv [Rsum] in *. rewrite !Q by lia. match type of Vol with ?z = _ => transitivity (y * z / 8)%R; [unfold Rdiv; ring|rewrite Vol; field] end. }
  cbn [app map fst snd sym_names seq]. unfold volume_column.
  change (chars_eqb (lit "displacement") (lit "volume")) with false. change (chars_eqb (lit "volume") (lit "volume")) with true. change (chars_eqb (lit "stress") (lit "volume")) with false. change (chars_eqb (lit "ipt03_stress") (lit "volume")) with false.
  cbn [app map seq]. rewrite Vol.
  rewrite (Mean_is 0 a), (Mean_is 1 b), (Mean_is 2 c), (Mean_is 3 p), (Mean_is 4 q), (Mean_is 5 r) by (lia || reflexivity). reflexivity.
Qed.
Print Assumptions C76_example.
Example C76_flat_element : forall same a b c p q r, exists d0 d m, kd_same d0 = same /\ device_object (ex_allocs [a; b; c; p; q; r]) d0 /\ session (lit "displacement volume stress ipt03_stress") d0 d m /\
  forall sched, valid_sched sched -> forall res, write_exodus_output sched d m <> Ok res.
Proof.
  intros same a b c p q r. pose proof (@ex_facts same (repeat 0%R 24) a b c p q r) as F. specialize (F eq_refl).
  destruct (ex_object same (repeat 0%R 24) [a; b; c; p; q; r]) as [d0| | |] eqn:E0; try contradiction. destruct F as (O & F).
  destruct (initialize_exodus_output (lit "displacement volume stress ipt03_stress") d0) as [[d m]| | |] eqn:Ei; try contradiction.
  destruct F as (Eb & (vr & vu & Er & Eu & Xr & Xu) & _). destruct ex_words as (W & _).
  assert (Se : session (lit "displacement volume stress ipt03_stress") d0 d m) by now apply se_start.
  exists d0, d, m. split; [exact (ex_same _ _ _ E0)|]. split; [exact O|]. split; [exact Se|]. intros sched Hs res E.
  assert (C := proj1 (C76_when O Se Hs) (ex_intro _ res E) 0 7 ex_block vr vu). rewrite Eb, Er, Eu, W in C. specialize (C eq_refl eq_refl eq_refl). rewrite Xr, Xu in C.
  destruct (C (lit "volume")) as (C1 & _); [right; now left|]. destruct (C1 eq_refl) as (_ & Sh). specialize (Sh 0 ltac:(simpl; lia)). destruct C27_cube as (_ & _ & Nf). apply Nf.
  intros g Hg. specialize (Sh g Hg). erewrite jac_same; [exact Sh|]. intros n i Hn Hi. unfold corners_of. rewrite !nth_repeat. cbv beta. ring.
Qed.
Print Assumptions C76_flat_element.
