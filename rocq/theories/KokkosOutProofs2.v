(** Output manager: the columns a request string asks for. *)
From Coq Require Import Reals Lra.
From Verif Require Import Base Strings ListLemmas DataModel DataProofs Loops InputModel InputProofs3 ElemDataModel ElemDataProofs4 KokkosModel KokkosSpec3 KokkosProofs KokkosProofs7 KokkosProofs8 KokkosProofs9 KokkosProofs19
  KokkosOutModel KokkosOutProofs1.
Set Implicit Arguments.
Local Open Scope nat_scope.
Local Open Scope list_scope.
Local Notation length := List.length.

(** * Growing tables *)
Record grow (same : bool) (N : nat -> option nat) (s s' : tables * heap) : Prop := {
  gr_inv : tinv same N s';
  gr_node : tb_node (fst s') = tb_node (fst s);
  gr_iidx : tb_iidx (fst s') = tb_iidx (fst s);
  gr_ipt : tb_ipt (fst s') = tb_ipt (fst s);
  gr_labels : forall y i, assoc chars_eqb y (tb_labels (fst s)) = Some i -> assoc chars_eqb y (tb_labels (fst s')) = Some i;
  gr_new : forall y i, assoc chars_eqb y (tb_labels (fst s')) = Some i -> assoc chars_eqb y (tb_labels (fst s)) = Some i \/ length (tb_labels (fst s)) <= i;
  gr_len : length (tb_labels (fst s)) <= length (tb_labels (fst s'));
  gr_heap : keeps (snd s) (snd s');
  gr_vids : forall k p, look (fst s') k = Some p -> look (fst s) k = Some p \/ (length (snd s) <= vid (fst p) /\ length (snd s) <= vid (snd p))
}.
Lemma grow_refl same N s : tinv same N s -> grow same N s s.
Proof. intros T. constructor; auto. apply keeps_refl. Qed.
Lemma grow_trans same N s1 s2 s3 : grow same N s1 s2 -> grow same N s2 s3 -> grow same N s1 s3.
Proof.
  intros [A1 A2 A3 A4 A5 A6 A7 A8 A9] [B1 B2 B3 B4 B5 B6 B7 B8 B9]. constructor; auto; try congruence.
  - intros y i H. destruct (B6 y i H) as [H'|H']; [auto|right; lia].
  - lia.
  - eapply keeps_trans; eauto.
  - intros k p H. destruct (B9 k p H) as [H'|[H1 H2]]; [auto|]. destruct A8 as [A8 _]. right. lia.
Qed.
Lemma element_grow same N s b len w n s' id k : tinv same N s -> elem_kind len = Some k -> N b = Some n ->
  allocate_element_data same s b len w n = Ok (s', id) -> grow same N s s' /\ assoc chars_eqb w (tb_labels (fst s')) = Some id.
Proof.
  intros T Hk HN E. pose (a := Alloc (OnElements b) len w n []).
  assert (Ea : allocate same s a = Ok (s', id)) by exact E.
  assert (Ha : acceptable a) by (split; [destruct len; discriminate|left; reflexivity]).
  destruct (@allocate_labels _ _ _ _ _ Ea (ti_nodup T)) as (L1 & L2 & L3).
  destruct (allocate_spec (ti_good T) Ha) as (s2 & id2 & k2 & E2 & _ & A). rewrite Ea in E2. injection E2 as <- <-.
  assert (T' : tinv same N s').
  { eapply allocate_tinv; [exact T|exact Ha| |exact Ea]. intros b' n' [H|H] HN'; [|discriminate]. injection H as <-. cbn [al_n a]. congruence. }
  split; [|apply (a_label A)].
  assert (F : tb_node (fst s') = tb_node (fst s) /\ tb_iidx (fst s') = tb_iidx (fst s) /\ tb_ipt (fst s') = tb_ipt (fst s)).
  { destruct s as [tb h]. unfold allocate_element_data in E. destruct (label_id _ _) as [labels i].
    destruct (match assoc Nat.eqb b (tb_eidx tb) with Some _ => _ | None => _ end) as [eidx elem] eqn:Ee.
    apply obind_ok in E. destruct E as (bi & _ & E). apply obind_ok in E. destruct E as (k' & _ & E). apply obind_ok in E. destruct E as (t & Ht & E).
    destruct (table_add _ _ _ _ _ _) as [h' t'] eqn:Et. injection E as <- <-. auto. }
  destruct F as (F1 & F2 & F3). constructor; auto; [apply (a_labels A)|apply (a_heap A)|].
  intros x p Hp. destruct (in_dec key_dec x [key_of (al_home a) id STEP_N; key_of (al_home a) id STEP_NP1]) as [Hi|Hi].
  - destruct (a_new A _ Hi) as (q & Q & _ & _ & _ & _ & _ & _ & Q1 & Q2). rewrite Hp in Q. injection Q as <-. auto.
  - rewrite (a_other A _ Hi) in Hp. auto.
Qed.

(** * Which fields there are *)
(** the id of the field at the points of block b called f, if its type is k *)
Definition pf (tb : tables) (k : kind) (b : nat) (f : chars) : option nat :=
  match assoc chars_eqb f (tb_labels tb) with
  | Some i => match dev_ipt tb k b (Some i) STEP_NP1 with Ok _ => Some i | _ => None end
  | None => None
  end.
Definition nf (tb : tables) (k : kind) (f : chars) : option nat :=
  match assoc chars_eqb f (tb_labels tb) with
  | Some i => match host_node tb k (Some i) with Ok _ => Some i | _ => None end
  | None => None
  end.
Lemma dev_ipt_eq tb tb' k b i st : tb_iidx tb' = tb_iidx tb -> tb_ipt tb' = tb_ipt tb -> dev_ipt tb' k b i st = dev_ipt tb k b i st.
Proof. unfold dev_ipt. intros -> ->. reflexivity. Qed.
Lemma host_node_eq tb tb' k i : tb_node tb' = tb_node tb -> host_node tb' k i = host_node tb k i.
Proof. unfold host_node. intros ->. reflexivity. Qed.
Lemma pf_grow same N s s' k b f : tinv same N s -> grow same N s s' -> pf (fst s') k b f = pf (fst s) k b f.
Proof.
  intros T G. unfold pf. destruct (assoc chars_eqb f (tb_labels (fst s))) as [i|] eqn:E.
  - rewrite (gr_labels G _ E). now rewrite (dev_ipt_eq _ _ _ _ _ _ (gr_iidx G) (gr_ipt G)).
  - destruct (assoc chars_eqb f (tb_labels (fst s'))) as [i|] eqn:E'; auto. destruct (gr_new G _ E') as [H|H]; [congruence|].
    rewrite (dev_ipt_eq _ _ _ _ _ _ (gr_iidx G) (gr_ipt G)). destruct (dev_ipt (fst s) k b (Some i) STEP_NP1) as [v| | |] eqn:Ev; auto.
    destruct (dev_ipt_look T _ _ _ Ev) as [vh L]. apply (ti_owned T) in L. lia.
Qed.
Lemma mem_spec (x : chars) l : mem x l = true <-> In x l.
Proof. unfold mem. rewrite existsb_exists. split; [intros (y & H & E); apply chars_eqb_eq in E; now subst|intros H; exists x; split; auto; now apply chars_eqb_eq]. Qed.
Lemma nodup_snoc {A} (l : list A) x : NoDup l -> ~ In x l -> NoDup (l ++ [x]).
Proof.
  induction 1 as [|a l Ha Hl IH]; simpl; intros Hx; [constructor; auto; constructor|]. constructor.
  - rewrite in_app_iff. intros [H|[<-|[]]]; auto.
  - apply IH. auto.
Qed.
(** a list of labels collected from the label map *)
Lemma collect (Q : chars * nat -> bool) (step : list chars -> chars * nat -> outcome (list chars)) l :
  (forall acc e, In e l -> ~ In (fst e) acc -> step acc e = Ok (if Q e then acc ++ [fst e] else acc) \/ forall r, step acc e <> Ok r) ->
  forall acc ls, NoDup acc -> NoDup (map fst l) -> (forall x, In x acc -> ~ In x (map fst l)) -> ofold step l acc = Ok ls ->
  NoDup ls /\ forall x, In x ls <-> In x acc \/ exists i, In (x, i) l /\ Q (x, i) = true.
Proof.
  induction l as [|e l IH]; intros Hstep acc ls Ha Hl Hd E.
  - injection E as <-. split; auto. intros x. split; auto. intros [H|(i & [] & _)]; auto.
  - cbn [ofold] in E. apply obind_ok in E. destruct E as (acc1 & E1 & E). cbn [map] in Hl. inversion_clear Hl as [|? ? Hne Hl'].
    assert (Hfe : ~ In (fst e) acc) by (intros H; apply (Hd _ H); now left).
    destruct (Hstep acc e (or_introl eq_refl) Hfe) as [S|S]; [|elim (S _ E1)].
    rewrite S in E1. injection E1 as <-.
    assert (Hstep' : forall acc e, In e l -> ~ In (fst e) acc -> step acc e = Ok (if Q e then acc ++ [fst e] else acc) \/ forall r, step acc e <> Ok r) by (intros; apply Hstep; auto; now right).
    apply (IH Hstep') in E; auto.
    + destruct E as [E1 E2]. split; auto. intros x. rewrite E2. destruct e as [y i]. cbn [fst] in *. destruct (Q (y, i)) eqn:EQ.
      * rewrite in_app_iff. simpl. split; [intros [[H|[<-|[]]]|(j & H & HQ)]; [auto|right; exists i; auto|right; exists j; auto]|].
        intros [H|(j & [H|H] & HQ)]; [auto|injection H as <- <-; auto|eauto].
      * split; [intros [H|(j & H & HQ)]; [auto|right; exists j; split; auto; now right]|].
        intros [H|(j & [H|H] & HQ)]; [auto|injection H as <- <-; congruence|eauto].
    + destruct (Q e); auto. now apply nodup_snoc.
    + intros x Hx Hi. assert (In x acc \/ x = fst e) as [H|H].
      { destruct (Q e); auto. apply in_app_or in Hx. destruct Hx as [H|[H|[]]]; auto. }
      * apply (Hd x H). now right.
      * subst x. contradiction.
Qed.
Lemma ipt_labels_ok same N s k b ls : tinv same N s -> ipt_labels (fst s) k b = Ok ls ->
  NoDup ls /\ forall x, In x ls <-> pf (fst s) k b x <> None.
Proof.
  intros T E. unfold ipt_labels in E. apply obind_ok in E. destruct E as (bi & Eb & E). apply obind_ok in E. destruct E as (t & Et & E).
  assert (D : forall i, dev_ipt (fst s) k b (Some i) STEP_NP1 = match assoc Nat.eqb i (i_didx t) with Some j => do f <- vat (i_dnp1 t) j; cast k f | None => Throw end).
  { intros i. unfold dev_ipt. rewrite Eb. cbn [obind]. rewrite Et. cbn [obind]. unfold mat_id, mat. destruct (assoc Nat.eqb i (i_didx t)); reflexivity. }
  pose (Q := fun e : chars * nat => match dev_ipt (fst s) k b (Some (snd e)) STEP_NP1 with Ok _ => true | _ => false end).
  match type of E with ofold ?st _ _ = _ => enough (HS : forall acc e, In e (tb_labels (fst s)) -> ~ In (fst e) acc ->
    st acc e = Ok (if Q e then acc ++ [fst e] else acc) \/ forall r, st acc e <> Ok r) end.
  - destruct (@collect Q _ _ HS [] ls (NoDup_nil _) (ti_nodup T) (fun x (H : In x []) => match H with end) E) as [E1 E2]. split; auto. intros x. rewrite E2. unfold pf. split.
    + intros [[]|(i & Hi & HQ)]. rewrite (@in_assoc _ _ _ (ti_nodup T) Hi). unfold Q in HQ. cbn [snd] in HQ.
      destruct (dev_ipt (fst s) k b (Some i) STEP_NP1); discriminate.
    + destruct (assoc chars_eqb x (tb_labels (fst s))) as [i|] eqn:Ei; [|congruence]. intros H. right. exists i. split; [now apply assoc_in|].
      unfold Q. cbn [snd]. destruct (dev_ipt (fst s) k b (Some i) STEP_NP1); congruence.
  - intros acc e He Hacc. unfold Q. rewrite D. destruct (assoc Nat.eqb (snd e) (i_didx t)) as [j|]; [|auto].
    destruct (vat (i_dnp1 t) j) as [f| | |]; cbn [obind]; try (right; intros; discriminate). left. unfold cast.
    destruct (kind_eq_dec (kf_kind f) k); auto. destruct (mem (fst e) acc) eqn:Em; auto. apply mem_spec in Em. contradiction.
Qed.
Lemma node_labels_ok same N s k ls : tinv same N s -> node_labels (fst s) k = Ok ls -> NoDup ls /\ forall x, In x ls <-> nf (fst s) k x <> None.
Proof.
  intros T E. unfold node_labels in E. set (t := tb_node (fst s)) in *.
  assert (D : forall i, host_node (fst s) k (Some i) = match assoc Nat.eqb i (t_hidx t) with Some j => do f <- vat (t_host t) j; cast k f | None => Throw end).
  { intros i. unfold host_node. fold t. unfold mat_id, mat. destruct (assoc Nat.eqb i (t_hidx t)); reflexivity. }
  pose (Q := fun e : chars * nat => match host_node (fst s) k (Some (snd e)) with Ok _ => true | _ => false end).
  match type of E with ofold ?st _ _ = _ => enough (HS : forall acc e, In e (tb_labels (fst s)) -> ~ In (fst e) acc ->
    st acc e = Ok (if Q e then acc ++ [fst e] else acc) \/ forall r, st acc e <> Ok r) end.
  - destruct (@collect Q _ _ HS [] ls (NoDup_nil _) (ti_nodup T) (fun x (H : In x []) => match H with end) E) as [E1 E2]. split; auto. intros x. rewrite E2. unfold nf. split.
    + intros [[]|(i & Hi & HQ)]. rewrite (@in_assoc _ _ _ (ti_nodup T) Hi). unfold Q in HQ. cbn [snd] in HQ.
      destruct (host_node (fst s) k (Some i)); discriminate.
    + destruct (assoc chars_eqb x (tb_labels (fst s))) as [i|] eqn:Ei; [|congruence]. intros H. right. exists i. split; [now apply assoc_in|].
      unfold Q. cbn [snd]. destruct (host_node (fst s) k (Some i)); congruence.
  - intros acc e He Hacc. unfold Q. rewrite D. destruct (assoc Nat.eqb (snd e) (t_hidx t)) as [j|]; [|auto].
    destruct (vat (t_host t) j) as [f| | |]; cbn [obind]; try (right; intros; discriminate). left. unfold cast.
    destruct (kind_eq_dec (kf_kind f) k); auto.
Qed.
(** at most one label is the requested one *)
Lemma fold_one {S} (g : chars -> S -> outcome S) f labels : NoDup labels -> forall s,
  ofold (fun s label => if chars_eqb f label then g label s else Ok s) labels s = if mem f labels then g f s else Ok s.
Proof.
  induction 1 as [|a l Ha Hl IH]; intros s; auto. cbn [ofold mem existsb]. destruct (chars_eqb f a) eqn:E.
  - apply chars_eqb_eq in E. subst a. cbn [orb]. transitivity (do s <- g f s; Ok s); [|destruct (g f s); reflexivity].
    assert (M : mem f l = false) by (destruct (mem f l) eqn:M; auto; apply mem_spec in M; contradiction).
    destruct (g f s); cbn [obind]; auto. rewrite IH, M. reflexivity.
  - cbn [obind orb]. apply IH.
Qed.
