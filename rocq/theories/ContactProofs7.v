(** Distributed contact. *)
From Verif Require Import Base ListLemmas Loops ContactModel ContactParModel ContactSpec ContactProofs ContactProofs2 ContactProofs3 ContactProofs5 ContactProofs6.
From Coq Require Import Reals Lra Permutation.
Set Implicit Arguments.
Local Open Scope R_scope.

Lemma scatter_node e f k : entity_type_ e = NODE -> node_vec (scatter e f) k = vadd (node_vec f k) (vscal (hit (node_id_for_node_1_ e) k) (force_1 e)).
Proof. intros HT. unfold scatter. cbv zeta. rewrite HT. apply add3_node. Qed.
Lemma scatter_tri e f k : entity_type_ e = TRIANGLE -> node_vec (scatter e f) k = vadd (node_vec f k)
  (vadd (vadd (vscal (hit (node_id_for_node_1_ e) k) (force_1 e)) (vscal (hit (node_id_for_node_2_ e) k) (force_2 e)))
        (vscal (fold_right Rplus 0 (map (fun a => hit a k) (node_ids_for_fictitious_node_ e)) / 4) (force_3 e))).
Proof. intros HT. unfold scatter. cbv zeta. rewrite HT. rewrite quarter_node, !add3_node. apply V3_eq; unfold vadd, vscal; cbn [vx vy vz]; field. Qed.
Lemma vsum_map_add {A} (f g : A -> V3) l : vsum (map (fun a => vadd (f a) (g a)) l) = vadd (vsum (map f l)) (vsum (map g l)).
Proof.
  induction l as [|a l IH]; [symmetry; apply vadd_zero|]. cbn [map vsum fold_right].
  change (vadd (vadd (f a) (g a)) (vsum (map (fun a => vadd (f a) (g a)) l)) = vadd (vadd (f a) (vsum (map f l))) (vadd (g a) (vsum (map g l)))).
  rewrite IH. apply V3_eq; unfold vadd; cbn [vx vy vz]; ring.
Qed.
Lemma vsum_map_ext {A} (f g : A -> V3) l : (forall a, In a l -> f a = g a) -> vsum (map f l) = vsum (map g l).
Proof. intros H. f_equal. apply map_ext_in. exact H. Qed.
Lemma vsum_map_scal {A} s (f : A -> V3) l : vsum (map (fun a => vscal s (f a)) l) = vscal s (vsum (map f l)).
Proof.
  induction l as [|a l IH]; [apply V3_eq; unfold vscal, vzero; simpl; ring|]. cbn [map vsum fold_right].
  change (vadd (vscal s (f a)) (vsum (map (fun a => vscal s (f a)) l)) = vscal s (vadd (f a) (vsum (map f l)))). rewrite IH. apply V3_eq; unfold vadd, vscal; cbn [vx vy vz]; ring.
Qed.
Lemma vscal_zero s : vscal s vzero = vzero.
Proof. apply V3_eq; unfold vscal, vzero; cbn [vx vy vz]; ring. Qed.

(** ** The node phase *)
Section NodePhase.
  Variable results : list (nat * bool * V3).
  Definition res_part (i k nid : nat) (res : nat * bool * V3) : V3 := let '(j, h, f) := res in if Nat.eqb j i && h then vscal (hit nid k) f else vzero.
  Lemma update_node_ok l i node force k : entity_type_ node = NODE ->
    node_vec (snd (fold_left (fun (nf : entity * (nat -> R)) res =>
      let '(j, has_force, f) := res in
      if Nat.eqb j i && has_force then
        let node := with_forces (with_status (fst nf) true) f (force_2 (fst nf)) (force_3 (fst nf)) in (node, scatter node (snd nf)) else nf) l (node, force))) k
    = vadd (node_vec force k) (vsum (map (res_part i k (node_id_for_node_1_ node)) l)).
  Proof.
    revert node force. induction l as [|[[j h] f] l IH]; intros node force HT; cbn [fold_left map vsum fold_right].
    - symmetry. apply vadd_zero.
    - change (vadd (node_vec force k) (fold_right vadd vzero (res_part i k (node_id_for_node_1_ node) (j, h, f) :: map (res_part i k (node_id_for_node_1_ node)) l))) with
        (vadd (node_vec force k) (vadd (res_part i k (node_id_for_node_1_ node) (j, h, f)) (vsum (map (res_part i k (node_id_for_node_1_ node)) l)))).
      unfold res_part at 1. destruct (Nat.eqb j i && h).
      + cbv zeta. cbn [fst snd]. rewrite IH by exact HT. cbn [with_forces with_status node_id_for_node_1_]. rewrite scatter_node by exact HT. cbn [with_forces with_status node_id_for_node_1_ force_1]. symmetry. apply vadd_assoc.
      + rewrite IH by exact HT. rewrite vadd_zero_l. reflexivity.
  Qed.
  Lemma update_node_status l i node force : contact_status_ (fst (fold_left (fun (nf : entity * (nat -> R)) res =>
      let '(j, has_force, f) := res in
      if Nat.eqb j i && has_force then
        let node := with_forces (with_status (fst nf) true) f (force_2 (fst nf)) (force_3 (fst nf)) in (node, scatter node (snd nf)) else nf) l (node, force)))
    = contact_status_ node || existsb (fun res => Nat.eqb (fst (fst res)) i && snd (fst res)) l.
  Proof.
    revert node force. induction l as [|[[j h] f] l IH]; intros node force; cbn [fold_left existsb fst snd]; [now rewrite orb_false_r|].
    destruct (Nat.eqb j i && h).
    - cbv zeta. rewrite IH. cbn [with_forces with_status contact_status_]. rewrite orb_true_r. reflexivity.
    - rewrite IH. reflexivity.
  Qed.
  (** positions i0 .. of the node list *)
  Definition res_gain (r k i0 : nat) (nodes : list (nat * entity)) (res : nat * bool * V3) : V3 :=
    let '(j, h, f) := res in
    if (i0 <=? j)%nat then match nth_error nodes (j - i0) with
      | Some (owner, node) => if Nat.eqb owner r && h then vscal (hit (node_id_for_node_1_ node) k) f else vzero
      | None => vzero end else vzero.
  Lemma update_nodes_ok nodes : Forall (fun n => entity_type_ (snd n) = NODE) nodes -> forall r i force k,
    node_vec (update_nodes results r i nodes force) k = vadd (node_vec force k) (vsum (map (res_gain r k i nodes) results)).
  Proof.
    induction 1 as [|[owner node] nodes HT Hn IH]; intros r i force k; cbn [update_nodes].
    - rewrite vsum_all_zero; [symmetry; apply vadd_zero|]. apply Forall_forall. intros [[j h] f] _. unfold res_gain. destruct (i <=? j)%nat; [destruct (j - i)%nat|]; reflexivity.
    - rewrite IH. cbn [snd] in HT.
      rewrite (@vsum_map_ext _ (res_gain r k i ((owner, node) :: nodes)) (fun res => vadd (if Nat.eqb owner r then res_part i k (node_id_for_node_1_ node) res else vzero) (res_gain r k (S i) nodes res))).
      + rewrite vsum_map_add, vadd_assoc. f_equal. destruct (Nat.eqb owner r).
        * unfold update_node. rewrite update_node_ok by exact HT. reflexivity.
        * rewrite vsum_all_zero; [symmetry; apply vadd_zero|]. apply Forall_forall. reflexivity.
      + intros [[j h] f] _. unfold res_gain, res_part. destruct (Nat.leb_spec i j) as [H1|H1], (Nat.leb_spec (S i) j) as [H2|H2]; try lia.
        * destruct (Nat.eqb_spec j i); [lia|]. cbn [andb]. replace (j - i)%nat with (S (j - S i)) by lia. cbn [nth_error]. destruct (Nat.eqb owner r); now rewrite vadd_zero_l.
        * assert (j = i) by lia. subst j. rewrite Nat.sub_diag, Nat.eqb_refl. cbn [nth_error andb]. destruct (Nat.eqb owner r); cbn [andb]; now rewrite vadd_zero.
        * destruct (Nat.eqb_spec j i); [lia|]. cbn [andb]. destruct (Nat.eqb owner r); now rewrite vadd_zero_l.
  Qed.
End NodePhase.

(** ** The callbacks *)
Section Callbacks.
  Variable penalty : R.
  Variables nodes faces : list (nat * entity).
  Hypothesis tri : Forall (fun f => entity_type_ (snd f) = TRIANGLE) faces.
  Definition pres (pair : nat * nat) : option (entity * entity * projection_result) :=
    match nth_error nodes (fst pair), nth_error faces (snd pair) with
    | Some n, Some f => Some (snd n, snd f, projection (snd n) (snd f) 0 vzero vzero default_tol)
    | _, _ => None
    end.
  Definition pin (pair : nat * nat) : bool := match pres pair with Some (_, _, r) => pr_in r | None => false end.
  Definition pforce (pair : nat * nat) : V3 := match pres pair with Some (_, _, r) => if pr_in r then vscal (penalty * pr_gap r) (pr_normal r) else vzero | None => vzero end.
  Definition pbary (pair : nat * nat) : V3 := match pres pair with Some (_, _, r) => pr_bary r | None => vzero end.
  Definition fpart (x : V3 -> R) (j : nat) (pair : nat * nat) : V3 := if Nat.eqb (snd pair) j && pin pair then vscal (x (pbary pair)) (pforce pair) else vzero.
  Definition face_after (dist : list (nat * nat)) (j : nat) (e : entity) : entity :=
    with_status (with_forces e (vsum (map (fpart vx j) dist)) (vsum (map (fpart vy j) dist)) (vsum (map (fpart vz j) dist)))
                (existsb (fun p => Nat.eqb (snd p) j && pin p) dist).
  Definition par_inv (done dist : list (nat * nat)) (s : par_state) : Prop :=
    (NoDup dist /\ forall p, In p dist <-> In p done) /\
    (forall p, In p (ps_list s) <-> In p done /\ pin p = true) /\
    length (ps_faces s) = length faces /\
    (forall j rf e, nth_error faces j = Some (rf, e) -> nth_error (ps_faces s) j = Some (rf, face_after dist j e)) /\
    ps_results s = map (fun p => (fst p, pin p, vneg (pforce p))) done.
  Lemma pair_dec (a b : nat * nat) : {a = b} + {a <> b}.
  Proof. decide equality; apply Nat.eq_dec. Qed.
  Lemma same_pair_iff a b : same_pair a b = true <-> a = b.
  Proof. unfold same_pair. rewrite andb_true_iff, !Nat.eqb_eq. destruct a, b. cbn [fst snd]. split; [intros []; congruence|intros H; injection H; auto]. Qed.
  Lemma proj_copies node face : projection (make_node 0 (-1) (coord_1 node) 0 0) (export_geometry face) 0 vzero vzero default_tol = projection node face 0 vzero vzero default_tol.
  Proof. reflexivity. Qed.
  Lemma par_step done dist s pair : (fst pair < length nodes)%nat -> (snd pair < length faces)%nat -> par_inv done dist s ->
    exists s' dist', parallel_callback penalty (map reset_node nodes) pair s = Ok s' /\ par_inv (done ++ [pair]) dist' s'.
  Proof.
    intros H1 H2 ((D1 & D2) & L & LF & F & RS).
    destruct (nth_error nodes (fst pair)) as [[rn node]|] eqn:En; [|apply nth_error_None in En; lia].
    destruct (nth_error faces (snd pair)) as [[rf face]|] eqn:Ef; [|apply nth_error_None in Ef; lia].
    assert (PR : pres pair = Some (node, face, projection node face 0 vzero vzero default_tol)) by (unfold pres; now rewrite En, Ef).
    set (r := projection node face 0 vzero vzero default_tol) in *.
    unfold parallel_callback, vget. rewrite (map_nth_error reset_node _ _ En), (F _ _ _ Ef). cbn [obind fst snd reset_node].
    change (projection (make_node 0 (-1) (coord_1 (with_status (with_forces node vzero (force_2 node) (force_3 node)) false)) 0 0) (export_geometry (face_after dist (snd pair) face)) 0 vzero vzero default_tol) with r.
    assert (PI : pin pair = pr_in r) by (unfold pin; now rewrite PR).
    assert (DD : exists dist', (NoDup dist' /\ forall p, In p dist' <-> In p (done ++ [pair])) /\ (In pair done -> dist' = dist) /\ (~ In pair done -> dist' = dist ++ [pair])).
    { destruct (in_dec pair_dec pair done) as [I|I].
      - exists dist. split; [split; [exact D1|]|split; [auto|tauto]]. intros p. rewrite D2, in_app_iff. cbn [In]. intuition (subst; auto).
      - exists (dist ++ [pair]). split; [split|split; [tauto|auto]].
        + apply NoDup_app_intro; [exact D1|repeat constructor; intros []|]. intros x Hx [<-|[]]. apply I. now apply D2.
        + intros p. rewrite !in_app_iff, D2. reflexivity. }
    destruct DD as (dist' & DD & DI & DN).
    assert (FA : forall j e, fst (pair) = fst pair -> (In pair done \/ Nat.eqb (snd pair) j && pin pair = false) -> face_after dist' j e = face_after dist j e).
    { intros j e _ HC. destruct (in_dec pair_dec pair done) as [I|I]; [now rewrite (DI I)|]. rewrite (DN I). destruct HC as [HC|HC]; [contradiction|].
      unfold face_after. rewrite existsb_app, !map_app, !vsum_app. cbn [map vsum fold_right existsb]. unfold fpart at 2 4 6. rewrite HC. cbn [orb]. rewrite orb_false_r, !vadd_zero. reflexivity. }
    destruct (pr_in r) eqn:Er.
    - assert (HT : entity_type_ face = TRIANGLE) by (rewrite Forall_forall in tri; apply (tri (rf, face)); eapply nth_error_In; eauto).
      cbv zeta. unfold set_nodal_contact_forces. cbn [export_geometry entity_type_ face_after with_status with_forces]. rewrite HT. cbn [obind].
      assert (EX : existsb (same_pair pair) (ps_list s) = true <-> In pair done).
      { rewrite existsb_exists. split; [intros (q & Hq & E); apply same_pair_iff in E; subst q; now apply L|]. intros I. exists pair. split; [apply L; auto|now apply same_pair_iff]. }
      eexists _, dist'. split; [reflexivity|]. unfold par_inv; cbn [ps_faces ps_list ps_results]. split; [exact DD|].
      assert (PF : pforce pair = get_contact_force penalty (pr_gap r) (pr_normal r)).
      { unfold pforce. rewrite PR. unfold pr_in in *. fold (pr_in r) in *. rewrite Er. reflexivity. }
      assert (PB : pbary pair = pr_bary r) by (unfold pbary; now rewrite PR).
      assert (FP : forall x, fpart x (snd pair) pair = vscal (x (pr_bary r)) (get_contact_force penalty (pr_gap r) (pr_normal r))) by (intros x; unfold fpart; now rewrite Nat.eqb_refl, PI, PF, PB).
      destruct (existsb (same_pair pair) (ps_list s)) eqn:EE; cbn [negb].
      + assert (I : In pair done) by (apply EX; reflexivity).
        split; [|split; [exact LF|split]].
        * intros p. rewrite L, in_app_iff. cbn [In]. intuition (subst; auto).
        * intros j rf' e' He'.
 rewrite (F _ _ _ He'), FA by auto. reflexivity.
        * rewrite RS, map_app. cbn [map]. now rewrite PI, PF.
      + assert (I : ~ In pair done) by (intros I; apply EX in I; discriminate).
        split; [|split; [now rewrite list_set_length|split]].
        * intros p. cbn [In]. rewrite L, in_app_iff. cbn [In]. intuition (subst; auto).
        * intros j rf' e' He'. destruct (Nat.eq_dec (snd pair) j) as [<-|Hne].
          -- rewrite list_set_nth_eq by (rewrite LF; exact H2). rewrite Ef in He'. injection He' as <- <-. rewrite (DN I).
             f_equal. f_equal. unfold face_after. rewrite existsb_app, !map_app, !vsum_app. cbn [map vsum fold_right existsb]. rewrite !FP, Nat.eqb_refl, PI. cbn [andb orb]. rewrite orb_true_r, !vadd_zero.
             destruct face. reflexivity.
          -- rewrite list_set_nth_neq by exact Hne. rewrite (F _ _ _ He'), FA; [reflexivity|reflexivity|]. right. destruct (Nat.eqb_spec (snd pair) j); [contradiction|reflexivity].
        * rewrite RS, map_app. cbn [map]. now rewrite PI, PF.
    - eexists _, dist'. split; [reflexivity|]. unfold par_inv; cbn [ps_faces ps_list ps_results]. split; [exact DD|]. split; [|split; [exact LF|split]].
      + intros p. rewrite L, in_app_iff. cbn [In]. split; [tauto|]. intros [[Hi|[<-|[]]] Hp]; [auto|congruence].
      + intros j rf' e' He'. rewrite (F _ _ _ He'), FA; [reflexivity|reflexivity|]. right. rewrite PI. apply andb_false_r.
      + rewrite RS, map_app. cbn [map]. rewrite PI. unfold pforce. now rewrite PR, Er.
  Qed.
  Lemma par_run pairs : Forall (fun p => (fst p < length nodes)%nat /\ (snd p < length faces)%nat) pairs ->
    exists s dist, ofold (fun s pair => parallel_callback penalty (map reset_node nodes) pair s) pairs (PS (map reset_face faces) [] []) = Ok s /\ par_inv pairs dist s.
  Proof.
    intros HP.
    assert (G : forall todo done dist s, Forall (fun p => (fst p < length nodes)%nat /\ (snd p < length faces)%nat) todo -> par_inv done dist s ->
      exists s' dist', ofold (fun s pair => parallel_callback penalty (map reset_node nodes) pair s) todo s = Ok s' /\ par_inv (done ++ todo) dist' s').
    { induction todo as [|x todo IH]; intros done dist s Hx Hi; cbn [ofold].
      - exists s, dist. split; [reflexivity|]. now rewrite app_nil_r.
      - inversion Hx as [|? ? [X1 X2] X3]; subst. destruct (@par_step done dist s x X1 X2 Hi) as (s1 & d1 & E1 & I1). rewrite E1. cbn [obind].
        destruct (IH (done ++ [x]) d1 s1 X3 I1) as (s2 & d2 & E2 & I2). exists s2, d2. split; [exact E2|]. now rewrite <- app_assoc in I2. }
    apply (G pairs [] [] _ HP). unfold par_inv. cbn [ps_faces ps_list ps_results]. split; [split; [constructor|reflexivity]|]. split; [intros p; cbn [In]; tauto|]. split; [now rewrite map_length|]. split; [|reflexivity].
    intros j rf e He. rewrite (map_nth_error reset_face _ _ He). reflexivity.
  Qed.
End Callbacks.

(** ** The face phase *)
Section FacePhase.
  Variable penalty : R.
  Variables nodes faces : list (nat * entity).
  Variable dist : list (nat * nat).
  Definition face_gain (r k j0 : nat) (fs : list (nat * entity)) (p : nat * nat) : V3 :=
    if (j0 <=? snd p)%nat then match nth_error fs (snd p - j0) with
      | Some (owner, e) => if Nat.eqb owner r && pin nodes faces p then vscal (share e (pbary nodes faces p) k) (pforce penalty nodes faces p) else vzero
      | None => vzero end else vzero.
  Lemma update_faces_ok fs : Forall (fun f => entity_type_ (snd f) = TRIANGLE) fs -> forall fs' r k j0 force,
    (length fs' = length fs /\ forall j rf e, nth_error fs j = Some (rf, e) -> nth_error fs' j = Some (rf, face_after penalty nodes faces dist (j0 + j) e)) ->
    node_vec (update_faces r fs' force) k = vadd (node_vec force k) (vsum (map (face_gain r k j0 fs) dist)).
  Proof.
    induction 1 as [|[owner e] fs HT Hf IH]; intros fs' r k j0 force (HL & HF).
    - destruct fs'; [|discriminate]. cbn [update_faces fold_left]. unfold update_faces. cbn [fold_left]. rewrite vsum_all_zero; [symmetry; apply vadd_zero|].
      apply Forall_forall. intros p _. unfold face_gain. destruct (j0 <=? snd p)%nat; [destruct (snd p - j0)%nat|]; reflexivity.
    - destruct fs' as [|f' fs']; [discriminate|]. pose proof (HF 0%nat owner e eq_refl) as H0. cbn [nth_error] in H0. injection H0 as ->. rewrite Nat.add_0_r in HF |- *.
      unfold update_faces. cbn [fold_left]. fold (update_faces r fs' (if Nat.eqb (fst (owner, face_after penalty nodes faces dist j0 e)) r && contact_status_ (snd (owner, face_after penalty nodes faces dist j0 e)) then scatter (snd (owner, face_after penalty nodes faces dist j0 e)) force else force)).
      cbn [fst snd].
      rewrite (IH fs' r k (S j0)).
      + rewrite (@vsum_map_ext _ (face_gain r k j0 ((owner, e) :: fs)) (fun p => vadd (if Nat.eqb owner r && (Nat.eqb (snd p) j0 && pin nodes faces p) then vscal (share e (pbary nodes faces p) k) (pforce penalty nodes faces p) else vzero) (face_gain r k (S j0) fs p))).
        * rewrite vsum_map_add, vadd_assoc. f_equal. destruct (Nat.eqb owner r); cbn [andb].
          -- assert (G : node_vec (scatter (face_after penalty nodes faces dist j0 e) force) k = vadd (node_vec force k) (vsum (map (fun p => if Nat.eqb (snd p) j0 && pin nodes faces p then vscal (share e (pbary nodes faces p) k) (pforce penalty nodes faces p) else vzero) dist))).
             { rewrite scatter_tri by exact HT. cbn [face_after with_status with_forces node_id_for_node_1_ node_id_for_node_2_ node_ids_for_fictitious_node_ force_1 force_2 force_3].
               f_equal. rewrite <- !vsum_map_scal, <- !vsum_map_add. apply vsum_map_ext. intros p _. unfold fpart. destruct (Nat.eqb (snd p) j0 && pin nodes faces p).
               - unfold share. apply V3_eq; unfold vadd, vscal; cbn [vx vy vz]; field.
               - rewrite !vscal_zero, !vadd_zero. reflexivity. }
             cbn [face_after with_status contact_status_]. destruct (existsb (fun p => Nat.eqb (snd p) j0 && pin nodes faces p) dist) eqn:EX; [exact G|].
             rewrite vsum_all_zero; [symmetry; apply vadd_zero|]. apply Forall_forall. intros p Hp. destruct (Nat.eqb (snd p) j0 && pin nodes faces p) eqn:EP; [|reflexivity].
             exfalso. assert (existsb (fun p => Nat.eqb (snd p) j0 && pin nodes faces p) dist = true) by (apply existsb_exists; now exists p). congruence.
          -- rewrite vsum_all_zero; [symmetry; apply vadd_zero|]. apply Forall_forall. reflexivity.
        * intros p _. unfold face_gain. destruct (Nat.leb_spec j0 (snd p)) as [H1|H1], (Nat.leb_spec (S j0) (snd p)) as [H2|H2]; try lia.
          -- destruct (Nat.eqb_spec (snd p) j0); [lia|]. cbn [andb]. rewrite andb_false_r. replace (snd p - j0)%nat with (S (snd p - S j0)) by lia. cbn [nth_error]. now rewrite vadd_zero_l.
          -- assert (E : snd p = j0) by lia. rewrite E, Nat.sub_diag, Nat.eqb_refl. cbn [nth_error andb]. destruct (Nat.eqb owner r && pin nodes faces p); now rewrite vadd_zero.
          -- destruct (Nat.eqb_spec (snd p) j0); [lia|]. cbn [andb]. rewrite andb_false_r. now rewrite vadd_zero_l.
      + split; [now injection HL|]. intros j rf e' He'. specialize (HF (S j) rf e' He'). cbn [nth_error] in HF. rewrite HF. do 3 f_equal. lia.
  Qed.
End FacePhase.
