(** The serial contact loop over all reported pairs. *)
From Verif Require Import Base ListLemmas Loops ContactModel ContactSpec ContactProofs ContactProofs2.
From Coq Require Import Reals Lra Permutation.
Set Implicit Arguments.
Local Open Scope R_scope.

Lemma vsum_app l m : vsum (l ++ m) = vadd (vsum l) (vsum m).
Proof. induction l as [|a l IH]; cbn [app vsum fold_right]; [symmetry; apply vadd_zero_l|]. fold (vsum (l ++ m)). rewrite IH. fold (vsum l). apply vadd_assoc. Qed.
Lemma vsum_perm l m : Permutation l m -> vsum l = vsum m.
Proof.
  induction 1 as [|x l m H IH|x y l|l m k H1 IH1 H2 IH2]; cbn [vsum fold_right]; auto; try congruence.
  - fold (vsum l) (vsum m). now rewrite IH.
  - rewrite !vadd_assoc. f_equal. apply vadd_comm.
Qed.

Lemma list_set_nth_eq {A} (l : list A) i v : (i < length l)%nat -> nth_error (list_set l i v) i = Some v.
Proof. intros H. rewrite nth_error_list_set, Nat.eqb_refl. destruct (Nat.ltb_spec i (length l)); [reflexivity|lia]. Qed.
Lemma list_set_nth_neq {A} (l : list A) i k v : i <> k -> nth_error (list_set l i v) k = nth_error l k.
Proof. intros H. rewrite nth_error_list_set. destruct (Nat.eqb_spec k i); [lia|reflexivity]. Qed.
Section Serial.
  Variable penalty : R.
  Variables nodes faces : list entity.
  Definition pair_result (pair : nat * nat) : option (entity * entity * projection_result) :=
    match nth_error nodes (fst pair), nth_error faces (snd pair) with
    | Some node, Some face => Some (node, face, projection node face 0 vzero vzero default_tol)
    | _, _ => None
    end.
  Definition inside_pair (pair : nat * nat) : bool := match pair_result pair with Some (_, _, r) => pr_in r | None => false end.
  Definition contrib (k : nat) (pair : nat * nat) : V3 :=
    match pair_result pair with
    | Some (node, face, r) => if pr_in r then pair_add (vscal (penalty * pr_gap r) (pr_normal r)) node face (pr_bary r) k else vzero
    | None => vzero
    end.
  Definition node_on (done : list (nat * nat)) (i : nat) : bool := existsb (fun p => (fst p =? i)%nat && inside_pair p) done.
  Definition face_on (done : list (nat * nat)) (j : nat) : bool := existsb (fun p => (snd p =? j)%nat && inside_pair p) done.
  Definition serial_inv (done : list (nat * nat)) (s : contact_state) : Prop :=
    (length (cs_nodes s) = length nodes /\ length (cs_faces s) = length faces) /\
    (forall i e, nth_error nodes i = Some e -> nth_error (cs_nodes s) i = Some (with_status e (node_on done i))) /\
    (forall j e, nth_error faces j = Some e -> nth_error (cs_faces s) j = Some (with_status e (face_on done j))) /\
    (forall k, node_vec (cs_force s) k = vsum (map (contrib k) done)).
  Hypothesis tri : Forall (fun e => entity_type_ e = TRIANGLE) faces.
  Lemma serial_step done s pair : (fst pair < length nodes)%nat -> (snd pair < length faces)%nat -> serial_inv done s ->
    exists s', serial_callback penalty pair s = Ok s' /\ serial_inv (done ++ [pair]) s'.
  Proof.
    intros H1 H2 ((L1 & L2) & Hn & Hf & HF). destruct pair as [i j]. cbn [fst snd] in *.
    destruct (nth_error nodes i) as [node|] eqn:En; [|apply nth_error_None in En; lia].
    destruct (nth_error faces j) as [face|] eqn:Ef; [|apply nth_error_None in Ef; lia].
    unfold serial_callback. cbn [fst snd]. unfold vget. rewrite (Hn _ _ En), (Hf _ _ Ef). cbn [obind].
    change (projection (with_status node (node_on done i)) (with_status face (face_on done j)) 0 vzero vzero default_tol) with (projection node face 0 vzero vzero default_tol).
    set (r := projection node face 0 vzero vzero default_tol).
    assert (PR : pair_result (i, j) = Some (node, face, r)) by (unfold pair_result; cbn [fst snd]; now rewrite En, Ef).
    assert (IP : inside_pair (i, j) = pr_in r) by (unfold inside_pair; now rewrite PR).
    assert (CT : forall k, contrib k (i, j) = if pr_in r then pair_add (vscal (penalty * pr_gap r) (pr_normal r)) node face (pr_bary r) k else vzero) by (intros k; unfold contrib; now rewrite PR).
    assert (NO : forall i', node_on (done ++ [(i, j)]) i' = node_on done i' || ((i =? i')%nat && pr_in r)) by (intros i'; unfold node_on; rewrite existsb_app; cbn [existsb fst]; rewrite IP; now rewrite orb_false_r).
    assert (FO : forall j', face_on (done ++ [(i, j)]) j' = face_on done j' || ((j =? j')%nat && pr_in r)) by (intros j'; unfold face_on; rewrite existsb_app; cbn [existsb snd]; rewrite IP; now rewrite orb_false_r).
    destruct (pr_in r) eqn:Er.
    - assert (HT : entity_type_ face = TRIANGLE) by (rewrite Forall_forall in tri; apply tri; eapply nth_error_In; eauto).
      destruct (@enforce_node penalty (with_status node (node_on done i)) (with_status face (face_on done j)) (pr_gap r) (pr_normal r) (pr_bary r) (cs_force s) HT) as (force' & E & HE).
      rewrite E. cbn [obind]. eexists. split; [reflexivity|]. unfold serial_inv. cbn [cs_nodes cs_faces cs_force].
      split; [split; rewrite list_set_length; assumption|]. split; [|split].
      + intros i' e' He'. rewrite NO, andb_true_r. destruct (Nat.eqb_spec i i') as [<-|Hne].
        * rewrite orb_true_r. rewrite list_set_nth_eq by lia. rewrite En in He'. injection He' as <-. reflexivity.
        * rewrite orb_false_r. rewrite list_set_nth_neq by lia. auto.
      + intros j' e' He'. rewrite FO, andb_true_r. destruct (Nat.eqb_spec j j') as [<-|Hne].
        * rewrite orb_true_r. rewrite list_set_nth_eq by lia. rewrite Ef in He'. injection He' as <-. reflexivity.
        * rewrite orb_false_r. rewrite list_set_nth_neq by lia. auto.
      + intros k. rewrite map_app, vsum_app. cbn [map vsum fold_right]. rewrite HE, HF, vadd_zero, CT. reflexivity.
    - eexists. split; [reflexivity|]. split; [auto|]. split; [|split].
      + intros i' e' He'. rewrite NO, andb_false_r, orb_false_r. auto.
      + intros j' e' He'. rewrite FO, andb_false_r, orb_false_r. auto.
      + intros k. rewrite map_app, vsum_app. cbn [map vsum fold_right]. rewrite HF, CT, !vadd_zero. reflexivity.
  Qed.
  Hypothesis pen : 0 < penalty.
  Lemma serial_run pairs : Forall (fun p => (fst p < length nodes)%nat /\ (snd p < length faces)%nat) pairs ->
    exists s, serial_contact penalty nodes faces pairs = Ok s /\ serial_inv pairs s.
  Proof.
    intros HP. unfold serial_contact. destruct (Rlt_dec 0 penalty); [|lra].
    assert (G : forall todo done s, Forall (fun p => (fst p < length nodes)%nat /\ (snd p < length faces)%nat) todo -> serial_inv done s ->
      exists s', ofold (fun s pair => serial_callback penalty pair s) todo s = Ok s' /\ serial_inv (done ++ todo) s').
    { induction todo as [|x todo IH]; intros done s Hx Hi; cbn [ofold].
      - exists s. split; [reflexivity|]. now rewrite app_nil_r.
      - inversion Hx as [|? ? [X1 X2] X3]; subst. destruct (@serial_step done s x X1 X2 Hi) as (s1 & E1 & I1). rewrite E1. cbn [obind].
        destruct (IH (done ++ [x]) s1 X3 I1) as (s2 & E2 & I2). exists s2. split; [exact E2|]. now rewrite <- app_assoc in I2. }
    destruct (G pairs [] (CS (map reset_status nodes) (map reset_status faces) zero_force) HP) as (s & E & I).
    - unfold serial_inv. cbn [cs_nodes cs_faces cs_force]. rewrite !map_length. split; [auto|]. split; [|split].
      + intros i e He. now rewrite (map_nth_error _ _ _ He).
      + intros i e He. now rewrite (map_nth_error _ _ _ He).
      + intros k. reflexivity.
    - exists s. auto.
  Qed.
End Serial.
