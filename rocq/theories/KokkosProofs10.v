(** ModelData::InitializeBlocks: the fields of the integration points. *)
From Coq Require Import Reals Lra Sorted Permutation.
From Verif Require Import Base Strings ListLemmas DataModel DataProofs Loops InputProofs3 ElemDataProofs4 KokkosModel KokkosProofs KokkosProofs7 KokkosProofs8 KokkosProofs9.
Set Implicit Arguments.
Local Open Scope nat_scope.
Local Open Scope list_scope.
Local Notation length := List.length.

Lemma put_perm {V} k (v : V) m : ~ In k (map fst m) -> Permutation (map_put k v m) ((k, v) :: m).
Proof.
  induction m as [|[a x] m IH]; simpl; intros H; auto. destruct (k <? a); auto. destruct (Nat.eqb_spec k a) as [->|]; [exfalso; auto|].
  transitivity ((a, x) :: (k, v) :: m); [constructor; apply IH; tauto|constructor].
Qed.
(** the identity at every point *)
Definition unit_F (n : nat) : list R := List.concat (repeat (List.concat (repeat [1; 1; 1; 0; 0; 0; 0; 0; 0]%R 8)) n).
Lemma concat_repeat_len {A} (l : list A) n : length (List.concat (repeat l n)) = n * length l.
Proof. induction n as [|n IH]; simpl; auto. now rewrite app_length, IH. Qed.
Lemma unit_F_length n : length (unit_F n) = n * 72.
Proof. unfold unit_F. rewrite concat_repeat_len. reflexivity. Qed.
Lemma initial_F n : initial KFullIntPt [1; 1; 1; 0; 0; 0; 0; 0; 0]%R n (unit_F n).
Proof.
  right. split; [discriminate|]. split; [|apply unit_F_length]. unfold initial_entries, unit_F. destruct n as [|n]; [reflexivity|]. reflexivity.
Qed.
Lemma initial_zero k n : initial k [] n (repeat 0%R (n * width k)).
Proof. now left. Qed.

(** the fields of one block of elements *)
Definition of_block (b : nat) (x : key) : Prop := match x with KNode _ => False | KElem b' _ | KIpt b' _ _ => b' = b end.
Record extends (same : bool) (b : nat) (s s' : tables * heap) : Prop := {
  e_good : good same s';
  e_labels : forall y i, assoc chars_eqb y (tb_labels (fst s)) = Some i -> assoc chars_eqb y (tb_labels (fst s')) = Some i;
  e_holds : forall x k n hd dd, ~ of_block b x -> holds s x k n hd dd -> holds s' x k n hd dd }.
Lemma extends_trans same b s1 s2 s3 : extends same b s1 s2 -> extends same b s2 s3 -> extends same b s1 s3.
Proof. intros [A B C] [D E F]. constructor; auto. Qed.
Lemma allocated_extends same b s s' label id keys k n init : allocated same s s' label id keys k n init -> (forall x, In x keys -> of_block b x) -> extends same b s s'.
Proof. intros A H. constructor; [exact (a_good A)|exact (a_labels A)|]. intros. eapply holds_old; eauto. Qed.

Definition lab (s : tables * heap) (l : chars) (i : nat) : Prop := assoc chars_eqb l (tb_labels (fst s)) = Some i.
Definition zerosS (n : nat) : list R := repeat 0%R (n * 48).
(** the integration-point data of a new block *)
Definition new_points (s : tables * heap) (b n iF iS : nat) : Prop :=
  lab s (lit "deformation_gradient") iF /\ lab s (lit "stress") iS /\
  forall st, holds s (KIpt b iF st) KFullIntPt n (unit_F n) (unit_F n) /\ holds s (KIpt b iS st) KSymIntPt n (zerosS n) (zerosS n).
Lemma initialize_block_ok out d b : good (kd_same d) (state_of d) -> km_states (mb_mat b) = 0 ->
  exists s' iF iS, initialize_block out d b = Ok (with_blocks (with_tables d s'
      (FIds (Some iF) (Some iS) (Some iS) (f_ref (kd_ids d)) (f_disp (kd_ids d)) (f_vel (kd_ids d)) (f_mass (kd_ids d)) (f_force (kd_ids d))
            (f_scalar (kd_ids d)) (f_vec3D (kd_ids d)) (f_sym (kd_ids d)) (f_full (kd_ids d)))) (map_put (mb_id b) (KBlock b []) (kd_blocks d))) /\
    extends (kd_same d) (mb_id b) (state_of d) s' /\ new_points s' (mb_id b) (mb_num_elem b) iF iS.
Proof.
  intros G Hst. unfold initialize_block. cbv zeta. set (id := mb_id b). set (n := mb_num_elem b). set (same := kd_same d) in *. rewrite Hst.
  destruct (@ipt_spec same (state_of d) id FULL_TENSOR (lit "deformation_gradient") n KFullIntPt [1; 1; 1; 0; 0; 0; 0; 0; 0]%R (unit_F n) G eq_refl (initial_F n)) as (s1 & iF & E1 & A1).
  rewrite E1. cbn [obind fst snd].
  destruct (@elem_spec same s1 id FULL_TENSOR (lit "deformation_gradient") n KFullElem (a_good A1) eq_refl) as (s2 & i2 & E2 & A2). rewrite E2. cbn [obind fst snd].
  destruct (@ipt_spec same s2 id SYMMETRIC_TENSOR (lit "stress") n KSymIntPt [] (zerosS n) (a_good A2) eq_refl (initial_zero KSymIntPt n)) as (s3 & iS & E3 & A3). rewrite E3. cbn [obind fst snd].
  destruct (@ipt_spec same s3 id SYMMETRIC_TENSOR (lit "stress") n KSymIntPt [] (zerosS n) (a_good A3) eq_refl (initial_zero KSymIntPt n)) as (s4 & iS' & E4 & A4). rewrite E4. cbn [obind fst snd].
  assert (iS' = iS) as ->. { pose proof (a_label A4) as H1. pose proof (a_labels A4 _ (a_label A3)) as H2. congruence. }
  destruct (@elem_spec same s4 id SYMMETRIC_TENSOR (lit "stress") n KSymElem (a_good A4) eq_refl) as (s5 & i5 & E5 & A5). rewrite E5. cbn [obind fst snd].
  assert (X : exists s6, (if contains (lit "volume") out then do r <- allocate_element_data same s5 id SCALAR (lit "volume") n; Ok (fst r) else Ok s5) = Ok s6 /\
    extends same id s5 s6 /\ (forall x k n hd dd, (match x with KElem _ _ => False | _ => True end) -> holds s5 x k n hd dd -> holds s6 x k n hd dd)).
  { destruct (contains (lit "volume") out).
    - destruct (@elem_spec same s5 id SCALAR (lit "volume") n KScalarElem (a_good A5) eq_refl) as (s6 & i6 & E6 & A6). rewrite E6. exists s6. split; [reflexivity|]. split.
      + eapply allocated_extends; [exact A6|]. intros x [<-|[]]. reflexivity.
      + intros x k m hd dd Hx H. eapply holds_old; [exact A6| |exact H]. intros [<-|[]]. exact Hx.
    - exists s5. split; [reflexivity|]. split; auto. constructor; auto. exact (a_good A5). }
  destruct X as (s6 & E6 & Ex6 & K6).
  match goal with |- context [obind ?e _] => replace e with (Ok s6) by (symmetry; exact E6) end. cbn [obind Nat.ltb Nat.leb].
  exists s6, iF, iS. split; [reflexivity|].
  assert (LF : lab s4 (lit "deformation_gradient") iF) by (apply (a_labels A4), (a_labels A3), (a_labels A2), (a_label A1)).
  assert (LS : lab s4 (lit "stress") iS) by (apply (a_label A4)).
  assert (Ne : iF <> iS) by (eapply label_ne; [exact (a_good A4)|exact LF|exact LS|discriminate]).
  split; [|split; [|split]].
  - eapply extends_trans; [|eapply extends_trans; [|eapply extends_trans; [|eapply extends_trans; [|eapply extends_trans; [|exact Ex6]]]]].
    + eapply allocated_extends; [exact A1|]. intros x [<-|[<-|[]]]; reflexivity.
    + eapply allocated_extends; [exact A2|]. intros x [<-|[]]; reflexivity.
    + eapply allocated_extends; [exact A3|]. intros x [<-|[<-|[]]]; reflexivity.
    + eapply allocated_extends; [exact A4|]. intros x [<-|[<-|[]]]; reflexivity.
    + eapply allocated_extends; [exact A5|]. intros x [<-|[]]; reflexivity.
  - apply (e_labels Ex6), (a_labels A5). exact LF.
  - apply (e_labels Ex6), (a_labels A5). exact LS.
  - intros st. split; (apply K6; [exact I|]); (eapply holds_old; [exact A5|intros [H|[]]; discriminate|]).
    + eapply holds_old; [exact A4|intros [H|[H|[]]]; injection H; intros; congruence|].
      eapply holds_old; [exact A3|intros [H|[H|[]]]; injection H; intros; congruence|].
      eapply holds_old; [exact A2|intros [H|[]]; discriminate|]. eapply holds_new; [exact A1|]. destruct st; simpl; auto.
    + eapply holds_new; [exact A4|]. destruct st; simpl; auto.
Qed.

(** the object with the fields of some blocks *)
Record setup (same : bool) (N : nat) (hr dr : list R) (i : node_ids) (bs : list mblock) (d : kdata) : Prop := {
  su_same : kd_same d = same;
  su_good : good same (state_of d);
  su_lab : labelled (kd_tables d) i;
  su_ids : ids_of i (kd_ids d);
  su_nodal : nodal (state_of d) i N hr dr;
  su_blocks : Permutation (kd_blocks d) (map (fun b => (mb_id b, KBlock b [])) bs);
  su_sorted : keys_sorted (kd_blocks d);
  su_points : forall b, In b bs -> exists iF iS, f_def_grad (kd_ids d) = Some iF /\ f_stress (kd_ids d) = Some iS /\ f_unrotated (kd_ids d) = Some iS /\
    new_points (state_of d) (mb_id b) (mb_num_elem b) iF iS;
  su_views : kd_disp d = None /\ kd_vel d = None
}.
Lemma nodal_extends same b s s' i N hr dr : extends same b s s' -> nodal s i N hr dr -> nodal s' i N hr dr.
Proof. intros E [H1 H2 H3 H4 H5 H6 H7 H8]. constructor; (eapply (e_holds E); [intros []|eassumption]). Qed.
Lemma labelled_extends same b s s' i : extends same b s s' -> labelled (fst s) i -> labelled (fst s') i.
Proof. intros E [H1 H2 H3 H4 H5 H6 H7 H8]. constructor; eapply (e_labels E); eassumption. Qed.
Lemma setup_step same N hr dr i bs d out b : setup same N hr dr i bs d -> km_states (mb_mat b) = 0 -> ~ In (mb_id b) (map mb_id bs) ->
  exists d', initialize_block out d b = Ok d' /\ setup same N hr dr i (b :: bs) d'.
Proof.
  intros U Hst Hnew. pose proof (su_same U) as Es. destruct (@initialize_block_ok out d b) as (s' & iF & iS & E & Ex & Np); auto.
  { rewrite Es. exact (su_good U). }
  rewrite Es in Ex.
  eexists. split; [exact E|].
  assert (St : forall ids bl, state_of (with_blocks (with_tables d s' ids) bl) = s') by (intros; unfold state_of; simpl; now destruct s').
  constructor.
  - simpl. exact Es.
  - rewrite St. exact (e_good Ex).
  - simpl. exact (labelled_extends Ex (su_lab U)).
  - exact (su_ids U).
  - rewrite St. exact (nodal_extends Ex (su_nodal U)).
  - simpl. rewrite put_perm.
    + constructor. exact (su_blocks U).
    + intros H. apply Hnew. apply (Permutation_in _ (Permutation_map fst (su_blocks U))) in H. rewrite map_map in H. exact H.
  - simpl. apply put_sorted. exact (su_sorted U).
  - intros c Hc. simpl kd_ids. cbn [f_def_grad f_stress f_unrotated]. exists iF, iS. repeat (split; [reflexivity|]). rewrite St.
    destruct Hc as [<-|Hc]; [exact Np|]. destruct Np as (L1 & L2 & _).
    destruct (su_points U c Hc) as (jF & jS & _ & _ & _ & M1 & M2 & M3).
    assert (jF = iF) as -> by (apply (e_labels Ex) in M1; unfold lab in *; congruence).
    assert (jS = iS) as -> by (apply (e_labels Ex) in M2; unfold lab in *; congruence).
    split; [exact L1|]. split; [exact L2|]. intros st. destruct (M3 st) as [H1 H2].
    assert (mb_id c <> mb_id b) by (intros Eq; apply Hnew; rewrite <- Eq; now apply in_map).
    split; (eapply (e_holds Ex); [simpl; auto|assumption]).
  - exact (su_views U).
Qed.
Lemma setup_perm same N hr dr i bs bs' d : setup same N hr dr i bs d -> Permutation bs bs' -> setup same N hr dr i bs' d.
Proof.
  intros [H1 H2 H3 H4 H5 H6 H7 H8 H9] P. constructor; auto.
  - rewrite H6. now apply Permutation_map.
  - intros b Hb. apply H8. eapply Permutation_in; [symmetry; exact P|exact Hb].
Qed.
Lemma setup_fold same N hr dr i out : forall todo bs d, setup same N hr dr i bs d -> (forall b, In b todo -> km_states (mb_mat b) = 0) -> NoDup (map mb_id (todo ++ bs)) ->
  exists d', ofold (initialize_block out) todo d = Ok d' /\ setup same N hr dr i (todo ++ bs) d'.
Proof.
  induction todo as [|b todo IH]; intros bs d U Hst Nd; simpl.
  - exists d. auto.
  - simpl in Nd. inversion Nd as [|? ? Hn Nd']; subst. destruct (@setup_step same N hr dr i bs d out b U) as (d1 & E1 & U1).
    + apply Hst. now left.
    + intros H. apply Hn. rewrite map_app. apply in_or_app. now right.
    + rewrite E1. cbn [obind]. destruct (IH (b :: bs) d1 U1) as (d2 & E2 & U2).
      * intros; apply Hst; now right.
      * eapply Permutation_NoDup; [|exact Nd]. change (mb_id b :: map mb_id (todo ++ bs)) with (map mb_id (b :: todo ++ bs)). apply Permutation_map, Permutation_middle.
      * exists d2. split; auto. eapply setup_perm; [exact U2|]. symmetry. apply Permutation_middle.
Qed.
Lemma setup_initial same N dim coords d i : initialize same explicit dim N coords = Ok d -> kd_same d = same -> good same (state_of d) -> labelled (kd_tables d) i ->
  ids_of i (kd_ids d) -> nodal (state_of d) i N (coord_list dim N coords) (if same then coord_list dim N coords else zeros3 N) -> kd_blocks d = [] ->
  kd_disp d = None /\ kd_vel d = None -> setup same N (coord_list dim N coords) (if same then coord_list dim N coords else zeros3 N) i [] d.
Proof.
  intros _ H1 H2 H3 H4 H5 H6 H7. constructor; auto.
  - rewrite H6. constructor.
  - rewrite H6. constructor.
  - intros b [].
Qed.
