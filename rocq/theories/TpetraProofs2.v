(** Proofs about the sums over the ranks by Tpetra, continued: the calls of TpetraContainer. *)
From Coq Require Import Reals Lra Permutation.
From Verif Require Import Base Loops DataModel MpiSpec MpiFinal MpiRunProofs TpetraModel TpetraSpec TpetraProofs.
Set Implicit Arguments.
Local Open Scope nat_scope.
Local Open Scope list_scope.

Lemma omapM_pointwise {A B} (f : A -> outcome B) (P : nat -> B -> Prop) l :
  (forall k x, nth_error l k = Some x -> exists y, f x = Ok y /\ P k y) ->
  exists ys, omapM f l = Ok ys /\ length ys = length l /\ forall k y, nth_error ys k = Some y -> P k y.
Proof.
  revert P. induction l as [|a l IH]; intros P H; simpl.
  - exists []. repeat split. intros [|k]; simpl; congruence.
  - destruct (H 0 a eq_refl) as (y & E & Hy). rewrite E. simpl.
    destruct (IH (fun k => P (S k))) as (ys & Es & L & Hs).
    { intros k x Hk. apply (H (S k) x Hk). }
    rewrite Es. simpl. exists (y :: ys). split; auto. split; [simpl; auto|].
    intros [|k] z; simpl; [congruence|apply Hs].
Qed.
Lemma nth_error_combine_inv {A B} (l : list A) (l' : list B) i p :
  nth_error (combine l l') i = Some p -> nth_error l i = Some (fst p) /\ nth_error l' i = Some (snd p).
Proof. revert l' i. induction l as [|x l IH]; intros [|y l'] [|i]; simpl; try congruence; auto. intros H. injection H as <-. auto. Qed.
Lemma nth_error_nth_d {A} (l : list A) i a d : nth_error l i = Some a -> nth i l d = a.
Proof. revert i. induction l as [|x l IH]; intros [|i]; simpl; try congruence; auto. Qed.

Lemma load_ok n data v : length v = n -> exists v', load n data v = Ok v' /\ length v' = n /\ forall i, i < n -> nth_error v' i = Some (data i).
Proof.
  intros L. unfold load.
  destruct (@oloop_ind (list R) (fun k v' => length v' = n /\ forall i, i < k -> nth_error v' i = Some (data i)) 0 n
     (fun i v => vset v i (data i)) v) as (v' & E & H1 & H2).
  - lia.
  - split; auto. intros; lia.
  - intros k s Hk (H1 & H2). unfold vset. assert (E : (k <? length s) = true) by (apply Nat.ltb_lt; lia). rewrite E.
    eexists. split; [reflexivity|]. rewrite list_set_length. split; auto.
    intros i Hi. rewrite nth_error_list_set, E. destruct (Nat.eqb_spec i k) as [->|N]; simpl; auto. apply H2. lia.
  - exists v'. auto.
Qed.
Lemma store_ok n v data : length v = n ->
  exists d', store n v data = Ok d' /\ (forall i, i < n -> nth_error v i = Some (d' i)) /\ (forall i, n <= i -> d' i = data i).
Proof.
  intros L. unfold store.
  destruct (@oloop_ind (nat -> R) (fun k d' => (forall i, i < k -> nth_error v i = Some (d' i)) /\ (forall i, k <= i -> d' i = data i)) 0 n
     (fun i data => do x <- vget v i; Ok (upd data i x)) data) as (v' & E & H1 & H2).
  - lia.
  - split; auto. intros; lia.
  - intros k s Hk (H1 & H2). unfold vget. destruct (nth_error v k) as [x|] eqn:Ex; [|apply nth_error_None in Ex; lia].
    simpl. eexists. split; [reflexivity|]. unfold upd. split; intros i Hi.
    + destruct (Nat.eqb_spec i k) as [->|N]; auto. apply H1. lia.
    + destruct (Nat.eqb_spec i k) as [->|N]; [lia|]. apply H2. lia.
  - exists v'. auto.
Qed.

(** the entries of the rank arrays as a vector on map [m] *)
Definition loaded (m : tmap) (data : list (nat -> R)) (v : tvec) : Prop :=
  fits m v /\ forall r d i, nth_error data r = Some d -> i < length (nth r m []) -> nth_error (nth r v []) i = Some (d i).
Lemma loaded_contribution m data v g : length data = length m -> loaded m data v ->
  flat_map (contribution m v g) (seq 0 (length m)) = holder_values 1 m data g 0.
Proof.
  intros L (Hf & H). unfold holder_values. apply flat_map_ext. intros r. unfold contribution, entry, node_value.
  destruct (index_of g (nth r m [])) as [i|] eqn:E; [|now destruct (nth_error data r)].
  destruct (@index_of_Some _ _ _ E) as (Li & _).
  destruct (nth_error data r) as [d|] eqn:Ed.
  - rewrite (H r d i Ed Li). now replace (i * 1 + 0) with i by lia.
  - apply nth_error_None in Ed. exfalso. rewrite nth_overflow in Li by lia. simpl in Li. lia.
Qed.

Section Call.
  Variables (lib : tlib) (m : tmap) (cnt : list Z -> nat) (ids : list (list Z)) (data : list (nat -> R)) (v0 w : tvec).
  Hypothesis Hlib : library_ok lib.
  Hypothesis Hids : length ids = length m.
  Hypothesis Hdata : length data = length m.
  Hypothesis Hcnt : forall r, r < length m -> cnt (nth r ids []) = length (nth r m []).
  Hypothesis Hm : all_nodup m.
  Hypothesis Hv0 : fits m v0.
  Hypothesis Hw : fits (one_of lib m) w.

  Lemma load_all : exists v, omapM (fun p => load (cnt (fst (fst p))) (snd (fst p)) (snd p)) (combine (combine ids data) v0) = Ok v /\ loaded m data v.
  Proof.
    assert (L : length (combine (combine ids data) v0) = length m).
    { rewrite !combine_length. rewrite (proj1 Hv0). lia. }
    destruct (@omapM_pointwise _ _ (fun p => load (cnt (fst (fst p))) (snd (fst p)) (snd p))
      (fun k y => length y = length (nth k m []) /\ forall i d, nth_error data k = Some d -> i < length (nth k m []) -> nth_error y i = Some (d i))
      (combine (combine ids data) v0)) as (v & E & Lv & H).
    - intros k [[l d] x] Hk. assert (Lk : k < length m) by (rewrite <- L; apply nth_error_Some; congruence).
      apply nth_error_combine_inv in Hk as (Hk & Hx). apply nth_error_combine_inv in Hk as (Hl & Hd). simpl in *.
      destruct (@load_ok (cnt l) d x) as (y & Ey & Ly & Hy).
      { rewrite <- (@nth_error_nth_d _ ids k l [] Hl), Hcnt by auto. rewrite <- (@nth_error_nth_d _ v0 k x [] Hx). apply Hv0. }
      assert (Ec : cnt l = length (nth k m [])) by (rewrite <- (@nth_error_nth_d _ ids k l [] Hl); auto).
      exists y. split; auto. split; [congruence|]. intros i d' Hd' Hi. rewrite Hd in Hd'. injection Hd' as <-. apply Hy. lia.
    - exists v. split; auto. split.
      + split; [lia|]. intros r. destruct (nth_error v r) as [y|] eqn:Er.
        * rewrite (@nth_error_nth_d _ v r y [] Er). apply (H r y Er).
        * apply nth_error_None in Er. rewrite !nth_overflow by lia. reflexivity.
      + intros r d i Hd Hi. destruct (nth_error v r) as [y|] eqn:Er.
        * rewrite (@nth_error_nth_d _ v r y [] Er). apply (H r y Er); auto.
        * apply nth_error_None in Er. exfalso. rewrite nth_overflow in Hi by lia. simpl in Hi. lia.
  Qed.

  Lemma call_ok : exists v one v' data',
    omapM (fun p => load (cnt (fst (fst p))) (snd (fst p)) (snd p)) (combine (combine ids data) v0) = Ok v /\
    one = do_export_add lib m (one_of lib m) v w /\ v' = do_import_insert (one_of lib m) m one v /\
    omapM (fun p => store (cnt (fst (fst p))) (snd p) (snd (fst p))) (combine (combine ids data) v') = Ok data' /\
    fits m v' /\ fits (one_of lib m) one /\ length data' = length m /\
    (forall r d d', nth_error data r = Some d -> nth_error data' r = Some d' ->
       (forall i g, nth_error (nth r m []) i = Some g -> exists x, entry (one_of lib m) w (first_holder m g) g = Some x /\
          d' i = ((if tl_keep lib then x else 0) + rsum (holder_values 1 m data g 0))%R) /\
       (forall i, length (nth r m []) <= i -> d' i = d i)) /\
    (forall r g x, In g (nth r (one_of lib m) []) -> entry (one_of lib m) w r g = Some x ->
       entry (one_of lib m) one r g = Some ((if tl_keep lib then x else 0) + rsum (holder_values 1 m data g 0))%R).
  Proof.
    destruct load_all as (v & Ev & Hv). pose proof (proj1 Hv) as Fv.
    set (one := do_export_add lib m (one_of lib m) v w). set (v' := do_import_insert (one_of lib m) m one v).
    assert (F' : fits m v') by (exact (@import_fits lib m v w Fv)).
    assert (Fo : fits (one_of lib m) one) by (exact (@export_fits lib m v w Hw)).
    assert (L : length (combine (combine ids data) v') = length m).
    { rewrite !combine_length. rewrite (proj1 F'). lia. }
    destruct (@omapM_pointwise _ _ (fun p => store (cnt (fst (fst p))) (snd p) (snd (fst p)))
      (fun k d' => forall d, nth_error data k = Some d -> (forall i, i < length (nth k m []) -> nth_error (nth k v' []) i = Some (d' i)) /\ (forall i, length (nth k m []) <= i -> d' i = d i))
      (combine (combine ids data) v')) as (data' & Ed & Ld & H).
    { intros k [[l d] x] Hk. assert (Lk : k < length m) by (rewrite <- L; apply nth_error_Some; congruence).
      apply nth_error_combine_inv in Hk as (Hk & Hx). apply nth_error_combine_inv in Hk as (Hl & Hd). cbn [fst snd] in *.
      assert (Ec : cnt l = length (nth k m [])) by (rewrite <- (@nth_error_nth_d _ ids k l [] Hl); auto).
      pose proof (@nth_error_nth_d _ v' k x [] Hx) as En.
      destruct (@store_ok (cnt l) x d) as (d' & E & H1 & H2).
      { rewrite Ec, <- En. apply F'. }
      exists d'. split; auto. intros d0 Hd0. rewrite Hd in Hd0. injection Hd0 as <-. rewrite En, <- Ec. auto. }
    exists v, one, v', data'. split; [exact Ev|]. split; [reflexivity|]. split; [reflexivity|]. split; [exact Ed|].
    split; [exact F'|]. split; [exact Fo|]. split; [lia|]. split.
    - intros r d d' Hd Hd'. destruct (H r d' Hd' d Hd) as (H1 & H2). split; auto.
      intros i g Hg.
      assert (Hi : i < length (nth r m [])) by (apply nth_error_Some; congruence).
      destruct (@reduce_entry lib m Hlib v w Fv Hw r g (nth_error_In _ _ Hg)) as (x & Hx & Hr).
      exists x. split; auto. fold one in Hr. fold v' in Hr. unfold entry in Hr.
      assert (Hix : index_of g (nth r m []) = Some i).
      { rewrite <- (@nth_error_nth_d _ (nth r m []) i g 0%Z Hg). apply index_of_nth; auto.
        destruct (Nat.lt_ge_cases r (length m)) as [Lr|Lr].
        - unfold all_nodup in Hm. rewrite Forall_forall in Hm. apply Hm. now apply nth_In.
        - rewrite nth_overflow by auto. constructor. }
      rewrite Hix in Hr. rewrite (H1 i Hi) in Hr.
      rewrite (@loaded_contribution m data v g Hdata Hv) in Hr. congruence.
    - intros r g x Hg Hx. rewrite <- (@loaded_contribution m data v g Hdata Hv). exact (@export_entry lib m Hlib v w Fv r g x Hg Hx).
  Qed.
End Call.

(** ** degrees of freedom *)
Definition dofs_of (dim : nat) (l : list Z) : list Z := flat_map (fun g => map (dof dim g) (seq 0 dim)) l.
Lemma dof_inj dim g d g' d' : d < dim -> d' < dim -> dof dim g d = dof dim g' d' -> g = g' /\ d = d'.
Proof. unfold dof. intros H H' E. assert (g = g') by nia. subst. split; auto. lia. Qed.
Lemma length_dofs_of dim l : length (dofs_of dim l) = length l * dim.
Proof. unfold dofs_of. induction l as [|g l IH]; simpl; auto. rewrite app_length, map_length, seq_length, IH. lia. Qed.
Lemma In_dofs_of dim l x : In x (dofs_of dim l) <-> exists g d, In g l /\ d < dim /\ x = dof dim g d.
Proof.
  unfold dofs_of. rewrite in_flat_map. split.
  - intros (g & Hg & H). apply in_map_iff in H as (d & <- & Hd). apply in_seq in Hd. exists g, d. split; auto. split; auto. lia.
  - intros (g & d & Hg & Hd & ->). exists g. split; auto. apply in_map_iff. exists d. split; auto. apply in_seq. lia.
Qed.
Lemma NoDup_app' {A} (l l' : list A) : NoDup l -> NoDup l' -> (forall x, In x l -> ~ In x l') -> NoDup (l ++ l').
Proof.
  induction l as [|a l IH]; simpl; auto. intros H H' D. inversion H; subst. constructor.
  - rewrite in_app_iff. intros [C|C]; auto. apply (D a); auto.
  - apply IH; auto.
Qed.
Lemma NoDup_dofs_of dim l : NoDup l -> NoDup (dofs_of dim l).
Proof.
  induction 1 as [|g l Hg Hl IH]; simpl; [constructor|]. unfold dofs_of. simpl. apply NoDup_app'; auto.
  - apply FinFun.Injective_map_NoDup; [|apply seq_NoDup]. intros a b. unfold dof. lia.
  - intros x Hx C. apply in_map_iff in Hx as (d & <- & Hd). apply in_seq in Hd.
    change (In (dof dim g d) (dofs_of dim l)) in C. apply In_dofs_of in C as (g' & d' & Hg' & Hd' & E).
    apply dof_inj in E as (-> & _); auto; lia.
Qed.
Lemma nth_error_dofs_of dim l i g d : nth_error l i = Some g -> d < dim -> nth_error (dofs_of dim l) (i * dim + d) = Some (dof dim g d).
Proof.
  revert i. induction l as [|a l IH]; intros [|i]; simpl; try congruence; intros H Hd; unfold dofs_of; simpl.
  - injection H as ->. rewrite nth_error_app1 by (rewrite map_length, seq_length; auto).
    apply map_nth_error. rewrite (nth_error_nth' _ 0) by (rewrite seq_length; auto). f_equal. now rewrite seq_nth.
  - rewrite nth_error_app2 by (rewrite map_length, seq_length; lia). rewrite map_length, seq_length.
    replace (dim + i * dim + d - dim) with (i * dim + d) by lia. now apply IH.
Qed.
Lemma index_of_dofs dim l g d : NoDup l -> d < dim ->
  index_of (dof dim g d) (dofs_of dim l) = match index_of g l with Some i => Some (i * dim + d) | None => None end.
Proof.
  intros Hn Hd. destruct (index_of g l) as [i|] eqn:E.
  - destruct (@index_of_Some l g i E) as (L & En).
    assert (Ne : nth_error (dofs_of dim l) (i * dim + d) = Some (dof dim g d)).
    { apply nth_error_dofs_of; auto. rewrite <- En. now apply nth_error_nth'. }
    rewrite <- (@nth_error_nth_d _ _ _ _ 0%Z Ne). apply index_of_nth; [now apply NoDup_dofs_of|].
    apply nth_error_Some. congruence.
  - destruct (index_of (dof dim g d) (dofs_of dim l)) as [k|] eqn:E'; auto.
    apply index_of_In' in E'. apply In_dofs_of in E' as (g' & d' & Hg' & Hd' & Eq).
    apply dof_inj in Eq as (-> & _); auto. exfalso. exact (@index_of_None l g' E Hg').
Qed.
Lemma nth_map_dofs dim ids r : nth r (map (dofs_of dim) ids) [] = dofs_of dim (nth r ids []).
Proof.
  destruct (Nat.lt_ge_cases r (length ids)) as [L|L].
  - erewrite nth_indep; [|rewrite map_length; exact L]. apply (map_nth (dofs_of dim) ids []).
  - rewrite !nth_overflow; auto. now rewrite map_length.
Qed.
Lemma holder_values_dofs dim ids (data : list (nat -> R)) g d : all_nodup ids -> d < dim ->
  holder_values 1 (map (dofs_of dim) ids) data (dof dim g d) 0 = holder_values dim ids data g d.
Proof.
  intros Hn Hd. unfold holder_values. rewrite map_length. apply flat_map_ext. intros r. unfold node_value.
  rewrite nth_map_dofs. rewrite index_of_dofs; auto.
  - destruct (nth_error data r); auto. destruct (index_of g (nth r ids [])); auto. do 2 f_equal. lia.
  - destruct (Nat.lt_ge_cases r (length ids)) as [L|L].
    + unfold all_nodup in Hn. rewrite Forall_forall in Hn. apply Hn. now apply nth_In.
    + rewrite nth_overflow by auto. constructor.
Qed.
Lemma all_nodup_dofs dim ids : all_nodup ids -> all_nodup (map (dofs_of dim) ids).
Proof. unfold all_nodup. intros H. apply Forall_map. eapply Forall_impl; [|exact H]. intros l. apply NoDup_dofs_of. Qed.

(** ** initialisation *)
Record tinv (lib : tlib) (dim : nat) (ids : list (list Z)) (t : tpetra) : Prop := {
  ti_dim : tp_dim t = dim; ti_ids : tp_ids t = ids;
  ti_m1 : tp_map1 t = ids; ti_o1 : tp_one1 t = one_of lib ids; ti_v1 : fits ids (tp_vec1 t); ti_w1 : fits (one_of lib ids) (tp_vone1 t);
  ti_m3 : tp_map3 t = map (dofs_of dim) ids; ti_o3 : tp_one3 t = one_of lib (map (dofs_of dim) ids);
  ti_v3 : fits (map (dofs_of dim) ids) (tp_vec3 t); ti_w3 : fits (one_of lib (map (dofs_of dim) ids)) (tp_vone3 t) }.

Lemma omapM_vget_pre {B} (f : Z -> B) pre ids :
  omapM (fun i => do g <- vget (pre ++ ids) i; Ok (f g)) (seq (length pre) (length ids)) = Ok (map f ids).
Proof.
  revert pre. induction ids as [|a l IH]; intros pre; simpl; auto.
  unfold vget at 1. rewrite nth_error_app2 by lia. rewrite Nat.sub_diag. simpl.
  specialize (IH (pre ++ [a])). rewrite <- app_assoc, app_length in IH. simpl in IH. rewrite Nat.add_1_r in IH. rewrite IH. reflexivity.
Qed.
Lemma omapM_ext {A B} (f g : A -> outcome B) l : (forall x, f x = g x) -> omapM f l = omapM g l.
Proof. intros H. induction l as [|a l IH]; simpl; auto. now rewrite H, IH. Qed.
Lemma entries1_ok ids : entries1 (length ids) ids = Ok ids.
Proof.
  unfold entries1. pose proof (@omapM_vget_pre Z (fun g => g) [] ids) as E. simpl app in E. simpl length in E. rewrite map_id in E.
  rewrite <- E. apply omapM_ext. intros x. destruct (vget ids x); reflexivity.
Qed.
Lemma entries3_ok dim ids : entries3 dim (length ids) ids = Ok (dofs_of dim ids).
Proof.
  unfold entries3. pose proof (@omapM_vget_pre (list Z) (fun g => map (fun d => (g * Z.of_nat dim + Z.of_nat d)%Z) (seq 0 dim)) [] ids) as E.
  simpl app in E. simpl length in E. rewrite E. simpl. unfold dofs_of. now rewrite flat_map_concat_map.
Qed.
Lemma combine_length_map (ids : list (list Z)) : combine (map (@length Z) ids) ids = map (fun l => (length l, l)) ids.
Proof. induction ids; simpl; congruence. Qed.
Lemma omapM_of_map {A B C} (f : B -> outcome C) (g : A -> B) l : omapM f (map g l) = omapM (fun a => f (g a)) l.
Proof. induction l as [|a l IH]; simpl; auto. now rewrite IH. Qed.
Lemma initialize_ok lib dim ids : library_ok lib ->
  exists t, initialize lib dim (map (@length Z) ids) ids = Ok t /\ tinv lib dim ids t /\
    tp_vone1 t = vec_new (one_of lib ids) /\ tp_vone3 t = vec_new (one_of lib (map (dofs_of dim) ids)).
Proof.
  intros Hl. unfold initialize. rewrite combine_length_map, !omapM_of_map.
  rewrite (@omapM_map _ _ _ (fun l => l)) by (intros l _; apply entries1_ok). rewrite map_id. simpl.
  rewrite create_one_to_one_ok by auto. simpl.
  rewrite (@omapM_map _ _ _ (dofs_of dim)) by (intros l _; apply entries3_ok). simpl.
  rewrite create_one_to_one_ok by auto. simpl.
  eexists. split; [reflexivity|]. split; [|split; reflexivity].
  constructor; simpl; try reflexivity; apply fits_new.
Qed.

(** ** one call *)
Definition call_meaning (lib : tlib) (fs : nat) (ids : list (list Z)) (data data' : list (nat -> R)) : Prop :=
  length data' = length ids /\
  forall r d d', nth_error data r = Some d -> nth_error data' r = Some d' ->
    (forall i node j, nth_error (nth r ids []) i = Some node -> j < fs -> d' (i * fs + j) = rsum (holder_values fs ids data node j)) /\
    (forall x, length (nth r ids []) * fs <= x -> d' x = d x).

Lemma vector_reduction_ok lib dim ids t n data : library_ok lib -> tl_keep lib = false -> all_nodup ids -> tinv lib dim ids t ->
  length data = length ids -> n = 1 \/ n = dim ->
  exists t' data', vector_reduction lib t n data = Ok (t', data') /\ tinv lib dim ids t' /\ call_meaning lib n ids data data'.
Proof.
  intros Hl Hk Hn [D I M1 O1 V1 W1 M3 O3 V3 W3] L Hnd. unfold vector_reduction. rewrite D.
  destruct (Nat.eqb_spec n dim) as [->|N]; simpl negb; cbv iota.
  - destruct (@call_ok lib (map (dofs_of dim) ids) (fun l => length l * dim) ids data (tp_vec3 t) (tp_vone3 t)) as
      (v & one & v' & data' & E1 & E2 & E3 & E4 & F' & Fo & Ld & H & _); auto.
    + now rewrite map_length.
    + now rewrite map_length.
    + intros r _. rewrite nth_map_dofs. now rewrite length_dofs_of.
    + now apply all_nodup_dofs.
    + rewrite I, M3, O3. rewrite E1. cbn [obind]. rewrite <- E2, <- E3, E4. cbn [obind].
      eexists _, data'. split; [reflexivity|]. split.
      * constructor; simpl; auto.
      * split; [now rewrite Ld, map_length|]. intros r d d' Hd Hd'. destruct (H r d d' Hd Hd') as (H1 & H2).
        rewrite nth_map_dofs in H1, H2. rewrite length_dofs_of in H2. split; auto.
        intros i node j Hi Hj. destruct (H1 (i * dim + j) (dof dim node j)) as (x & _ & ->).
        { now apply nth_error_dofs_of. }
        rewrite Hk, holder_values_dofs by auto. lra.
  - destruct Hnd as [->|]; [|congruence].
    destruct (@call_ok lib ids (@length Z) ids data (tp_vec1 t) (tp_vone1 t)) as
      (v & one & v' & data' & E1 & E2 & E3 & E4 & F' & Fo & Ld & H & _); auto.
    rewrite I, M1, O1. rewrite E1. cbn [obind]. rewrite <- E2, <- E3, E4. cbn [obind].
    eexists _, data'. split; [reflexivity|]. split.
    + constructor; simpl; auto.
    + split; [exact Ld|]. intros r d d' Hd Hd'. destruct (H r d d' Hd Hd') as (H1 & H2). split.
      * intros i node j Hi Hj. destruct (H1 i node Hi) as (x & _ & Hx). replace (i * 1 + j) with i by lia. rewrite Hx, Hk.
        replace j with 0 by lia. lra.
      * intros x Hx. apply H2. lia.
Qed.
