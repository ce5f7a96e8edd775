(** Proofs about the tangent matrix of Tpetra. *)
From Coq Require Import Reals Lra Sorting.Sorted.
From Verif Require Import Base Loops MpiSpec MpiRunProofs TpetraModel TpetraSpec TpetraProofs.
Set Implicit Arguments.
Local Open Scope nat_scope.
Local Open Scope list_scope.

Definition has (m : list (Z * list Z)) (r c : Z) : Prop := exists s, In (r, s) m /\ In c s.
Record wf (m : list (Z * list Z)) : Prop := { wf_rows : StronglySorted Z.lt (map fst m); wf_cols : Forall (fun e => StronglySorted Z.lt (snd e)) m }.

Lemma zset_insert_In x s y : In y (zset_insert x s) <-> y = x \/ In y s.
Proof.
  induction s as [|a s IH]; simpl; [intuition auto|].
  destruct (Z.ltb_spec x a); simpl; [intuition auto|]. destruct (Z.eqb_spec x a); simpl; [subst; intuition auto|].
  rewrite IH. intuition auto.
Qed.
Lemma zset_insert_sorted x s : StronglySorted Z.lt s -> StronglySorted Z.lt (zset_insert x s).
Proof.
  induction 1 as [|a s Hs IH Ha]; simpl; [repeat constructor|].
  destruct (Z.ltb_spec x a).
  - constructor; [constructor; auto|]. constructor; auto. eapply Forall_impl; [|exact Ha]. simpl. lia.
  - destruct (Z.eqb_spec x a); [constructor; auto|]. constructor; auto.
    rewrite Forall_forall in *. intros y Hy. apply zset_insert_In in Hy as [->|Hy]; [lia|auto].
Qed.
Lemma row_insert_keys r c m x : In x (map fst (row_insert r c m)) <-> x = r \/ In x (map fst m).
Proof.
  induction m as [|[r' s] m IH]; simpl; [intuition auto|].
  destruct (Z.ltb_spec r r'); simpl; [intuition auto|]. destruct (Z.eqb_spec r r'); simpl; [subst; intuition auto|].
  rewrite IH. intuition auto.
Qed.
Lemma row_insert_wf r c m : wf m -> wf (row_insert r c m).
Proof.
  intros [R C]. split.
  - clear C. induction m as [|[r' s] m IH]; simpl in *; [repeat constructor|].
    inversion R as [|? ? R1 R2]; subst.
    destruct (Z.ltb_spec r r'); simpl.
    + constructor; auto. constructor; auto. eapply Forall_impl; [|exact R2]. simpl. lia.
    + destruct (Z.eqb_spec r r'); simpl; [constructor; auto|]. constructor; auto.
      rewrite Forall_forall in *. intros y Hy. apply row_insert_keys in Hy as [->|Hy]; [lia|auto].
  - clear R. induction m as [|[r' s] m IH]; simpl; [repeat constructor|].
    inversion C as [|? ? C1 C2]; subst. simpl in C1.
    destruct (Z.ltb_spec r r'); [repeat (constructor; simpl; auto)|]. destruct (Z.eqb_spec r r'); constructor; simpl; auto.
    now apply zset_insert_sorted.
Qed.
Lemma has_cons r' s m x y : has ((r', s) :: m) x y <-> (x = r' /\ In y s) \/ has m x y.
Proof.
  unfold has. simpl. split.
  - intros (s' & [E|H] & Hc); [injection E as <- <-; auto|right; eauto].
  - intros [(-> & H)|(s' & H & Hc)]; eauto.
Qed.
Lemma row_insert_has r c m x y : has (row_insert r c m) x y <-> has m x y \/ (x = r /\ y = c).
Proof.
  induction m as [|[r' s] m IH]; simpl.
  - unfold has. simpl. split.
    + intros (s & [E|[]] & H). injection E as <- <-. destruct H as [->|[]]. auto.
    + intros [(s & [] & _)|(-> & ->)]. exists [c]. simpl. auto.
  - destruct (Z.ltb_spec r r').
    + rewrite !has_cons. simpl. intuition auto.
    + destruct (Z.eqb_spec r r') as [->|N]; rewrite !has_cons.
      * rewrite zset_insert_In. intuition auto.
      * rewrite IH. intuition auto.
Qed.

(** a step that adds exactly the entries of [Q] *)
Definition adds (f : list (Z * list Z) -> list (Z * list Z)) (Q : Z -> Z -> Prop) : Prop :=
  forall m, wf m -> wf (f m) /\ forall x y, has (f m) x y <-> has m x y \/ Q x y.
Definition oadds (f : list (Z * list Z) -> outcome (list (Z * list Z))) (Q : Z -> Z -> Prop) : Prop :=
  forall m, wf m -> exists m', f m = Ok m' /\ wf m' /\ forall x y, has m' x y <-> has m x y \/ Q x y.
Lemma floop_adds n f Q : (forall k, k < n -> adds (f k) (Q k)) -> adds (floop 0 n f) (fun x y => exists k, k < n /\ Q k x y).
Proof.
  intros H m Hm.
  apply (@floop_ind _ (fun k m' => wf m' /\ forall x y, has m' x y <-> has m x y \/ exists i, i < k /\ Q i x y)); [lia| |].
  - split; auto. intros x y. split; auto. intros [?|(i & C & _)]; [auto|lia].
  - intros k s (_ & Hk) (W & E). destruct (H k Hk s W) as (W' & E'). split; auto. intros x y. rewrite E', E. split.
    + intros [[?|(i & L & Hi)]|Hq]; auto; right; [exists i|exists k]; split; auto; lia.
    + intros [?|(i & L & Hi)]; auto. destruct (Nat.eq_dec i k) as [->|N]; auto. left. right. exists i. split; auto. lia.
Qed.
Lemma oloop_adds n f Q : (forall k, k < n -> oadds (f k) (Q k)) -> oadds (oloop 0 n f) (fun x y => exists k, k < n /\ Q k x y).
Proof.
  intros H m Hm.
  destruct (@oloop_ind _ (fun k m' => wf m' /\ forall x y, has m' x y <-> has m x y \/ exists i, i < k /\ Q i x y) 0 n f m) as (m' & E & W & Hh); [lia| | |eauto].
  - split; auto. intros x y. split; auto. intros [?|(i & C & _)]; [auto|lia].
  - intros k s (_ & Hk) (W & E). destruct (H k Hk s W) as (s' & Es & W' & E'). exists s'. split; auto. split; auto. intros x y. rewrite E', E. split.
    + intros [[?|(i & L & Hi)]|Hq]; auto; right; [exists i|exists k]; split; auto; lia.
    + intros [?|(i & L & Hi)]; auto. destruct (Nat.eq_dec i k) as [->|N]; auto. left. right. exists i. split; auto. lia.
Qed.

Definition elem_couples (dim : nat) (ids : list Z) (e : list nat) (r c : Z) : Prop :=
  exists i j x y, In i e /\ In j e /\ x < dim /\ y < dim /\ r = dof dim (nth i ids 0%Z) x /\ c = dof dim (nth j ids 0%Z) y.
Lemma nth_ok {A} (l : list A) i d : i < length l -> vget l i = Ok (nth i l d).
Proof. intros H. unfold vget. now rewrite (nth_error_nth' l d H). Qed.

Lemma block_nonzeros_adds dim ids b : block_ok ids b ->
  oadds (block_nonzeros dim ids b) (fun x y => exists e, In e (block_elems b) /\ elem_couples dim ids e x y).
Proof.
  intros (Lc & Hc) m Hm. unfold block_nonzeros.
  set (el := fun e => map (fun i => nth (e * tbk_nodes b + i) (tbk_conn b) 0) (seq 0 (tbk_nodes b))).
  assert (Hin : forall e i, e < tbk_elem b -> i < tbk_nodes b -> e * tbk_nodes b + i < length (tbk_conn b)) by (intros; nia).
  assert (Hid : forall e i, e < tbk_elem b -> i < tbk_nodes b -> nth (e * tbk_nodes b + i) (tbk_conn b) 0 < length ids).
  { intros e i He Hi. rewrite Forall_forall in Hc. apply Hc. apply nth_In. auto. }
  match goal with |- context [oloop 0 (tbk_elem b) ?F (m, 0)] => set (F0 := F) end.
  destruct (@oloop_ind _ (fun k (s : list (Z * list Z) * nat) => snd s = k * tbk_nodes b /\ wf (fst s) /\
     forall x y, has (fst s) x y <-> has m x y \/ exists e, e < k /\ elem_couples dim ids (el e) x y) 0 (tbk_elem b) F0 (m, 0)) as (s & E & _ & W & Hh).
  - lia.
  - simpl. split; auto. split; auto. intros x y. split; auto. intros [?|(e & C & _)]; [auto|lia].
  - intros k [m0 off] Hk (Eo & W & Hh). simpl in Eo, W, Hh. subst off. unfold F0.
    match goal with |- context [oloop 0 (tbk_nodes b) ?G m0] => assert (A : oadds (oloop 0 (tbk_nodes b) G) (fun x y => exists i, i < tbk_nodes b /\ exists j, j < tbk_nodes b /\
        exists u, u < dim /\ exists w, w < dim /\ (x = dof dim (nth (nth (k * tbk_nodes b + i) (tbk_conn b) 0) ids 0%Z) u /\ y = dof dim (nth (nth (k * tbk_nodes b + j) (tbk_conn b) 0) ids 0%Z) w))) end.
    { apply oloop_adds. intros i Hi. rewrite (@nth_ok _ (tbk_conn b) _ 0) by (apply Hin; lia). cbn [obind].
      rewrite (@nth_ok _ ids _ 0%Z) by (apply Hid; lia). cbn [obind].
      apply oloop_adds. intros j Hj. rewrite (@nth_ok _ (tbk_conn b) _ 0) by (apply Hin; lia). cbn [obind].
      rewrite (@nth_ok _ ids _ 0%Z) by (apply Hid; lia). cbn [obind].
      intros m1 W1. eexists. split; [reflexivity|].
      match goal with |- wf (floop 0 dim ?f m1) /\ _ => refine (@floop_adds dim f (fun u x y => exists w, w < dim /\ (x = dof dim (nth (nth (k * tbk_nodes b + i) (tbk_conn b) 0) ids 0%Z) u /\ y = dof dim (nth (nth (k * tbk_nodes b + j) (tbk_conn b) 0) ids 0%Z) w)) _ m1 W1) end.
      intros u Hu m3 W3.
      match goal with |- wf (floop 0 dim ?f m3) /\ _ => refine (@floop_adds dim f (fun w x y => x = dof dim (nth (nth (k * tbk_nodes b + i) (tbk_conn b) 0) ids 0%Z) u /\ y = dof dim (nth (nth (k * tbk_nodes b + j) (tbk_conn b) 0) ids 0%Z) w) _ m3 W3) end.
      intros w Hw' m2 W2. split; [now apply row_insert_wf|]. intros x y. rewrite row_insert_has. unfold dof. reflexivity. }
    destruct (A m0 W) as (m' & Em & W' & Hh'). rewrite Em. cbn [obind]. eexists. split; [reflexivity|]. simpl.
    split; [lia|]. split; auto. intros x y. rewrite Hh', Hh. clear Hh' Hh. split.
    + intros [[?|(e & He & H)]|(i & Hi & j & Hj & u & Hu & w & Hw & -> & ->)]; auto.
      * right. exists e. split; auto.
      * right. exists k. split; auto. unfold el. exists (nth (k * tbk_nodes b + i) (tbk_conn b) 0), (nth (k * tbk_nodes b + j) (tbk_conn b) 0), u, w.
        repeat split; auto; apply in_map_iff; [exists i|exists j]; (split; [auto|apply in_seq; lia]).
    + intros [?|(e & He & H)]; auto. destruct (Nat.eq_dec e k) as [->|N].
      * right. destruct H as (a & c & u & w & Ha & Hc' & Hu & Hw & -> & ->). unfold el in Ha, Hc'.
        apply in_map_iff in Ha as (i & <- & Hi). apply in_map_iff in Hc' as (j & <- & Hj). apply in_seq in Hi, Hj.
        exists i. split; [lia|]. exists j. split; [lia|]. exists u. split; auto. exists w. auto.
      * left. right. exists e. split; auto. lia.
  - rewrite E. cbn [obind]. eexists. split; [reflexivity|]. split; auto. intros x y. rewrite Hh. split.
    + intros [?|(e & He & H)]; auto. right. exists (el e). split; auto. unfold block_elems. apply in_map_iff. exists e. split; auto. apply in_seq. lia.
    + intros [?|(e & He & H)]; auto. right. unfold block_elems in He. apply in_map_iff in He as (k & <- & Hk). apply in_seq in Hk. exists k. split; auto. lia.
Qed.

Lemma blocks_adds dim ids blocks : Forall (block_ok ids) blocks ->
  oadds (ofold (fun m b => block_nonzeros dim ids b m) blocks) (coupled_dofs dim ids blocks).
Proof.
  intros H. induction H as [|b bs Hb Hbs IH]; intros m Hm; simpl.
  - exists m. split; auto. split; auto. intros x y. split; auto. intros [?|(b & ? & ? & ? & ? & ? & [] & _)]; auto.
  - destruct (@block_nonzeros_adds dim ids b Hb m Hm) as (m1 & E1 & W1 & H1). rewrite E1. cbn [obind].
    destruct (IH m1 W1) as (m2 & E2 & W2 & H2). exists m2. split; auto. split; auto. intros x y. rewrite H2, H1. unfold coupled_dofs. split.
    + intros [[?|(e & He & i & j & u & w & K)]|(b' & e & i & j & u & w & Hb' & K)]; auto.
      * right. exists b, e, i, j, u, w. simpl. intuition auto.
      * right. exists b', e, i, j, u, w. simpl. intuition auto.
    + intros [?|(b' & e & i & j & u & w & [<-|Hb'] & He & K)]; auto.
      * left. right. exists e. split; auto. exists i, j, u, w. exact K.
      * right. exists b', e, i, j, u, w. auto.
Qed.

Lemma isort_sorted l : StronglySorted Z.lt l -> isort Z.leb l = l.
Proof.
  induction 1 as [|a l Hl IH Ha]; simpl; auto. rewrite IH. destruct l as [|b l]; auto. simpl.
  inversion Ha; subst. destruct (Z.leb_spec a b); auto. lia.
Qed.
Lemma sorted_nodup l : StronglySorted Z.lt l -> NoDup l.
Proof.
  induction 1 as [|a l Hl IH Ha]; constructor; auto. intros C. rewrite Forall_forall in Ha. apply Ha in C. lia.
Qed.
Lemma assoc_sorted (m : list (Z * list Z)) r s : NoDup (map fst m) -> In (r, s) m -> assoc Z.eqb r m = Some s.
Proof.
  induction m as [|[r' s'] m IH]; simpl; [intros _ []|]. intros H [E|Hi].
  - injection E as -> ->. now rewrite Z.eqb_refl.
  - inversion H; subst. destruct (Z.eqb_spec r r') as [->|N]; auto. exfalso. apply H2. apply in_map_iff. exists (r', s). auto.
Qed.
Lemma omapM_all {A B} (f : A -> outcome B) (h : A -> B) l : (forall x, In x l -> f x = Ok (h x)) -> omapM f l = Ok (map h l).
Proof. exact (@omapM_map A B f h l). Qed.

Definition with_zeros (m : list (Z * list Z)) : list (Z * list (Z * R)) := map (fun e => (fst e, map (fun c => (c, 0%R)) (snd e))) m.
Lemma allocate_ok dim ids blocks : Forall (block_ok ids) blocks ->
  exists m, allocate_tangent dim ids blocks = Ok (with_zeros m) /\ wf m /\ forall x y, has m x y <-> coupled_dofs dim ids blocks x y.
Proof.
  intros Hb. unfold allocate_tangent.
  destruct (@blocks_adds dim ids blocks Hb []) as (m & E & W & H).
  { split; constructor. }
  rewrite E. cbn [obind]. exists m. split; [|split; auto].
  2:{ intros x y. rewrite H. split; auto. intros [(s & [] & _)|?]; auto. }
  pose proof (sorted_nodup (wf_rows W)) as Hn.
  rewrite (isort_sorted (wf_rows W)).
  rewrite (@omapM_all _ _ _ (fun e => length (match assoc Z.eqb e m with Some s => s | None => [] end))).
  2:{ intros e He. apply in_map_iff in He as ([r s] & <- & Hi). cbn [fst]. now rewrite (@assoc_sorted m r s Hn Hi). }
  cbn [obind]. apply omapM_all. intros [r s] Hi. cbn [fst snd].
  assert (Hr : In r (map fst m)) by (apply in_map_iff; exists (r, s); auto).
  destruct (@index_of_In r _ Hr) as (i & Ei). rewrite Ei. destruct (@index_of_Some _ _ _ Ei) as (Li & En).
  unfold vget. rewrite (@map_nth_error _ _ (fun e => length (match assoc Z.eqb e m with Some s => s | None => [] end)) i (map fst m) r).
  - cbn [obind]. rewrite (@assoc_sorted m r s Hn Hi). now rewrite Nat.leb_refl.
  - rewrite <- En. apply nth_error_nth'. auto.
Qed.

Lemma entries_with_zeros m x y : In (x, y) (entries_of (with_zeros m)) <-> has m x y.
Proof.
  unfold entries_of, with_zeros, has. rewrite in_flat_map. split.
  - intros (e & He & H). apply in_map_iff in He as ([r s] & <- & Hi). simpl in H. rewrite map_map in H. simpl in H.
    apply in_map_iff in H as (c & E & Hc). injection E as <- <-. eauto.
  - intros (s & Hi & Hc). exists (x, map (fun c => (c, 0%R)) s). split.
    + apply in_map_iff. exists (x, s). auto.
    + simpl. rewrite map_map. simpl. apply in_map_iff. eauto.
Qed.
Lemma NoDup_entries m : wf m -> NoDup (entries_of (with_zeros m)).
Proof.
  intros [R C]. unfold entries_of, with_zeros. induction m as [|[r s] m IH]; simpl; [constructor|].
  inversion R as [|? ? R1 R2]; subst. inversion C as [|? ? C1 C2]; subst. simpl in C1.
  rewrite map_map. simpl.
  assert (NA : forall A (l l' : list A), NoDup l -> NoDup l' -> (forall x, In x l -> ~ In x l') -> NoDup (l ++ l')).
  { intros A l l'. induction l as [|a l IHl]; simpl; auto. intros H H' D. inversion H; subst. constructor.
    - rewrite in_app_iff. intros [K|K]; auto. apply (D a); auto.
    - apply IHl; auto. }
  apply NA; auto.
  - apply FinFun.Injective_map_NoDup; [intros a b; congruence|]. now apply sorted_nodup.
  - intros [a b] H K. apply in_map_iff in H as (c & E & _). injection E as <- <-.
    assert (Hh : has m r c) by (apply entries_with_zeros; exact K).
    destruct Hh as (s' & Hs & _). rewrite Forall_forall in R2. specialize (R2 r).
    assert (In r (map fst m)) by (apply in_map_iff; exists (r, s'); auto). apply R2 in H. lia.
Qed.
Lemma num_nonzeros_entries a : num_nonzeros a = length (entries_of a).
Proof.
  unfold num_nonzeros, entries_of. induction a as [|e a IH]; simpl; auto. now rewrite app_length, map_length, IH.
Qed.
