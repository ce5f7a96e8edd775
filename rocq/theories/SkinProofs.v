(** Proofs about SkinBlocks. *)
From Verif Require Import Base ListLemmas SkinModel SkinSpec.
From Coq Require Import Permutation Sorted.
Set Implicit Arguments.
Local Open Scope Z_scope.

(** ** Keys *)
Lemma key_eqb_eq a b : key_eqb a b = true <-> a = b.
Proof.
  revert b; induction a as [|x a IH]; intros [|y b]; simpl; split; intros H; try discriminate; auto.
  - apply andb_true_iff in H as [H1 H2]. apply Z.eqb_eq in H1. apply IH in H2. congruence.
  - injection H as -> ->. rewrite Z.eqb_refl. apply IH. reflexivity.
Qed.
Lemma key_eqb_refl a : key_eqb a a = true.
Proof. now apply key_eqb_eq. Qed.
Lemma key_eqb_neq a b : key_eqb a b = false <-> a <> b.
Proof. rewrite <- key_eqb_eq. destruct (key_eqb a b); intuition congruence. Qed.
Lemma lex_irrefl a : lex_lt a a = false.
Proof. induction a as [|x a IH]; simpl; auto. rewrite Z.ltb_irrefl, Z.eqb_refl, IH. reflexivity. Qed.
Lemma lex_trans a b c : lex_lt a b = true -> lex_lt b c = true -> lex_lt a c = true.
Proof.
  revert b c; induction a as [|x a IH]; intros [|y b] [|z c]; simpl; intros H1 H2; try discriminate; auto.
  apply orb_true_iff in H1. apply orb_true_iff in H2. apply orb_true_iff.
  destruct H1 as [H1|H1], H2 as [H2|H2].
  - left. lia.
  - apply andb_true_iff in H2 as [H2 _]. left. lia.
  - apply andb_true_iff in H1 as [H1 _]. left. lia.
  - apply andb_true_iff in H1 as [H1 H1']. apply andb_true_iff in H2 as [H2 H2']. right. apply andb_true_iff. split; [lia|]. eapply IH; eauto.
Qed.
Lemma lex_total a b : lex_lt a b = false -> key_eqb a b = false -> lex_lt b a = true.
Proof.
  revert b; induction a as [|x a IH]; intros [|y b]; simpl; intros H1 H2; try discriminate; auto.
  apply orb_false_iff in H1 as [H1 H1']. apply orb_true_iff.
  destruct (x =? y) eqn:E; simpl in *.
  - right. apply andb_true_iff. split; [lia|]. apply IH; auto.
  - left. lia.
Qed.

Section KMap.
  Context {V : Type}.
  Notation kmap := (list (list Z * V)).
  Definition ksorted (m : kmap) : Prop := StronglySorted (fun a b => lex_lt (fst a) (fst b) = true) m.
  Lemma assoc_put_same k v (m : kmap) : assoc key_eqb k (kmap_put k v m) = Some v.
  Proof.
    induction m as [|[k' v'] m IH]; simpl; [now rewrite key_eqb_refl|].
    destruct (lex_lt k k') eqn:E; simpl; [now rewrite key_eqb_refl|].
    destruct (key_eqb k k') eqn:E2; simpl; [now rewrite key_eqb_refl|]. rewrite E2. exact IH.
  Qed.
  Lemma assoc_put_other k v k2 (m : kmap) : k2 <> k -> assoc key_eqb k2 (kmap_put k v m) = assoc key_eqb k2 m.
  Proof.
    intros N. apply key_eqb_neq in N. induction m as [|[k' v'] m IH]; simpl; [now rewrite N|].
    destruct (lex_lt k k') eqn:E; simpl; [now rewrite N|].
    destruct (key_eqb k k') eqn:E2; simpl.
    - apply key_eqb_eq in E2. subst k'. now rewrite N.
    - now rewrite IH.
  Qed.
  Lemma put_in k v (m : kmap) p : In p (kmap_put k v m) -> p = (k, v) \/ In p m.
  Proof.
    induction m as [|[k' v'] m IH]; simpl; [intuition|].
    destruct (lex_lt k k'); simpl; [intuition|]. destruct (key_eqb k k'); simpl; [intuition|]. intuition.
  Qed.
  Lemma put_sorted k v (m : kmap) : ksorted m -> ksorted (kmap_put k v m).
  Proof.
    unfold ksorted. induction m as [|[k' v'] m IH]; simpl; intros H; [repeat constructor|].
    inversion H as [|? ? Hs Hf]; subst. rewrite Forall_forall in Hf.
    destruct (lex_lt k k') eqn:E; simpl.
    - constructor; [exact H|]. constructor; [exact E|]. apply Forall_forall. intros p Hp. exact (lex_trans _ _ _ E (Hf p Hp)).
    - destruct (key_eqb k k') eqn:E2; simpl.
      + apply key_eqb_eq in E2. subst k'. constructor; [exact Hs|]. apply Forall_forall. intros p Hp. apply (Hf p Hp).
      + constructor; [now apply IH|]. apply Forall_forall. intros p Hp. apply put_in in Hp as [->|Hp]; [now apply lex_total|now apply Hf].
  Qed.
  Lemma assoc_in k v (m : kmap) : ksorted m -> (In (k, v) m <-> assoc key_eqb k m = Some v).
  Proof.
    unfold ksorted. induction m as [|[k' v'] m IH]; simpl; intros H; [split; [tauto|discriminate]|].
    inversion H as [|? ? Hs Hf]; subst. rewrite Forall_forall in Hf. destruct (key_eqb k k') eqn:E.
    - apply key_eqb_eq in E. subst k'. split.
      + intros [I|I]; [now injection I as <-|]. apply Hf in I. simpl in I. rewrite lex_irrefl in I. discriminate.
      + intros I. injection I as ->. now left.
    - rewrite <- IH by assumption. split; [intros [I|I]; [|exact I]|auto]. injection I as -> ->. rewrite key_eqb_refl in E. discriminate.
  Qed.
End KMap.

(** ** Sorted keys and faces *)
Lemma sorted_perm_eq (a b : list Z) : StronglySorted Z.le a -> StronglySorted Z.le b -> Permutation a b -> a = b.
Proof.
  revert b; induction a as [|x a IH]; intros b Ha Hb P; [apply Permutation_nil in P; auto|].
  destruct b as [|y b]; [apply Permutation_sym, Permutation_nil in P; discriminate|].
  inversion Ha as [|? ? Ha1 Ha2]; subst. inversion Hb as [|? ? Hb1 Hb2]; subst. rewrite Forall_forall in Ha2, Hb2.
  assert (x = y).
  { assert (In y (x :: a)) by (apply Permutation_in with (1 := Permutation_sym P); now left).
    assert (In x (y :: b)) by (apply Permutation_in with (1 := P); now left).
    destruct H as [|H]; auto. destruct H0 as [|H0]; auto. specialize (Ha2 _ H). specialize (Hb2 _ H0). lia. }
  subst y. f_equal. apply IH; auto. eapply Permutation_cons_inv; eauto.
Qed.
Lemma isort_le l : StronglySorted Z.le (isort Z.leb l).
Proof.
  pose proof (@isort_sorted Z Z.leb) as H. 
  assert (G : StronglySorted (fun x y => Z.leb x y = true) (isort Z.leb l)) by (apply H; intros; lia).
  clear H. induction G; constructor; auto. eapply Forall_impl; [|eassumption]. simpl. intros; lia.
Qed.
Lemma isort_key a b : isort Z.leb a = isort Z.leb b <-> Permutation a b.
Proof.
  split; intros H.
  - eapply perm_trans; [apply (isort_perm Z.leb)|]. rewrite H. symmetry. apply isort_perm.
  - apply sorted_perm_eq; try apply isort_le. eapply perm_trans; [symmetry; apply isort_perm|]. eapply perm_trans; [exact H|]. apply isort_perm.
Qed.
Definition skey (s : hex * nat) : list Z := isort Z.leb (nodes_of s).
Lemma skey_same s t : skey s = skey t <-> same_face s t.
Proof. apply isort_key. Qed.

(** ** The loops add one side after another *)
Definition put_side (m : list (list Z * face_value)) (s : hex * nat) : list (list Z * face_value) :=
  match assoc key_eqb (skey s) m with
  | None => kmap_put (skey s) (FV 1 (nodes_of s) (fst (fst s) + 1) (Z.of_nat (snd s))) m
  | Some v => kmap_put (skey s) (FV (fv_count v + 1) (fv_nodes v) (fv_elem v) (fv_ordinal v)) m
  end.
Lemma conn_at (block : list hex) i c e : hexes block -> nth_error block i = Some e -> (c < 8)%nat ->
  nth_error (concat (map snd block)) (i * 8 + c) = Some (nth c (snd e) 0).
Proof.
  unfold hexes. revert i; induction block as [|b block IH]; intros i H E Hc; [destruct i; discriminate|].
  inversion H as [|? ? Hb H']; subst. destruct i as [|i]; cbn [nth_error] in E; cbn [map concat].
  - injection E as ->. change (0 * 8 + c)%nat with c. rewrite nth_error_app1 by lia. apply nth_error_nth'. lia.
  - rewrite nth_error_app2 by lia. replace (S i * 8 + c - length (snd b))%nat with (i * 8 + c)%nat by lia. now apply IH.
Qed.
Lemma add_faces block i e m : hexes block -> nth_error block i = Some e ->
  ofold (add_face (concat (map snd block)) (i * 8) (fst e + 1)) face_corners m = Ok (fold_left put_side (map (fun o => (e, o)) (seq 0 6)) m).
Proof.
  intros H E. pose proof (@conn_at block i) as C.
  assert (C' : forall c, (c < 8)%nat -> vget (concat (map snd block)) (i * 8 + c) = Ok (nth c (snd e) 0)).
  { intros c Hc. unfold vget. now rewrite (C c e H E Hc). }
  unfold face_corners. cbn [ofold seq map fold_left].
  assert (A : forall o cs m, Forall (fun c => (c < 8)%nat) cs -> map (fun c => nth c (snd e) 0) cs = side o e ->
     add_face (concat (map snd block)) (i * 8) (fst e + 1) m (Z.of_nat o, cs) = Ok (put_side m (e, o))).
  { intros o cs m' Hcs Hn. unfold add_face. rewrite (@omapM_ok _ _ _ (fun c => nth c (snd e) 0)).
    - cbn [obind]. rewrite Hn. reflexivity.
    - intros c Hc. rewrite Forall_forall in Hcs. apply C'. auto. }
  rewrite (A 0%nat [0; 1; 5; 4]%nat) by (reflexivity || (repeat constructor; lia)). cbn [obind].
  rewrite (A 1%nat [1; 2; 6; 5]%nat) by (reflexivity || (repeat constructor; lia)). cbn [obind].
  rewrite (A 2%nat [2; 3; 7; 6]%nat) by (reflexivity || (repeat constructor; lia)). cbn [obind].
  rewrite (A 3%nat [0; 4; 7; 3]%nat) by (reflexivity || (repeat constructor; lia)). cbn [obind].
  rewrite (A 4%nat [0; 3; 2; 1]%nat) by (reflexivity || (repeat constructor; lia)). cbn [obind].
  rewrite (A 5%nat [4; 5; 6; 7]%nat) by (reflexivity || (repeat constructor; lia)). cbn [obind]. reflexivity.
Qed.
Lemma skin_block_ok block m : hexes block -> skin_block m (stored block) = Ok (fold_left put_side (sides block) m).
Proof.
  intros H. unfold skin_block, stored. cbn [hb_num_elem hb_conn hb_num_node_per_elem hb_global_ids].
  assert (G : forall pre post m, block = pre ++ post ->
    ofold (fun faces i_elem => do gid <- vget (map fst block) i_elem; ofold (add_face (concat (map snd block)) (i_elem * 8) (gid + 1)) face_corners faces)
      (seq (length pre) (length post)) m = Ok (fold_left put_side (sides post) m)).
  { intros pre post; revert pre; induction post as [|e post IH]; intros pre m' E; [reflexivity|].
    cbn [length seq ofold].
    assert (N : nth_error block (length pre) = Some e) by (rewrite E, nth_error_app2, Nat.sub_diag by lia; reflexivity).
    assert (G : vget (map fst block) (length pre) = Ok (fst e)) by (unfold vget; rewrite (map_nth_error fst _ _ N); reflexivity).
    rewrite G. cbn [obind].
    rewrite (@add_faces block (length pre) e m' H N). cbn [obind].
    replace (S (length pre)) with (length (pre ++ [e])) by (rewrite app_length; simpl; lia).
    rewrite (IH (pre ++ [e])) by (rewrite <- app_assoc; exact E).
    unfold sides. cbn [flat_map]. rewrite fold_left_app. reflexivity. }
  exact (G [] block m eq_refl).
Qed.
Lemma all_blocks_ok blocks m : Forall hexes blocks -> ofold skin_block (map stored blocks) m = Ok (fold_left put_side (sides (concat blocks)) m).
Proof.
  revert m; induction blocks as [|b blocks IH]; intros m H; [reflexivity|]. inversion H; subst.
  cbn [map ofold]. rewrite skin_block_ok by assumption. cbn [obind]. rewrite IH by assumption.
  unfold sides at 3. cbn [concat]. rewrite flat_map_app, fold_left_app. reflexivity.
Qed.

(** ** The map counts the sides *)
Definition with_key (l : list (hex * nat)) (k : list Z) := filter (fun s => key_eqb (skey s) k) l.
Definition counted (l : list (hex * nat)) (k : list Z) : option face_value :=
  match with_key l k with
  | [] => None
  | s :: r => Some (FV (Z.of_nat (S (length r))) (nodes_of s) (fst (fst s) + 1) (Z.of_nat (snd s)))
  end.
Lemma fold_counts l : let m := fold_left put_side l [] in ksorted m /\ forall k, assoc key_eqb k m = counted l k.
Proof.
  cbv zeta. induction l as [|s l IH] using rev_ind; [split; [constructor|reflexivity]|].
  rewrite fold_left_app. cbn [fold_left]. destruct IH as [IH1 IH2]. set (m := fold_left put_side l []) in *.
  unfold put_side. rewrite IH2. split.
  - destruct (counted l (skey s)); now apply put_sorted.
  - intros k. unfold counted, with_key in *. rewrite filter_app. cbn [filter].
    destruct (key_eqb (skey s) k) eqn:E.
    + apply key_eqb_eq in E. subst k. destruct (filter (fun s0 => key_eqb (skey s0) (skey s)) l) as [|t r] eqn:F; simpl.
      * apply assoc_put_same.
      * rewrite assoc_put_same. rewrite app_length. simpl. f_equal. f_equal. lia.
    + rewrite app_nil_r. apply key_eqb_neq in E.
      assert (k <> skey s) by congruence.
      destruct (filter (fun s0 => key_eqb (skey s0) (skey s)) l); rewrite assoc_put_other by assumption; apply IH2.
Qed.

(** ** Entity ids *)
Lemma lor_low a b k : 0 <= k -> 0 <= b < 2 ^ k -> Z.lor (a * 2 ^ k) b = a * 2 ^ k + b.
Proof.
  intros Hk Hb.
  assert (L : Z.land (a * 2 ^ k) b = 0).
  { apply Z.bits_inj'. intros n Hn. rewrite Z.land_spec, Z.bits_0. destruct (Z.lt_ge_cases n k).
    - now rewrite Z.mul_pow2_bits_low.
    - rewrite <- (Z.mod_small b (2 ^ k)) by lia. rewrite Z.mod_pow2_bits_high by lia. apply andb_false_r. }
  rewrite <- Z.lxor_lor by exact L. symmetry. now apply Z.add_nocarry_lxor.
Qed.
Lemma entity_id_ok v e o offset s : fv_elem v = fst e + 1 -> fv_ordinal v = Z.of_nat o -> s = (e, o) -> (o < 6)%nat ->
  0 <= fst e + 1 + offset -> 32 * (fst e + 1 + offset) + 32 <= 2147483648 -> entity_id_of v offset = Ok (side_id offset s).
Proof.
  intros Hv Ho -> Hlt H1 H2. unfold entity_id_of, INT_LIMIT. rewrite Hv, Ho.
  destruct (0 <=? fst e + 1 + offset) eqn:E1; [|lia]. destruct ((fst e + 1 + offset) * 32 <? 2147483648) eqn:E2; [|lia]. cbn [andb].
  f_equal. rewrite Z.lor_0_r. rewrite !Z.shiftl_mul_pow2 by lia. change (2 ^ 2) with 4. 
  rewrite lor_low; [|lia|change (2 ^ 5) with 32; lia]. unfold side_id. cbn [fst snd]. change (2 ^ 5) with 32. lia.
Qed.

(** ** The output loop *)
Lemma in_sides s es : In s (sides es) -> In (fst s) es /\ (snd s < 6)%nat.
Proof.
  unfold sides. rewrite in_flat_map. intros (e & He & Hs). apply in_map_iff in Hs as (o & <- & Ho). apply in_seq in Ho. simpl. split; [assumption|lia].
Qed.
Lemma with_key_in l k s : In s (with_key l k) <-> In s l /\ skey s = k.
Proof. unfold with_key. rewrite filter_In, key_eqb_eq. reflexivity. Qed.

Section Output.
  Variables (offset : Z) (es : list hex).
  Hypothesis fit : ids_fit offset es.
  Let l := sides es.
  Let m := fold_left put_side l [].
  (** the first side stored under a key of the map *)
  Lemma entry k v : In (k, v) m -> exists s r, with_key l k = s :: r /\ v = FV (Z.of_nat (S (length r))) (nodes_of s) (fst (fst s) + 1) (Z.of_nat (snd s)).
  Proof.
    destruct (fold_counts l) as [S1 S2]. fold m in S1, S2. intros H. apply (assoc_in _ _ S1) in H. rewrite S2 in H. unfold counted in H.
    destruct (with_key l k) as [|s r]; [discriminate|]. injection H as <-. eauto.
  Qed.
  Lemma entry_id k v s r : with_key l k = s :: r -> v = FV (Z.of_nat (S (length r))) (nodes_of s) (fst (fst s) + 1) (Z.of_nat (snd s)) ->
    entity_id_of v offset = Ok (side_id offset s).
  Proof.
    intros E ->. assert (In s l) by (apply (with_key_in l k); rewrite E; now left).
    apply in_sides in H as [H1 H2]. unfold ids_fit in fit. rewrite Forall_forall in fit. destruct (fit _ H1).
    destruct s as [e o]. apply (@entity_id_ok _ e o); auto.
  Qed.
  Definition out_step := fun (acc : list (list Z) * list Z) (face : list Z * face_value) =>
           let v := snd face in
           if fv_count v =? 1 then
             do id <- entity_id_of v offset;
             Ok (fst acc ++ [fv_nodes v], snd acc ++ [id])
           else if negb (fv_count v =? 2) then Abort
           else Ok acc.
  (** what the loop collects from a piece of the map *)
  Definition lone_of (k : list Z) : list (hex * nat) := match with_key l k with [s] => [s] | _ => [] end.
  Lemma output_piece : forall p acc, incl p m ->
    (Forall (fun kv => (length (with_key l (fst kv)) <= 2)%nat) p ->
      ofold out_step p acc = Ok (fst acc ++ map nodes_of (flat_map (fun kv => lone_of (fst kv)) p), snd acc ++ map (side_id offset) (flat_map (fun kv => lone_of (fst kv)) p))) /\
    (Exists (fun kv => (3 <= length (with_key l (fst kv)))%nat) p -> ofold out_step p acc = Abort).
  Proof.
    induction p as [|[k v] p IH]; intros acc Hp.
    - split; [intros _; simpl; rewrite !app_nil_r; now destruct acc|intros H; inversion H].
    - assert (Hkv : In (k, v) m) by (apply Hp; now left). destruct (@entry k v Hkv) as (s & r & E & Ev).
      assert (Hp' : incl p m) by (intros x Hx; apply Hp; now right).
      cbn [ofold]. unfold out_step at 1 3. cbn [snd fst].
      assert (Ec : fv_count v = Z.of_nat (S (length r))) by (now rewrite Ev).
      assert (En : fv_nodes v = nodes_of s) by (now rewrite Ev).
      rewrite (@entry_id k v s r E Ev). cbn [obind].
      destruct (Z.eqb_spec (fv_count v) 1) as [E1|E1]; [|destruct (Z.eqb_spec (fv_count v) 2) as [E2|E2]]; cbn [negb].
      + assert (r = []) by (apply length_zero_iff_nil; lia). subst r. cbn [obind].
        destruct (IH (fst acc ++ [fv_nodes v], snd acc ++ [side_id offset s]) Hp') as [IH1 IH2].
        split; intros H; inversion H; subst; cbn [fst] in *.
        * rewrite IH1 by assumption. cbn [fst snd flat_map]. assert (Lk : lone_of k = [s]) by (unfold lone_of; rewrite E; reflexivity). rewrite Lk, En. rewrite <- !app_assoc. reflexivity.
        * rewrite E in *. simpl in *. lia.
        * now apply IH2.
      + assert (Hr : exists t, r = [t]) by (destruct r as [|t [|u r]]; simpl in Ec; try lia; eauto). destruct Hr as [t ->]. cbn [obind].
        destruct (IH acc Hp') as [IH1 IH2].
        split; intros H; inversion H; subst; cbn [fst] in *.
        * rewrite IH1 by assumption. cbn [flat_map fst]. assert (Lk : lone_of k = []) by (unfold lone_of; rewrite E; reflexivity). rewrite Lk. reflexivity.
        * rewrite E in *. simpl in *. lia.
        * now apply IH2.
      + cbn [obind]. split; intros H; [|reflexivity]. exfalso. inversion H; subst. cbn [fst] in *. rewrite E in *. simpl in *. lia.
  Qed.
  Lemma key_in_map s : In s l -> exists v, In (skey s, v) m.
  Proof.
    intros H. destruct (fold_counts l) as [S1 S2]. fold m in S1, S2.
    assert (In s (with_key l (skey s))) by (apply with_key_in; auto).
    destruct (with_key l (skey s)) as [|t r] eqn:E; [contradiction|].
    eexists. apply (assoc_in _ _ S1). rewrite S2. unfold counted. rewrite E. reflexivity.
  Qed.
End Output.

(** with_key and splitting of the list *)
Lemma with_key_one l k s : with_key l k = [s] <-> skey s = k /\ exists a b, l = a ++ s :: b /\ forall t, In t (a ++ b) -> skey t <> k.
Proof.
  unfold with_key. split.
  - intros H. split.
    + assert (In s (filter (fun s0 => key_eqb (skey s0) k) l)) by (rewrite H; now left). apply filter_In in H0. now apply key_eqb_eq.
    + induction l as [|x l IH]; simpl in H; [discriminate|]. destruct (key_eqb (skey x) k) eqn:E.
      * injection H as -> H. exists [], l. split; [reflexivity|]. intros t Ht Hk. simpl in Ht.
        assert (In t (filter (fun s0 => key_eqb (skey s0) k) l)) by (apply filter_In; split; [assumption|now apply key_eqb_eq]). rewrite H in H0. contradiction.
      * destruct (IH H) as (a & b & -> & Hab). exists (x :: a), b. split; [reflexivity|]. intros t [<-|Ht]; [now apply key_eqb_neq|now apply Hab].
  - intros (Hk & a & b & -> & Hab). rewrite filter_app. cbn [filter]. rewrite Hk, key_eqb_refl.
    assert (Z : forall c, (forall t, In t c -> skey t <> k) -> filter (fun s0 => key_eqb (skey s0) k) c = []).
    { induction c as [|x c IH]; intros H; [reflexivity|]. simpl. replace (key_eqb (skey x) k) with false by (symmetry; apply key_eqb_neq; apply H; now left). apply IH. intros; apply H; now right. }
    rewrite !Z; [reflexivity| |]; intros t Ht; apply Hab; apply in_app_iff; auto.
Qed.
Lemma with_key_three l : (exists k, (3 <= length (with_key l k))%nat) <-> triple_side l.
Proof.
  unfold triple_side, with_key. split.
  - intros [k H].
    assert (F : forall l, (1 <= length (filter (fun s0 => key_eqb (skey s0) k) l))%nat -> exists a s b, l = a ++ s :: b /\ skey s = k /\ length (filter (fun s0 => key_eqb (skey s0) k) b) = (length (filter (fun s0 => key_eqb (skey s0) k) l) - 1)%nat).
    { clear. induction l as [|x l IH]; simpl; intros H; [lia|]. destruct (key_eqb (skey x) k) eqn:E.
      - exists [], x, l. split; [reflexivity|]. split; [now apply key_eqb_eq|]. simpl. lia.
      - destruct (IH H) as (a & s & b & -> & Hs & Hb). exists (x :: a), s, b. auto. }
    destruct (F l ltac:(lia)) as (l1 & a & r1 & -> & Ha & L1). 
    destruct (F r1 ltac:(lia)) as (l2 & b & r2 & -> & Hb & L2).
    destruct (F r2 ltac:(lia)) as (l3 & c & r3 & -> & Hc & L3).
    exists l1, a, l2, b, l3, c, r3. split; [reflexivity|]. split; apply skey_same; congruence.
  - intros (l1 & a & l2 & b & l3 & c & l4 & -> & H1 & H2). apply skey_same in H1. apply skey_same in H2.
    exists (skey a). rewrite filter_app. cbn [filter]. rewrite key_eqb_refl, filter_app. cbn [filter]. rewrite <- H1, key_eqb_refl, filter_app. cbn [filter].
    rewrite <- H2, <- H1, key_eqb_refl. rewrite !app_length. simpl. rewrite !app_length. simpl. rewrite app_length. simpl. lia.
Qed.

(** Sums over the sides, grouped by key *)
Notation zsum f l := (fold_right Z.add 0 (map f l)).
Lemma zsum_app {A} (f : A -> Z) a b : zsum f (a ++ b) = zsum f a + zsum f b.
Proof. rewrite map_app, fold_right_app. induction a as [|x a IH]; simpl; [lia|]. rewrite IH. lia. Qed.
Lemma group_sum (f : hex * nat -> Z) l ks : NoDup ks -> (forall s, In s l -> In (skey s) ks) ->
  zsum f l = zsum (fun k => zsum f (with_key l k)) ks.
Proof.
  intros Hn. induction l as [|s l IH]; intros H.
  - simpl. clear. induction ks; simpl; auto.
  - cbn [map fold_right]. rewrite IH by (intros; apply H; now right).
    assert (E : forall ks, NoDup ks -> zsum (fun k => zsum f (with_key (s :: l) k)) ks = zsum (fun k => zsum f (with_key l k)) ks + (if in_dec (list_eq_dec Z.eq_dec) (skey s) ks then f s else 0)).
    { clear. induction ks as [|k ks IH]; intros Hn; [reflexivity|]. inversion Hn as [|? ? N1 N2]; subst. cbn [map fold_right]. rewrite (IH N2).
      unfold with_key at 1. cbn [filter]. fold (with_key l k). destruct (key_eqb (skey s) k) eqn:E.
      - apply key_eqb_eq in E. cbn [map fold_right]. fold (with_key l k).
        destruct (in_dec _ (skey s) ks) as [X|X]; [rewrite E in X; contradiction|]. destruct (in_dec _ (skey s) (k :: ks)) as [Y|Y]; [|exfalso; apply Y; left; congruence]. unfold with_key. lia.
      - apply key_eqb_neq in E. destruct (in_dec _ (skey s) ks) as [X|X], (in_dec _ (skey s) (k :: ks)) as [Y|Y]; unfold with_key; try lia; exfalso; [apply Y; now right|destruct Y as [Y|Y]; [congruence|contradiction]]. }
    rewrite E by assumption. destruct (in_dec _ (skey s) ks) as [|X]; [lia|exfalso; apply X; apply H; now left].
Qed.
Lemma zsum_flat_map {A B} (f : B -> Z) (g : A -> list B) l : zsum f (flat_map g l) = zsum (fun a => zsum f (g a)) l.
Proof. induction l as [|a l IH]; [reflexivity|]. cbn [flat_map map fold_right]. rewrite zsum_app. rewrite IH. reflexivity. Qed.
Lemma even_sum_ext {A} (f g : A -> Z) l : (forall x, In x l -> Z.even (f x) = Z.even (g x)) -> Z.even (zsum f l) = Z.even (zsum g l).
Proof. induction l as [|x l IH]; intros H; [reflexivity|]. cbn [map fold_right]. rewrite !Z.even_add. rewrite H by now left. rewrite IH; [reflexivity|]. intros; apply H; now right. Qed.
Lemma ksorted_nodup {V} (m : list (list Z * V)) : ksorted m -> NoDup (map fst m).
Proof.
  unfold ksorted. induction m as [|[k v] m IH]; intros H; [constructor|]. inversion H as [|? ? H1 H2]; subst. cbn [map fst]. constructor; [|now apply IH].
  intros Hin. apply in_map_iff in Hin as ([k' v'] & E & Hin). cbn [fst] in E. subst k'. rewrite Forall_forall in H2. specialize (H2 _ Hin). cbn [fst] in H2. rewrite lex_irrefl in H2. discriminate.
Qed.
Lemma parity_of_skin es f : ~ triple_side (sides es) -> (forall s t, In s (sides es) -> In t (sides es) -> same_face s t -> f s = f t) ->
  Z.even (zsum f (flat_map (fun kv : list Z * face_value => lone_of es (fst kv)) (fold_left put_side (sides es) []))) = Z.even (zsum f (sides es)).
Proof.
  intros HT Hf. destruct (fold_counts (sides es)) as [S1 S2]. set (m := fold_left put_side (sides es) []) in *. cbv zeta in S1, S2. fold m in S1, S2.
  rewrite (@group_sum f (sides es) (map fst m)).
  - rewrite zsum_flat_map. rewrite map_map. apply even_sum_ext. intros [k v] _. cbn [fst]. unfold lone_of.
    destruct (with_key (sides es) k) as [|s [|t [|u r]]] eqn:E; [reflexivity|reflexivity| |].
    + cbn [map fold_right]. assert (f s = f t).
      { assert (A : In s (with_key (sides es) k)) by (rewrite E; now left). assert (B : In t (with_key (sides es) k)) by (rewrite E; right; now left).
        apply with_key_in in A as [A1 A]. apply with_key_in in B as [B1 B]. apply Hf; [assumption..|]. apply skey_same. congruence. }
      rewrite H. replace (f t + (f t + 0)) with (2 * f t) by lia. rewrite Z.even_mul. reflexivity.
    + exfalso. apply HT. apply with_key_three. exists k. rewrite E. simpl. lia.
  - now apply ksorted_nodup.
  - intros s Hs. destruct (@key_in_map es s Hs) as [v Hv]. apply in_map_iff. exists (skey s, v). auto.
Qed.

Lemma skin_main blocks offset : Forall hexes blocks -> ids_fit offset (concat blocks) ->
  let l := sides (concat blocks) in
  (triple_side l -> skin_blocks (map stored blocks) offset = Abort) /\
  (~ triple_side l -> exists skin, skin_blocks (map stored blocks) offset = Ok (map nodes_of skin, map (side_id offset) skin) /\
     NoDup (map skey skin) /\ (forall s, In s skin <-> lone_side l s) /\
     forall f, (forall s t, In s l -> In t l -> same_face s t -> f s = f t) -> Z.even (fold_right Z.add 0 (map f skin)) = Z.even (fold_right Z.add 0 (map f l))).
Proof.
  intros Hh Hf l. unfold skin_blocks. rewrite all_blocks_ok by assumption. cbn [obind]. fold l.
  change (fun (acc : list (list Z) * list Z) (face : list Z * face_value) => _) with (out_step offset).
  set (m := fold_left put_side l []).
  destruct (@output_piece offset (concat blocks) Hf m ([], []) (fun x H => H)) as [O1 O2].
  destruct (fold_counts l) as [S1 S2]. fold m in S1, S2.
  split.
  - intros HT. apply with_key_three in HT as [k Hk]. apply O2. apply Exists_exists.
    assert (exists s, In s (with_key l k)) as [s Hs] by (destruct (with_key l k) as [|s r]; [simpl in Hk; lia|exists s; now left]).
    apply with_key_in in Hs as [Hs <-]. destruct (@key_in_map (concat blocks) s Hs) as [v Hv].
    exists (skey s, v). split; [exact Hv|exact Hk].
  - intros HT. rewrite O1.
    2:{ apply Forall_forall. intros [k v] _. cbn [fst]. destruct (le_lt_dec (length (with_key l k)) 2) as [|L]; [assumption|]. exfalso. apply HT. apply with_key_three. exists k. exact L. }
    eexists. split; [reflexivity|]. split.
    + assert (G : forall p, ksorted p -> incl p m -> NoDup (map skey (flat_map (fun kv => lone_of (concat blocks) (fst kv)) p)) /\
          forall k, In k (map skey (flat_map (fun kv => lone_of (concat blocks) (fst kv)) p)) -> exists v, In (k, v) p).
      { unfold ksorted. induction p as [|[k v] p IH]; intros Hs Hi; [split; [constructor|simpl; tauto]|].
        inversion Hs as [|? ? Hs1 Hs2]; subst. rewrite Forall_forall in Hs2.
        destruct (IH Hs1 (fun x H => Hi x (or_intror H))) as [I1 I2].
        cbn [flat_map fst]. unfold lone_of at 1 3. fold l. destruct (with_key l k) as [|s [|t r]] eqn:E; cbn [app].
        - split; [exact I1|]. intros k' H'. destruct (I2 k' H') as [v' H2]. exists v'. now right.
        - apply with_key_one in E as [E _]. subst k. split.
          + cbn [map]. constructor; [|exact I1]. intros H'. destruct (I2 _ H') as [v' H2]. apply Hs2 in H2. cbn [fst] in H2. rewrite lex_irrefl in H2. discriminate.
          + intros k' [<-|H']; [exists v; now left|]. destruct (I2 k' H') as [v' H2]. exists v'. now right.
        - split; [exact I1|]. intros k' H'. destruct (I2 k' H') as [v' H2]. exists v'. now right. }
      apply (proj1 (G m S1 (fun x H => H))).
    + split; [|cbn [app]; intros f Hff; now apply parity_of_skin].
      intros s. cbn [app]. rewrite in_flat_map. unfold lone_side. split.
      * intros ([k v] & H & Hs). cbn [fst] in Hs. unfold lone_of in Hs. fold l in Hs.
        destruct (with_key l k) as [|s' [|t r]] eqn:E; [destruct Hs| |destruct Hs]. destruct Hs as [->|[]].
        apply with_key_one in E as (E & a & b & El & Hab). exists a, b. split; [exact El|]. intros t Ht Hsame. apply (Hab t Ht). rewrite <- E. now apply skey_same.
      * intros (a & b & El & Hab).
        assert (Hs : In s l) by (rewrite El; apply in_app_iff; right; now left).
        destruct (@key_in_map (concat blocks) s Hs) as [v Hv]. exists (skey s, v). split; [exact Hv|]. cbn [fst]. unfold lone_of. fold l.
        assert (E : with_key l (skey s) = [s]).
        { apply with_key_one. split; [reflexivity|]. exists a, b. split; [exact El|]. intros t Ht Hk. apply (Hab t Ht). now apply skey_same. }
        rewrite E. now left.
Qed.
