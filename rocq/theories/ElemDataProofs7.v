(** The copies around the material call. *)
From Verif Require Import Base ListLemmas Strings DataModel DataProofs Loops ElemDataModel ElemDataSpec ElemDataModel2 ElemDataProofs ElemDataProofs2 ElemDataProofs3.
From Coq Require Import NArith Permutation.
Set Implicit Arguments.
Local Open Scope nat_scope.
Local Open Scope list_scope.
Local Notation length := List.length.

Lemma places_nth nip n states mk i c : i < nip -> c < n -> nth_error (places nip n states mk) (i * n + c) = Some (slot states i (mk c)).
Proof.
  intros Hi Hc. unfold places. rewrite (@nth_error_flat_seq _ _ n nip i c); auto.
  - rewrite nth_error_map, nth_error_nth' with (d := 0) by now rewrite seq_length. rewrite seq_nth by auto. reflexivity.
  - intros k _. now rewrite map_length, seq_length.
Qed.
Lemma places_in nip n states mk o : In o (places nip n states mk) <-> exists i c, i < nip /\ c < n /\ o = slot states i (mk c).
Proof.
  unfold places. rewrite in_flat_map. split.
  - intros (i & Hi & H). apply in_map_iff in H as (c & <- & Hc). apply in_seq in Hi, Hc. exists i, c. repeat split; lia.
  - intros (i & c & Hi & Hc & ->). exists i. split; [apply in_seq; lia|]. apply in_map_iff. exists c. split; auto. apply in_seq; lia.
Qed.
Lemma places_nodup nip n states mk : (forall c, c < n -> valid states (mk c)) -> (forall c c', mk c = mk c' -> c = c') -> NoDup (places nip n states mk).
Proof.
  intros Hv Hinj. apply (proj2 (NoDup_nth_error _)). intros k k' Hk E. rewrite places_length in Hk.
  destruct (@flat_index nip n k Hk) as (i & c & Hi & Hc & ->).
  assert (Hk' : k' < nip * n).
  { rewrite <- (places_length nip n states mk). apply nth_error_Some. rewrite <- E. rewrite places_nth by auto. discriminate. }
  destruct (@flat_index nip n k' Hk') as (i' & c' & Hi' & Hc' & ->). rewrite !places_nth in E by auto. injection E as E.
  apply slot_inj in E as [-> E]; auto.
Qed.

Lemma list_nth_ext {A} (l m : list A) : (forall i, nth_error l i = nth_error m i) -> l = m.
Proof.
  revert m; induction l as [|a l IH]; intros [|b m] H; auto; try (specialize (H 0); discriminate).
  pose proof (H 0) as H0. cbn in H0. injection H0 as ->. f_equal. apply IH. intros i. exact (H (S i)).
Qed.
Section Copies.
  Context {T : Type}.
  Lemma copy_in_spec n e (c : list T) offs : (forall o, In o offs -> e * n + o < length c) ->
    exists l, copy_in n e c offs = Ok l /\ length l = length offs /\ forall i o, nth_error offs i = Some o -> nth_error l i = nth_error c (e * n + o).
  Proof.
    unfold copy_in. induction offs as [|o offs IH]; intros H; cbn [omapM].
    - exists []. split; [reflexivity|]. split; [reflexivity|]. intros [|i] o; discriminate.
    - destruct IH as (l & E & L & G); [intros; apply H; now right|].
      assert (Ho : e * n + o < length c) by (apply H; now left).
      destruct (nth_error c (e * n + o)) as [a|] eqn:Ea; [|apply nth_error_None in Ea; lia].
      rewrite (vget_some _ _ Ea). cbn [obind]. rewrite E. cbn [obind]. exists (a :: l). split; [reflexivity|]. split; [cbn; now rewrite L|].
      intros [|i] o' Hi; cbn in *; [congruence|auto].
  Qed.
  Lemma copy_out_spec n e offs (values c : list T) : NoDup offs -> (forall o, In o offs -> e * n + o < length c) -> length values = length offs ->
    exists c', copy_out n e offs values c = Ok c' /\ length c' = length c /\
      (forall i o, nth_error offs i = Some o -> nth_error c' (e * n + o) = nth_error values i) /\
      (forall k, (forall o, In o offs -> k <> e * n + o) -> nth_error c' k = nth_error c k).
  Proof.
    intros Hnd Hr L. unfold copy_out.
    destruct (@oloop_ind _ (fun m c' => length c' = length c /\
        (forall i o, i < m -> nth_error offs i = Some o -> nth_error c' (e * n + o) = nth_error values i) /\
        (forall k, (forall i o, i < m -> nth_error offs i = Some o -> k <> e * n + o) -> nth_error c' k = nth_error c k)) 0 (length offs)
      (fun i c => do o <- vget offs i; do v <- vget values i; vset c (e * n + o) v) c) as (c' & E & L' & H1 & H2); [lia| | |].
    - split; [reflexivity|]. split; [intros; lia|]. auto.
    - intros m c' Hm (L' & H1 & H2). destruct (nth_error offs m) as [o|] eqn:Eo; [|apply nth_error_None in Eo; lia].
      destruct (nth_error values m) as [v|] eqn:Ev; [|apply nth_error_None in Ev; lia].
      rewrite (vget_some _ _ Eo). cbn [obind]. rewrite (vget_some _ _ Ev). cbn [obind].
      pose proof (Hr o (nth_error_In _ _ Eo)) as Hlt. rewrite vset_ok by lia. eexists. split; [reflexivity|]. rewrite list_set_length. split; auto. split.
      + intros i o' Hi Ho'. rewrite nth_error_list_set. destruct (Nat.eqb_spec (e * n + o') (e * n + o)) as [Eq|Ne].
        * assert (o' = o) by lia. subst o'. assert (i = m).
          { apply (proj1 (NoDup_nth_error offs) Hnd); [apply nth_error_Some; congruence|congruence]. }
          subst i. destruct (Nat.ltb_spec (e * n + o) (length c')); [cbn; auto|lia].
        * cbn [andb]. assert (i <> m) by congruence. apply H1; auto. lia.
      + intros k Hk. rewrite nth_error_list_set. destruct (Nat.eqb_spec k (e * n + o)) as [->|Ne]; [exfalso; apply (Hk m o); auto|].
        cbn [andb]. apply H2. intros i o' Hi Ho'. apply (Hk i o'); auto.
    - exists c'. split; [exact E|]. split; auto. split.
      + intros i o Ho. apply H1; auto. apply nth_error_Some. congruence.
      + intros k Hk. apply H2. intros i o _ Ho. apply Hk. now apply nth_error_In in Ho.
  Qed.

  Variables (nip : nat) (states : list chars).
  Let n := per_element nip states.
  Let ns := length states.
  Definition good_offsets (o : offsets) : Prop :=
    o_def_grad o = places nip 9 states DefGrad /\ o_stress o = places nip 6 states Stress /\ o_state o = places nip ns states State.

  (** The cell of a quantity *)
  Lemma cell_lt ne e i q : e < ne -> i < nip -> valid states q -> e * n + slot states i q < ne * n.
  Proof. intros He Hi Hq. pose proof (@slot_lt _ _ _ _ Hi Hq). fold n in H. nia. Qed.
  Lemma cell_inj e i q e' i' q' : i < nip -> i' < nip -> valid states q -> valid states q' ->
    e * n + slot states i q = e' * n + slot states i' q' -> e = e' /\ i = i' /\ q = q'.
  Proof.
    intros Hi Hi' Hq Hq' E. apply flat_index_inj in E as [-> E]; [|apply slot_lt; auto|apply slot_lt; auto].
    apply slot_inj in E; auto.
  Qed.
  Lemma stored_ext ne (c c' : list T) : length c = ne * n -> length c' = ne * n ->
    (forall e i q, e < ne -> i < nip -> valid states q -> stored c nip states e i q = stored c' nip states e i q) -> c = c'.
  Proof.
    intros L L' H. apply list_nth_ext. intros k. destruct (Nat.lt_ge_cases k (ne * n)) as [Hk|Hk].
    - destruct (@flat_index ne n k Hk) as (e & j & He & Hj & ->). destruct (@slot_onto nip states j Hj) as (i & q & Hi & Hq & ->). apply (H e i q); auto.
    - rewrite !(proj2 (nth_error_None _ _)) by lia. reflexivity.
  Qed.

  Lemma copy_in_kind ne e (c : list T) m mk : length c = ne * n -> e < ne -> (forall k, k < m -> valid states (mk k)) ->
    exists l, copy_in n e c (places nip m states mk) = Ok l /\ length l = nip * m /\
      forall i k, i < nip -> k < m -> nth_error l (i * m + k) = stored c nip states e i (mk k).
  Proof.
    intros L He Hv. destruct (@copy_in_spec n e c (places nip m states mk)) as (l & E & Ll & H).
    - intros o Ho. apply places_in in Ho as (i & k & Hi & Hk & ->). rewrite L. apply cell_lt; auto.
    - exists l. split; [exact E|]. split; [now rewrite Ll, places_length|]. intros i k Hi Hk. rewrite (H _ _ (@places_nth _ _ states mk _ _ Hi Hk)). reflexivity.
  Qed.
  Lemma copy_out_kind ne e (values c : list T) m mk : length c = ne * n -> e < ne -> (forall k, k < m -> valid states (mk k)) -> (forall k k', mk k = mk k' -> k = k') ->
    length values = nip * m ->
    exists c', copy_out n e (places nip m states mk) values c = Ok c' /\ length c' = ne * n /\
      (forall i k, i < nip -> k < m -> stored c' nip states e i (mk k) = nth_error values (i * m + k)) /\
      (forall e' i q, i < nip -> valid states q -> (e' <> e \/ forall k, q <> mk k) -> stored c' nip states e' i q = stored c nip states e' i q).
  Proof.
    intros L He Hv Hinj Lv. destruct (@copy_out_spec n e (places nip m states mk) values c) as (c' & E & L' & H1 & H2).
    - now apply places_nodup.
    - intros o Ho. apply places_in in Ho as (i & k & Hi & Hk & ->). rewrite L. apply cell_lt; auto.
    - now rewrite places_length.
    - exists c'. split; [exact E|]. split; [lia|]. split.
      + intros i k Hi Hk. apply (H1 _ _ (@places_nth _ _ states mk _ _ Hi Hk)).
      + intros e' i q Hi Hq Hne. apply H2. intros o Ho Eq. apply places_in in Ho as (i' & k & Hi' & Hk & ->).
        apply cell_inj in Eq as (-> & -> & ->); auto. destruct Hne as [Hne|Hne]; [congruence|]. now apply (Hne k).
  Qed.

  Definition same_failure {A B} (a : outcome A) (b : outcome B) : Prop :=
    match a, b with Abort, Abort | Throw, Throw | UB, UB => True | _, _ => False end.
  Variable ne : nat.

  Lemma update_element_spec o (material : nat -> list T -> list T -> list T -> outcome (list T * list T * list T)) (data_n data : list T) e : good_offsets o -> length data_n = ne * n -> length data = ne * n -> e < ne ->
    exists f s v, full_size nip ns (f, s, v) /\
      (forall i q, i < nip -> valid states q -> given ns (f, s, v) i q = stored data_n nip states e i q) /\
      match material e f s v with
      | Ok r => full_size nip ns r -> exists c, update_element o n material data_n e data = Ok c /\ length c = ne * n /\
          (forall i q, i < nip -> valid states q -> stored c nip states e i q = given ns r i q) /\
          (forall e' i q, e' <> e -> i < nip -> valid states q -> stored c nip states e' i q = stored data nip states e' i q)
      | x => same_failure x (update_element o n material data_n e data)
      end.
  Proof.
    intros (O1 & O2 & O3) Ln Ld He. unfold update_element. rewrite O1, O2, O3.
    destruct (@copy_in_kind ne e data_n 9 DefGrad Ln He) as (f & Ef & Lf & Hf); [cbn; auto|].
    destruct (@copy_in_kind ne e data_n 6 Stress Ln He) as (s & Es & Ls & Hs); [cbn; auto|].
    destruct (@copy_in_kind ne e data_n ns State Ln He) as (v & Ev & Lv & Hv); [cbn; auto|].
    exists f, s, v. split; [cbn; auto|]. split.
    { intros i [c|c|k] Hi Hq; cbn [given valid] in *; auto. }
    rewrite Ef, Es, Ev. cbn [obind]. destruct (material e f s v) as [r| | |]; cbn [obind same_failure]; auto.
    destruct r as ((rf & rs) & rv). intros (L1 & L2 & L3).
    destruct (@copy_out_kind ne e rf data 9 DefGrad Ld He) as (c1 & E1 & M1 & A1 & B1); auto; [congruence|].
    destruct (@copy_out_kind ne e rs c1 6 Stress M1 He) as (c2 & E2 & M2 & A2 & B2); auto; [congruence|].
    destruct (@copy_out_kind ne e rv c2 ns State M2 He) as (c3 & E3 & M3 & A3 & B3); auto; [congruence|].
    exists c3. rewrite E1. cbn [obind]. rewrite E2. cbn [obind]. split; [exact E3|]. split; [exact M3|]. split.
    - intros i [c|c|k] Hi Hq; cbn [given valid] in *.
      + rewrite B3, B2, A1; auto; right; discriminate.
      + rewrite B3, A2; auto. right; discriminate.
      + rewrite A3; auto.
    - intros e' i q Hne Hi Hq. rewrite B3, B2, B1; auto.
  Qed.

  (** What element e of the container holds is what the material returned on data_n. *)
  Definition computed (material : nat -> list T -> list T -> list T -> outcome (list T * list T * list T)) (data_n c : list T) (e : nat) : Prop := exists f s v r,
    full_size nip ns (f, s, v) /\ (forall i q, i < nip -> valid states q -> given ns (f, s, v) i q = stored data_n nip states e i q) /\
    material e f s v = Ok r /\ full_size nip ns r /\ (forall i q, i < nip -> valid states q -> stored c nip states e i q = given ns r i q).
  (** The material succeeds with full results for the elements. *)
  Definition answers (material : nat -> list T -> list T -> list T -> outcome (list T * list T * list T)) : Prop :=
    forall e f s v, full_size nip ns (f, s, v) -> exists r, material e f s v = Ok r /\ full_size nip ns r.

  Lemma update_block_spec o material data_n order : good_offsets o -> answers material -> length data_n = ne * n ->
    (forall e, In e order -> e < ne) -> forall data, length data = ne * n ->
    exists c, update_block o n material data_n order data = Ok c /\ length c = ne * n /\
      (forall e, In e order -> computed material data_n c e) /\
      (forall e i q, ~ In e order -> i < nip -> valid states q -> stored c nip states e i q = stored data nip states e i q).
  Proof.
    intros Ho Ha Ln. unfold update_block. induction order as [|e order IH] using rev_ind; intros Hlt data Ld.
    - exists data. cbn. split; [reflexivity|]. split; [exact Ld|]. split; [intros e []|auto].
    - rewrite ofold_app. destruct (IH (fun x H => Hlt x (in_or_app _ _ _ (or_introl H))) data Ld) as (c & E & Lc & H1 & H2).
      rewrite E. cbn [obind ofold].
      assert (He : e < ne) by (apply Hlt, in_or_app; right; now left).
      destruct (@update_element_spec o material data_n c e Ho Ln Lc He) as (f & s & v & Hfull & Hgiv & Hm).
      destruct (Ha e f s v Hfull) as (r & Er & Hr). rewrite Er in Hm. destruct (Hm Hr) as (c' & Ec & Lc' & G1 & G2).
      rewrite Ec. cbn [obind]. exists c'. split; [reflexivity|]. split; [exact Lc'|]. split.
      + intros e' Hin. destruct (Nat.eq_dec e' e) as [->|Ne].
        * exists f, s, v, r. auto.
        * apply in_app_or in Hin as [Hin|[->|[]]]; [|congruence].
          destruct (H1 e' Hin) as (f' & s' & v' & r' & K1 & K2 & K3 & K4 & K5). exists f', s', v', r'. do 4 (split; [auto|]).
          intros i q Hi Hq. rewrite G2 by auto. auto.
      + intros e' i q Hn Hi Hq. rewrite G2; auto; [apply H2; auto|]; intros Hx; apply Hn, in_or_app; auto. right. now left.
  Qed.
  Lemma full_given_eq (a b : list T * list T * list T) : full_size nip ns a -> full_size nip ns b ->
    (forall i q, i < nip -> valid states q -> given ns a i q = given ns b i q) -> a = b.
  Proof.
    destruct a as ((f & s) & v), b as ((f' & s') & v'). intros (A1 & A2 & A3) (B1 & B2 & B3) H.
    assert (G : forall (l l' : list T) m mk, length l = nip * m -> length l' = nip * m -> (forall k, k < m -> valid states (mk k)) ->
      (forall i k, i < nip -> k < m -> given ns (f, s, v) i (mk k) = nth_error l (i * m + k) /\ given ns (f', s', v') i (mk k) = nth_error l' (i * m + k)) -> l = l').
    { intros l l' m mk L L' Hv Hg. apply list_nth_ext. intros k. destruct (Nat.lt_ge_cases k (nip * m)) as [Hk|Hk].
      - destruct (@flat_index nip m k Hk) as (i & c & Hi & Hc & ->). destruct (Hg i c Hi Hc) as [<- <-]. apply H; auto.
      - rewrite !(proj2 (nth_error_None _ _)) by lia. reflexivity. }
    rewrite (G f f' 9 DefGrad), (G s s' 6 Stress), (G v v' ns State); auto.
  Qed.
  Lemma computed_unique material data_n c c' e : computed material data_n c e -> computed material data_n c' e ->
    forall i q, i < nip -> valid states q -> stored c nip states e i q = stored c' nip states e i q.
  Proof.
    intros (f & s & v & r & H1 & H2 & H3 & H4 & H5) (f' & s' & v' & r' & K1 & K2 & K3 & K4 & K5) i q Hi Hq.
    assert (E : (f, s, v) = (f', s', v')) by (apply full_given_eq; auto; intros; rewrite H2, K2; auto).
    injection E as -> -> ->. assert (r = r') by congruence. subst r'. now rewrite H5, K5.
  Qed.
End Copies.
