(** DetermineDataOffsets, initialisation and the copies around the material call. *)
From Verif Require Import Base ListLemmas Strings DataModel DataProofs Loops ElemDataModel ElemDataSpec ElemDataProofs.
From Coq Require Import NArith.
Set Implicit Arguments.
Local Open Scope nat_scope.
Local Open Scope list_scope.
Local Notation length := List.length.

Lemma vset_ok {T} (d : list T) i v : i < length d -> vset d i v = Ok (list_set d i v).
Proof. intros H. unfold vset. now apply Nat.ltb_lt in H as ->. Qed.
Lemma vget_nth {T} (d : T) l i : i < length l -> vget l i = Ok (nth i l d).
Proof. intros H. unfold vget. now rewrite (nth_error_nth' l d). Qed.
Lemma vget_some {T} (l : list T) i a : nth_error l i = Some a -> vget l i = Ok a.
Proof. intros H. unfold vget. now rewrite H. Qed.
Lemma vat_some {T} (l : list T) i a : nth_error l i = Some a -> vat l i = Ok a.
Proof. intros H. unfold vat. now rewrite H. Qed.

(** ** Derived data bookkeeping *)
(** positions of the derived labels other than "volume", and those labels *)
Definition ave_index (derived : list chars) : list nat :=
  filter (fun i => match nth_error derived i with Some l => negb (chars_eqb l (lit "volume")) | None => false end) (seq 0 (length derived)).
Definition ave_labels (derived : list chars) : list chars := filter (fun l => negb (chars_eqb l (lit "volume"))) derived.
Fixpoint last_volume (derived : list chars) : option nat :=
  match derived with
  | [] => None
  | l :: d => match last_volume d with Some i => Some (S i) | None => if chars_eqb l (lit "volume") then Some 0 else None end
  end.
Lemma last_volume_snoc d l : last_volume (d ++ [l]) = if chars_eqb l (lit "volume") then Some (length d) else last_volume d.
Proof.
  induction d as [|x d IH]; cbn [app last_volume length].
  - reflexivity.
  - rewrite IH. destruct (chars_eqb l (lit "volume")); auto.
Qed.
Lemma derived_fold derived n : n <= length derived ->
  fold_left (fun (s : option nat * list nat * list chars) i =>
        let '(volume, ave_index, ave_labels) := s in
        match nth_error derived i with
        | None => s
        | Some label => if chars_eqb label (lit "volume") then (Some i, ave_index, ave_labels)
                        else (volume, ave_index ++ [i], ave_labels ++ [label])
        end) (seq 0 n) (None, [], []) = (last_volume (firstn n derived), ave_index (firstn n derived), ave_labels (firstn n derived)).
Proof.
  induction n as [|n IH]; intros H; [reflexivity|]. rewrite seq_S, fold_left_app, IH by lia. cbn [fold_left Nat.add].
  destruct (nth_error derived n) as [l|] eqn:E; [|apply nth_error_None in E; lia].
  assert (F : firstn (S n) derived = firstn n derived ++ [l]).
  { clear -E. revert derived E; induction n as [|n IH]; intros [|x d] E; cbn in *; try discriminate; [congruence|].
    f_equal. now apply IH. }
  assert (Ln : length (firstn n derived) = n) by (rewrite firstn_length; lia).
  rewrite F, last_volume_snoc, Ln. unfold ave_index, ave_labels. rewrite app_length, filter_app. cbn [length].
  replace (length (firstn n derived) + 1) with (S (length (firstn n derived))) by lia.
  rewrite seq_S, filter_app. cbn [filter Nat.add]. rewrite Ln.
  rewrite nth_error_app2, Ln, Nat.sub_diag by lia. cbn [nth_error].
  assert (G : filter (fun i => match nth_error (firstn n derived ++ [l]) i with Some l0 => negb (chars_eqb l0 (lit "volume")) | None => false end) (seq 0 n) =
              filter (fun i => match nth_error (firstn n derived) i with Some l0 => negb (chars_eqb l0 (lit "volume")) | None => false end) (seq 0 n)).
  { apply filter_ext_in. intros i Hi. apply in_seq in Hi. rewrite nth_error_app1 by lia. reflexivity. }
  rewrite G. destruct (chars_eqb l (lit "volume")); cbn [negb]; rewrite ?app_nil_r; reflexivity.
Qed.

Lemma list_set_id {A} (l : list A) i v : nth_error l i = Some v -> list_set l i v = l.
Proof.
  revert i; induction l as [|x l IH]; intros [|i] H; cbn in *; try discriminate; auto; [congruence|]. f_equal. auto.
Qed.

Lemma ave_loop nip states labels : good_states states -> nip <> 0 -> (forall l, In l labels -> exists q, valid states q /\ l = plain_label states q) ->
  exists ave, oloop 0 (length labels) (fun i_ave ave =>
        do ave_label <- vget labels i_ave;
        oloop 0 (per_point states) (fun i_label ave =>
          do l <- vget (all_labels nip states) i_label;
          do l <- remove_ipt_prefix l;
          if chars_eqb ave_label l then
            oloop 0 nip (fun i_int_pt ave =>
              vset ave (i_ave + i_int_pt * length labels) (i_label + i_int_pt * per_point states)) ave
          else Ok ave) ave) (repeat 0 (length labels * nip)) = Ok ave /\
    length ave = length labels * nip /\
    forall i q p, nth_error labels i = Some (plain_label states q) -> valid states q -> p < nip ->
      nth_error ave (p * length labels + i) = Some (slot states p q).
Proof.
  intros Hg Hn Hl. set (n := length labels).
  destruct (@oloop_ind (list nat) (fun k ave => length ave = n * nip /\
      forall i q p, i < k -> nth_error labels i = Some (plain_label states q) -> valid states q -> p < nip ->
        nth_error ave (p * n + i) = Some (slot states p q)) 0 n
    (fun i_ave ave =>
        do ave_label <- vget labels i_ave;
        oloop 0 (per_point states) (fun i_label ave =>
          do l <- vget (all_labels nip states) i_label;
          do l <- remove_ipt_prefix l;
          if chars_eqb ave_label l then
            oloop 0 nip (fun i_int_pt ave =>
              vset ave (i_ave + i_int_pt * length labels) (i_label + i_int_pt * per_point states)) ave
          else Ok ave) ave) (repeat 0 (n * nip))) as (ave & E & Hlen & H).
  - lia.
  - split; [apply repeat_length|]. intros; lia.
  - intros k ave Hk (Hlen & IH).
    destruct (nth_error labels k) as [lab|] eqn:Ek; [|apply nth_error_None in Ek; unfold n in *; lia].
    rewrite (@vget_some _ _ _ _ Ek). cbn [obind].
    destruct (Hl lab) as (q0 & Hq0 & ->); [eapply nth_error_In; eauto|].
    (* after looking at j labels *)
    destruct (@oloop_ind (list nat) (fun j a => length a = n * nip /\
        (forall i q p, i < k -> nth_error labels i = Some (plain_label states q) -> valid states q -> p < nip ->
          nth_error a (p * n + i) = Some (slot states p q)) /\
        (idx q0 < j -> forall p, p < nip -> nth_error a (p * n + k) = Some (slot states p q0))) 0 (per_point states)
      (fun i_label ave =>
          do l <- vget (all_labels nip states) i_label;
          do l <- remove_ipt_prefix l;
          if chars_eqb (plain_label states q0) l then
            oloop 0 nip (fun i_int_pt ave =>
              vset ave (k + i_int_pt * length labels) (i_label + i_int_pt * per_point states)) ave
          else Ok ave) ave) as (a & Ea & La & Ha1 & Ha2).
    + lia.
    + split; auto. split; auto. lia.
    + intros j a Hj (La & Ha1 & Ha2).
      destruct (@idx_onto states j ltac:(lia)) as (q1 & Hq1 & <-).
      assert (E1 : nth_error (all_labels nip states) (idx q1) = Some (point_label states 0 q1)).
      { replace (idx q1) with (slot states 0 q1) by (rewrite slot_idx; lia). apply all_labels_nth; auto. lia. }
      rewrite (@vget_some _ _ _ _ E1). cbn [obind]. rewrite remove_point_label. cbn [obind].
      destruct (chars_eqb (plain_label states q0) (plain_label states q1)) eqn:Eq.
      * apply chars_eqb_eq in Eq. apply plain_label_inj in Eq; auto. subst q1.
        destruct (@oloop_ind (list nat) (fun m b => length b = n * nip /\
          (forall i q p, i < k -> nth_error labels i = Some (plain_label states q) -> valid states q -> p < nip ->
             nth_error b (p * n + i) = Some (slot states p q)) /\
          (forall p, p < m -> nth_error b (p * n + k) = Some (slot states p q0))) 0 nip
          (fun i_int_pt ave => vset ave (k + i_int_pt * length labels) (idx q0 + i_int_pt * per_point states)) a) as (b & Eb & Lb & Hb1 & Hb2).
        -- lia.
        -- split; auto. split; auto. lia.
        -- intros m b Hm (Lb & Hb1 & Hb2). fold n.
           assert (Hin : k + m * n < length b) by (rewrite Lb; nia).
           rewrite vset_ok by auto. eexists. split; [reflexivity|]. split; [now rewrite list_set_length|]. split.
           ++ intros i q p Hi Hlab Hq Hp. rewrite nth_error_list_set.
              destruct (Nat.eqb_spec (p * n + i) (k + m * n)) as [Heq|Hne]; cbn [andb].
              ** exfalso. assert (i < n) by lia. destruct (@flat_index_inj n m k p i); auto; lia.
              ** now apply Hb1.
           ++ intros p Hp. rewrite nth_error_list_set. destruct (Nat.eqb_spec (p * n + k) (k + m * n)) as [Heq|Hne]; cbn [andb].
              ** assert (m = p) by nia. subst p. destruct (Nat.ltb_spec (k + m * n) (length b)); [|lia].
                 rewrite slot_idx. f_equal. lia.
              ** apply Hb2. destruct (Nat.eq_dec p m); [subst; lia|lia].
        -- exists b. split; auto.
      * exists a. split; auto. split; auto. split; auto. intros Hlt p Hp.
        assert (idx q0 <> idx q1). { intros Hi. apply (@idx_inj states) in Hi; auto. subst. apply Bool.not_true_iff_false in Eq. apply Eq. now apply chars_eqb_eq. }
        apply Ha2; lia.
    + exists a. split; auto. split; auto. intros i q p Hi Hlab Hq Hp.
      destruct (Nat.eq_dec i k) as [->|Hne]; [|apply Ha1; auto; lia].
      rewrite Ek in Hlab. injection Hlab as Hlab. apply plain_label_inj in Hlab; auto. subst q.
      apply Ha2; auto. now apply idx_lt.
  - exists ave. split; auto. split; auto. intros i q p Hi Hq Hp. apply H; auto.
    apply nth_error_Some_lt in Hi. auto.
Qed.

(** The offsets found for a block are the places of the quantities. *)
Lemma offsets_spec nip states derived : good_states states -> nip <> 0 ->
  (forall l, In l derived -> l = lit "volume" \/ exists q, valid states q /\ l = plain_label states q) ->
  exists o, determine_data_offsets 3 nip states (all_labels nip states) derived = Ok o /\
    o_def_grad o = places nip 9 states DefGrad /\ o_stress o = places nip 6 states Stress /\
    o_state o = places nip (length states) states State /\
    o_volume o = last_volume derived /\ o_ave_index o = ave_index derived /\
    length (o_ave o) = length (ave_labels derived) * nip /\
    (forall i q p, nth_error (ave_labels derived) i = Some (plain_label states q) -> valid states q -> p < nip ->
      nth_error (o_ave o) (p * length (ave_labels derived) + i) = Some (slot states p q)).
Proof.
  intros Hg Hn Hd. unfold determine_data_offsets. cbn [length_to_int obind].
  rewrite (@offsets_places nip 9 states DefGrad); auto.
  2:{ intros c i Hc _. rewrite component_full by auto. reflexivity. }
  cbn [obind]. unfold check at 1. rewrite places_length. replace (nip * 9 =? 9 * nip) with true by (symmetry; apply Nat.eqb_eq; lia). cbn [obind].
  rewrite (@offsets_places nip 6 states Stress); auto.
  2:{ intros c i Hc _. rewrite component_sym by auto. reflexivity. }
  cbn [obind]. unfold check at 1. rewrite places_length. replace (nip * 6 =? 6 * nip) with true by (symmetry; apply Nat.eqb_eq; lia). cbn [obind].
  rewrite (@offsets_places nip (length states) states State); auto.
  2:{ intros c i Hc _. rewrite (@vat_some _ _ _ _ (nth_error_nth' states [] Hc)). reflexivity. }
  cbn [obind]. unfold check at 1. rewrite places_length. replace (nip * length states =? length states * nip) with true by (symmetry; apply Nat.eqb_eq; lia). cbn [obind].
  rewrite derived_fold by lia. rewrite firstn_all. rewrite all_labels_length. unfold per_element. rewrite (Nat.mul_comm nip), Nat.div_mul by auto.
  destruct (@ave_loop nip states (ave_labels derived)) as (ave & E & L & H); auto.
  { intros l Hl. unfold ave_labels in Hl. apply filter_In in Hl as [Hl Hv]. destruct (Hd l Hl) as [->|?]; auto.
    exfalso. vm_compute in Hv. discriminate. }
  rewrite E. cbn [obind]. eexists. split; [reflexivity|]. cbn. repeat split; auto.
Qed.
