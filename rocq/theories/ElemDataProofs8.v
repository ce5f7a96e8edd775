(** Histories of load steps, and derived data. *)
From Verif Require Import Base ListLemmas Strings DataModel DataProofs Loops ElemDataModel ElemDataSpec ElemDataModel2 ElemDataProofs ElemDataProofs2 ElemDataProofs3 ElemDataProofs7.
From Coq Require Import NArith Permutation.
Set Implicit Arguments.
Local Open Scope nat_scope.
Local Open Scope list_scope.
Local Notation length := List.length.

Section History.
  Context {T : Type}.
  Variables (nip : nat) (states : list chars) (ne : nat).
  Let n := per_element nip states.
  Definition advances (material : nat -> list T -> list T -> list T -> outcome (list T * list T * list T)) (c c' : list T) : Prop :=
    length c' = ne * n /\ forall e, e < ne -> computed nip states material c c' e.
  (** every element is processed in the last evaluation; all evaluations stay within the block *)
  Definition good_step (st : list (@evaluation T)) : Prop :=
    (forall ev, In ev st -> answers nip states (fst ev) /\ forall e, In e (snd ev) -> e < ne) /\
    exists before m order, st = before ++ [(m, order)] /\ forall e, e < ne -> In e order.
  Fixpoint follows (steps : list (list (@evaluation T))) (c c' : list T) : Prop :=
    match steps with
    | [] => c' = c
    | st :: steps => exists before m order mid, st = before ++ [(m, order)] /\ advances m c mid /\ follows steps mid c'
    end.
  Lemma evals_spec o c_n (st : list (@evaluation T)) : good_offsets nip states o -> length c_n = ne * n ->
    (forall ev, In ev st -> answers nip states (fst ev) /\ forall e, In e (snd ev) -> e < ne) -> forall c, length c = ne * n ->
    exists c', ofold (fun c (ev : evaluation) => update_block o n (fst ev) c_n (snd ev) c) st c = Ok c' /\ length c' = ne * n.
  Proof.
    intros Ho Ln H c Lc. apply (@ofold_ind _ _ (fun _ c => length c = ne * n)); auto. intros pre ev post s E Hs.
    destruct (H ev) as (Ha & Hr). { rewrite E. apply in_or_app. right. now left. }
    destruct (@update_block_spec T nip states ne o (fst ev) c_n (snd ev) Ho Ha Ln Hr s Hs) as (c' & Ec & Lc' & _). eauto.
  Qed.
  Lemma step_spec o c c2 st : good_offsets nip states o -> length c = ne * n -> length c2 = ne * n -> good_step st ->
    exists c', step_block o n (c, c2) st = Ok (c', c) /\ length c' = ne * n /\ exists before m order, st = before ++ [(m, order)] /\ advances m c c'.
  Proof.
    intros Ho L L2 (Hev & before & m & order & -> & Hall). unfold step_block. cbn [fst snd]. rewrite ofold_app.
    destruct (@evals_spec o c before Ho L (fun ev H => Hev ev (in_or_app _ _ _ (or_introl H))) c2 L2) as (c3 & E3 & L3).
    rewrite E3. cbn [obind ofold fst snd]. destruct (Hev (m, order)) as (Ha & Hr). { apply in_or_app. right. now left. }
    destruct (@update_block_spec T nip states ne o m c order Ho Ha L Hr c3 L3) as (c' & Ec & Lc' & H1 & _). cbn [fst snd] in *. fold n in Ec, Lc'. rewrite Ec. cbn [obind].
    exists c'. split; [reflexivity|]. split; [exact Lc'|]. exists before, m, order. split; [reflexivity|]. split; auto.
  Qed.
  Lemma run_spec o steps : good_offsets nip states o -> Forall good_step steps -> forall c c2, length c = ne * n -> length c2 = ne * n ->
    exists c' c2', run_block o n steps (c, c2) = Ok (c', c2') /\ length c' = ne * n /\ length c2' = ne * n /\ follows steps c c'.
  Proof.
    intros Ho Hs. induction Hs as [|st steps Hst _ IH]; intros c c2 L L2.
    - exists c, c2. cbn. auto.
    - destruct (@step_spec o c c2 st Ho L L2 Hst) as (c1 & E & L1 & before & m & order & Est & Had). unfold run_block. cbn [ofold]. rewrite E. cbn [obind].
      destruct (IH c1 c L1 L) as (c' & c2' & E' & Lc' & Lc2' & Hf). exists c', c2'. split; [exact E'|]. split; [auto|]. split; [auto|].
      cbn [follows]. exists before, m, order, c1. auto.
  Qed.
End History.

(** ** Derived data *)
Lemma ave_snoc d l : ave_index (d ++ [l]) = ave_index d ++ (if chars_eqb l (lit "volume") then [] else [length d]) /\
  ave_labels (d ++ [l]) = ave_labels d ++ (if chars_eqb l (lit "volume") then [] else [l]).
Proof.
  split.
  - unfold ave_index. rewrite app_length. cbn [length]. rewrite Nat.add_1_r, seq_S, filter_app. cbn [Nat.add]. f_equal.
    + apply filter_ext_in. intros i Hi. apply in_seq in Hi. now rewrite nth_error_app1 by lia.
    + cbn [filter]. rewrite nth_error_app2, Nat.sub_diag by lia. cbn [nth_error]. now destruct (chars_eqb l (lit "volume")).
  - unfold ave_labels. rewrite filter_app. cbn [filter]. now destruct (chars_eqb l (lit "volume")).
Qed.
Lemma ave_same_length d : length (ave_index d) = length (ave_labels d).
Proof. induction d as [|l d IH] using rev_ind; [reflexivity|]. destruct (ave_snoc d l) as [-> ->]. rewrite !app_length, IH. now destruct (chars_eqb l (lit "volume")). Qed.
Lemma ave_at d i : i < length (ave_index d) -> exists k l, nth_error (ave_index d) i = Some k /\ nth_error (ave_labels d) i = Some l /\ nth_error d k = Some l /\ l <> lit "volume".
Proof.
  induction d as [|l d IH] using rev_ind; [cbn; lia|]. pose proof (ave_same_length d) as L. destruct (ave_snoc d l) as [-> ->]. rewrite app_length. intros Hi.
  destruct (Nat.lt_ge_cases i (length (ave_index d))) as [H|H].
  - destruct (IH H) as (k & l' & E1 & E2 & E3 & E4). exists k, l'. rewrite !nth_error_app1; auto; try lia. apply nth_error_Some. congruence.
  - destruct (chars_eqb l (lit "volume")) eqn:E; cbn [length] in Hi; [lia|]. exists (length d), l.
    rewrite !nth_error_app2 by lia. replace (i - length (ave_index d)) with 0 by lia. replace (i - length (ave_labels d)) with 0 by lia. rewrite Nat.sub_diag.
    split; [reflexivity|]. split; [reflexivity|]. split; [reflexivity|]. now apply chars_eqb_neq.
Qed.
Lemma ave_pos d k l : nth_error d k = Some l -> l <> lit "volume" -> exists i, nth_error (ave_index d) i = Some k /\ nth_error (ave_labels d) i = Some l.
Proof.
  induction d as [|x d IH] using rev_ind; [destruct k; discriminate|]. pose proof (ave_same_length d) as L. destruct (ave_snoc d x) as [-> ->]. intros H Hv.
  destruct (Nat.lt_ge_cases k (length d)) as [Hk|Hk].
  - rewrite nth_error_app1 in H by auto. destruct (IH H Hv) as (i & E1 & E2). exists i.
    rewrite !nth_error_app1; auto; apply nth_error_Some; congruence.
  - assert (k = length d) by (assert (k < length (d ++ [x])) by (apply nth_error_Some; congruence); rewrite app_length in *; cbn in *; lia). subst k.
    rewrite nth_error_app2, Nat.sub_diag in H by auto. injection H as ->. apply chars_eqb_neq in Hv. rewrite Hv. exists (length (ave_index d)).
    rewrite !nth_error_app2 by lia. rewrite L, Nat.sub_diag. auto.
Qed.
Lemma ave_index_inj d i i' k : nth_error (ave_index d) i = Some k -> nth_error (ave_index d) i' = Some k -> i = i'.
Proof.
  intros H H'. assert (Hn : NoDup (ave_index d)) by (unfold ave_index; apply NoDup_filter, seq_NoDup).
  apply (proj1 (NoDup_nth_error _) Hn); [apply nth_error_Some; congruence|congruence].
Qed.
Lemma last_volume_spec d k : last_volume d = Some k -> nth_error d k = Some (lit "volume") /\ forall k', k < k' -> nth_error d k' <> Some (lit "volume").
Proof.
  revert k. induction d as [|x d IH] using rev_ind; intros k; [discriminate|]. rewrite last_volume_snoc. destruct (chars_eqb x (lit "volume")) eqn:E.
  - intros [= <-]. apply chars_eqb_eq in E. subst x. rewrite nth_error_app2, Nat.sub_diag by auto. split; [reflexivity|]. intros k' Hk H.
    assert (k' < length (d ++ [lit "volume"])) by (apply nth_error_Some; congruence). rewrite app_length in *. cbn [length] in *. lia.
  - intros H. destruct (IH k H) as (H1 & H2). assert (k < length d) by (apply nth_error_Some; congruence).
    split; [now rewrite nth_error_app1|]. intros k' Hk H'. destruct (Nat.lt_ge_cases k' (length d)) as [Hl|Hl].
    + rewrite nth_error_app1 in H' by auto. now apply (H2 k').
    + assert (k' < length (d ++ [x])) by (apply nth_error_Some; congruence). rewrite app_length in *. cbn in *. assert (k' = length d) by lia. subst k'.
      rewrite nth_error_app2, Nat.sub_diag in H' by auto. injection H' as ->. apply chars_eqb_neq in E. congruence.
Qed.
Lemma last_volume_none d : last_volume d = None -> ~ In (lit "volume") d.
Proof.
  induction d as [|x d IH]; [auto|]. cbn [last_volume]. destruct (last_volume d); [discriminate|]. destruct (chars_eqb x (lit "volume")) eqn:E; [discriminate|].
  intros _ [->|H]; [apply chars_eqb_neq in E; congruence|]. now apply IH.
Qed.

Section Derived.
  Context {T : Type} (zero : T).
  Definition cell (rows : list (list T)) (k e : nat) : option T := match nth_error rows k with Some row => nth_error row e | None => None end.
  Definition shape (nd ne : nat) (rows : list (list T)) : Prop := length rows = nd /\ forall k row, nth_error rows k = Some row -> length row = ne.
  Lemma shape_cell nd ne rows k e : shape nd ne rows -> k < nd -> e < ne -> exists row, nth_error rows k = Some row /\ e < length row.
  Proof.
    intros (L & H) Hk He. destruct (nth_error rows k) as [row|] eqn:E; [|apply nth_error_None in E; lia]. exists row. split; auto. rewrite (H _ _ E). auto.
  Qed.
  Lemma cell_set nd ne rows k e row v : shape nd ne rows -> nth_error rows k = Some row -> e < length row ->
    shape nd ne (list_set rows k (list_set row e v)) /\
    forall k' e', cell (list_set rows k (list_set row e v)) k' e' = if (k' =? k) && (e' =? e) then Some v else cell rows k' e'.
  Proof.
    intros (L & H) Er He. assert (Hk : k < length rows) by (apply nth_error_Some; congruence). split; [split|].
    - now rewrite list_set_length.
    - intros k' row'. rewrite nth_error_list_set. destruct ((k' =? k) && (k <? length rows)); [|apply H]. intros [= <-]. rewrite list_set_length. eauto.
    - intros k' e'. unfold cell. rewrite nth_error_list_set. apply Nat.ltb_lt in Hk. rewrite Hk, andb_true_r. destruct (Nat.eqb_spec k' k) as [->|]; cbn [andb]; auto.
      rewrite nth_error_list_set. apply Nat.ltb_lt in He. rewrite He, andb_true_r, Er. now destruct (e' =? e).
  Qed.
  Lemma fit_length {A} (d : A) m l : length (firstn m l ++ repeat d (m - length l)) = m.
  Proof. rewrite app_length, firstn_length, repeat_length. lia. Qed.

  Variables (nip : nat) (states : list chars) (ne : nat) (derived : list chars).
  Let n := per_element nip states.
  Let nd := length derived.
  Variable o : offsets.
  Hypothesis Hgood : good_states states.
  Hypothesis Hnip : nip <> 0.
  Hypothesis Hder : forall l, In l derived -> l = lit "volume" \/ exists q, valid states q /\ l = plain_label states q.
  Hypothesis Hoff : determine_data_offsets 3 nip states (all_labels nip states) derived = Ok o.
  Variable data : list T.
  Hypothesis Hdata : length data = ne * n.
  Variables (average : nat -> nat -> list T -> outcome (T * list T)) (vol : nat -> T) (mean : nat -> (nat -> T) -> T).
  Hypothesis Hmean : forall e f g, (forall p, p < nip -> f p = g p) -> mean e f = mean e g.
  Hypothesis Haverage : forall e nq qs, e < ne -> length qs = nq * nip ->
    exists aves, average e nq qs = Ok (vol e, aves) /\ length aves = nq /\
      forall i, i < nq -> nth_error aves i = Some (mean e (fun p => nth (p * nq + i) qs zero)).

  (** the value of quantity q at point p of element e *)
  Definition value_at (e p : nat) (q : quantity) : T := match stored data nip states e p q with Some v => v | None => zero end.
  Lemma derived_spec old : nd <> 0 -> exists rows, compute_derived zero o nip ne n nd average data old = Ok rows /\ shape nd ne rows /\
    forall k e q, k < nd -> e < ne ->
      (last_volume derived = Some k -> cell rows k e = Some (vol e)) /\
      (nth_error derived k = Some (plain_label states q) -> valid states q -> plain_label states q <> lit "volume" -> cell rows k e = Some (mean e (fun p => value_at e p q))).
  Proof.
    intros Hnd. destruct (@offsets_spec nip states derived Hgood Hnip Hder) as (o' & Eo & _ & _ & _ & Ov & Oi & La & Oa).
    rewrite Hoff in Eo. injection Eo as <-.
    unfold compute_derived. apply Nat.eqb_neq in Hnd. rewrite Hnd. cbn zeta.
    set (start := map _ _). set (nv := length (o_ave o) / nip).
    assert (Env : nv = length (ave_labels derived)) by (unfold nv; rewrite La; now apply Nat.div_mul).
    assert (Enn : forall a e, e * (n / nip) * nip + a = e * n + a).
    { intros a e. unfold n, per_element. rewrite (Nat.mul_comm nip), Nat.div_mul by auto. lia. }
    assert (Hstart : shape nd ne start).
    { split; [unfold start; rewrite map_length; apply fit_length|]. intros k row H. unfold start in H. rewrite nth_error_map in H.
      destruct (nth_error _ k); [|discriminate]. injection H as <-. apply fit_length. }
    assert (Hav : forall i k q, nth_error (ave_index derived) i = Some k -> nth_error derived k = Some (plain_label states q) -> nth_error (ave_labels derived) i = Some (plain_label states q)).
    { intros i k q Hi Hk. destruct (@ave_at derived i) as (k' & l & E1 & E2 & E3 & _). { apply nth_error_Some. congruence. } congruence. }
    set (good := fun (m : nat) (rows : list (list T)) => shape nd ne rows /\ forall k e q, k < nd -> e < m ->
      (last_volume derived = Some k -> cell rows k e = Some (vol e)) /\
      (nth_error derived k = Some (plain_label states q) -> valid states q -> plain_label states q <> lit "volume" -> cell rows k e = Some (mean e (fun p => value_at e p q)))).
    match goal with |- context [oloop 0 ne ?f start] => destruct (@oloop_ind _ good 0 ne f start) as (rows & E & Hs & HG) end; [lia| | |].
    - split; auto. intros; lia.
    - intros e rows (_ & He) (Hs & HG).
      assert (Eq : exists qs, omapM (fun i => do a <- vat (o_ave o) i; vget data (e * (n / nip) * nip + a)) (seq 0 (nv * nip)) = Ok qs /\ length qs = nv * nip /\
        forall i q p, nth_error (ave_labels derived) i = Some (plain_label states q) -> valid states q -> p < nip -> nth (p * nv + i) qs zero = value_at e p q).
      { set (g := fun i => match nth_error (o_ave o) i with Some a => nth (e * n + a) data zero | None => zero end).
        assert (Hat : forall j, j < nv * nip -> exists i q p, p < nip /\ valid states q /\ nth_error (ave_labels derived) i = Some (plain_label states q) /\ j = p * nv + i /\ nth_error (o_ave o) j = Some (slot states p q)).
        { intros j Hj. rewrite Nat.mul_comm in Hj. destruct (@flat_index nip nv j Hj) as (p & i & Hp & Hi & ->).
          destruct (nth_error (ave_labels derived) i) as [l|] eqn:El; [|apply nth_error_None in El; lia].
          assert (Hl : In l derived /\ l <> lit "volume").
          { apply nth_error_In in El. unfold ave_labels in El. apply filter_In in El as [El1 El2]. split; auto. intros ->. discriminate El2. }
          destruct (Hder l (proj1 Hl)) as [?|(q & Hq & ->)]; [tauto|]. exists i, q, p. repeat split; auto. rewrite Env. apply Oa; auto. }
        exists (map g (seq 0 (nv * nip))). split; [|split].
        - apply omapM_ok. intros j Hj. apply in_seq in Hj. destruct (Hat j) as (i & q & p & Hp & Hq & _ & _ & Ej); [lia|].
          rewrite (vat_some _ _ Ej). cbn [obind]. rewrite Enn. unfold g. rewrite Ej.
          apply vget_some, nth_error_nth'. rewrite Hdata. apply cell_lt; auto.
        - now rewrite map_length, seq_length.
        - intros i q p Hi Hq Hp. assert (Hiv : i < nv) by (rewrite Env; apply nth_error_Some; congruence).
          rewrite (nth_indep _ zero (g 0)) by (rewrite map_length, seq_length; nia). rewrite map_nth, seq_nth by nia. cbn [Nat.add]. unfold g.
          rewrite Env in *. rewrite (Oa _ _ _ Hi Hq Hp). unfold value_at, stored. fold n. destruct (nth_error data (e * n + slot states p q)) as [v|] eqn:Ev.
          + now rewrite (nth_error_nth _ _ _ Ev).
          + apply nth_error_None in Ev. now rewrite nth_overflow. }
      destruct Eq as (qs & -> & Lqs & Hqs). cbn [obind]. destruct (Haverage nv qs He Lqs) as (aves & -> & Laves & Haves). cbn [obind fst snd].
      set (inner := fun (m : nat) (rows' : list (list T)) => shape nd ne rows' /\
        (forall k e', e' <> e -> cell rows' k e' = cell rows k e') /\
        (forall i k q, i < m -> nth_error (ave_index derived) i = Some k -> nth_error derived k = Some (plain_label states q) -> valid states q -> cell rows' k e = Some (mean e (fun p => value_at e p q)))).
      match goal with |- context [oloop 0 nv ?f rows] => destruct (@oloop_ind _ inner 0 nv f rows) as (rows1 & -> & Hs1 & Ho1 & Hi1) end; [lia| | |].
      + split; auto. split; auto. intros; lia.
      + intros i rows' Hi (Hs' & Ho' & Hi'). destruct (@ave_at derived i) as (k & l & E1 & E2 & E3 & E4). { rewrite ave_same_length; lia. }
        rewrite Oi, (vget_some _ _ E1). cbn [obind]. assert (Hk : k < nd) by (apply nth_error_Some; congruence).
        destruct (shape_cell Hs' Hk He) as (row & Er & Hlt). rewrite (vat_some _ _ Er). cbn [obind]. rewrite (vget_some _ _ (Haves i (proj2 Hi))). cbn [obind].
        rewrite (vat_some _ _ (nth_error_nth' row zero Hlt)). cbn [obind]. eexists. split; [reflexivity|].
        destruct (@cell_set nd ne rows' k e row (mean e (fun p => nth (p * nv + i) qs zero)) Hs' Er Hlt) as (Hs'' & Hc). split; [exact Hs''|]. split.
        * intros k' e' Hne. rewrite Hc. apply Nat.eqb_neq in Hne. rewrite Hne, andb_false_r. apply Ho'. now apply Nat.eqb_neq.
        * intros i' k' q Hi2 Ek' Ed Hq. rewrite Hc, Nat.eqb_refl, andb_true_r. destruct (Nat.eqb_spec k' k) as [->|Hne].
          -- f_equal. assert (i' = i) by (eapply ave_index_inj; eauto). subst i'. apply Hmean. intros p Hp. apply Hqs; auto. eapply Hav; eauto.
          -- assert (i' <> i) by congruence. apply (Hi' i'); auto. lia.
      + cbn [obind]. rewrite Ov. destruct (last_volume derived) as [kv|] eqn:Elv.
        * destruct (last_volume_spec _ Elv) as (Hkv & _). assert (Hk : kv < nd) by (apply nth_error_Some; congruence).
          destruct (shape_cell Hs1 Hk He) as (row & Er & Hlt). rewrite (vat_some _ _ Er). cbn [obind]. rewrite (vat_some _ _ (nth_error_nth' row zero Hlt)). cbn [obind].
          eexists. split; [reflexivity|]. destruct (@cell_set nd ne rows1 kv e row (vol e) Hs1 Er Hlt) as (Hs2 & Hc). split; [exact Hs2|].
          intros k e' q Hkk He'. rewrite Hc. destruct (Nat.eq_dec e' e) as [->|Hne].
          -- rewrite Nat.eqb_refl, andb_true_r. split.
             ++ intros [= ->]. now rewrite Nat.eqb_refl.
             ++ intros Ed Hq Hv. destruct (Nat.eqb_spec k kv) as [->|_]; [congruence|]. destruct (ave_pos _ _ Ed Hv) as (i & Ei1 & Ei2).
                apply (Hi1 i); auto. rewrite Env. apply nth_error_Some. congruence.
          -- pose proof Hne as Hne'. apply Nat.eqb_neq in Hne'. rewrite Hne', andb_false_r, Ho1 by auto. apply HG; auto. lia.
        * eexists. split; [reflexivity|]. split; [exact Hs1|]. intros k e' q Hkk He'. split; [discriminate|]. intros Ed Hq Hv.
          destruct (Nat.eq_dec e' e) as [->|Hne].
          -- destruct (ave_pos _ _ Ed Hv) as (i & Ei1 & Ei2). apply (Hi1 i); auto. rewrite Env. apply nth_error_Some. congruence.
          -- rewrite Ho1 by auto. apply HG; auto. lia.
    - exists rows. auto.
  Qed.
End Derived.
