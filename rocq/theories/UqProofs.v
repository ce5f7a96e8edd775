(** Proofs about sample parameters and the closure. *)
From Coq Require Import NArith Reals Lra.
From Verif Require Import Base Strings InputModel InputSpec InputProofs InputProofs2 MeshTextModel Loops ListLemmas BcModel BcSpec BcProofs IntegratorModel UqModel UqSpec.
Set Implicit Arguments.
Local Open Scope nat_scope.
Local Open Scope list_scope.
Local Notation length := List.length.

Lemma vget_nth {A} (d : A) l i : i < length l -> vget l i = Ok (nth i l d).
Proof.
  intros H. unfold vget. destruct (nth_error l i) eqn:E.
  - f_equal. symmetry. now apply nth_error_nth.
  - apply nth_error_None in E. lia.
Qed.
Lemma vset_ok {A} (l : list A) i v : i < length l -> vset l i v = Ok (list_set l i v).
Proof. intros H. unfold vset. apply Nat.ltb_lt in H. now rewrite H. Qed.
Lemma nth_list_set {A} (d : A) l i v k : i < length l -> nth k (list_set l i v) d = if k =? i then v else nth k l d.
Proof.
  intros H. destruct (Nat.lt_ge_cases k (length l)).
  - pose proof (nth_error_list_set l i v k) as E. apply Nat.ltb_lt in H. rewrite H, andb_true_r in E.
    destruct (k =? i); [now apply nth_error_nth|].
    destruct (nth_error l k) eqn:E'; [|apply nth_error_None in E'; lia].
    rewrite (nth_error_nth _ _ _ E), (nth_error_nth _ _ _ E'). auto.
  - rewrite !nth_overflow by (rewrite ?list_set_length; lia). destruct (Nat.eqb_spec k i); auto. lia.
Qed.

Lemma assoc_set_chars {V} k k' (v : V) m :
  assoc chars_eqb k (assoc_set chars_eqb k' v m) = if chars_eqb k k' then Some v else assoc chars_eqb k m.
Proof.
  induction m as [|[k2 v2] m IH]; simpl; [reflexivity|].
  destruct (chars_eqb k' k2) eqn:E; simpl.
  - apply chars_eqb_eq in E. subst. destruct (chars_eqb k k2); auto.
  - destruct (chars_eqb k k2) eqn:E2.
    + apply chars_eqb_eq in E2. subst. destruct (chars_eqb k2 k') eqn:E3; auto.
      apply chars_eqb_eq in E3. subst. now rewrite chars_eqb_refl in E.
    + exact IH.
Qed.
Lemma param_set p k v k' : param (assoc_set chars_eqb k v p) k' = if chars_eqb k' k then v else param p k'.
Proof. unfold param. rewrite assoc_set_chars. destruct (chars_eqb k' k); auto. Qed.
Lemma assoc_set_Z {V} k k' (v : V) m :
  assoc Z.eqb k (assoc_set Z.eqb k' v m) = if Z.eqb k k' then Some v else assoc Z.eqb k m.
Proof.
  destruct (Z.eqb_spec k k') as [->|H]; [apply assoc_set_same|now apply assoc_set_other].
Qed.
Lemma assoc_map {V W} (f : V -> W) k m : assoc Z.eqb k (map (fun e => (fst e, f (snd e))) m) = option_map f (assoc Z.eqb k m).
Proof. induction m as [|[k' v] m IH]; simpl; auto. destruct (Z.eqb k k'); auto. Qed.
Lemma eq_dec_chars (a b : chars) : (if list_eq_dec ascii_dec a b then true else false) = chars_eqb a b.
Proof.
  destruct (list_eq_dec ascii_dec a b) as [->|H]; symmetry; [apply chars_eqb_refl|now apply chars_eqb_false].
Qed.

(** ** Sample parameters *)
Section Scale.
  Variables (u : uq_input) (q : uq_samples).
  Let ns := uq_nexact q + uq_napprox q.
  Hypothesis Hq : samples_ok (length (uq_order u)) q.
  Hypothesis Hblocks : forall b name, In (b, name) (uq_order u) -> assoc Z.eqb b (uq_nominal u) <> None.

  Definition partial_sum (i : nat) (xi : list R) (b : Z) (name : chars) : R :=
    Rsum i (fun i => if names u i b name then param (block_params (uq_ranges u) b) name * at_ xi i else 0)%R.
  (** after i parameters for samples below s0, and i' for the others *)
  Definition scaled (i i' s0 : nat) (p : sample_params) : Prop :=
    forall b, match assoc Z.eqb b (uq_nominal u) with
    | Some nom => exists rows, assoc Z.eqb b p = Some rows /\ length rows = ns /\
        forall s name, s < ns -> param (nth s rows []) name =
          (param nom name + partial_sum (if s <? s0 then i else i') (row (uq_xi q) s) b name)%R
    | None => assoc Z.eqb b p = None
    end.

  Lemma scale_one_ok i p : i < length (uq_order u) -> scaled i i 0 p -> exists p', scale_one u q p i = Ok p' /\ scaled (1 + i) (1 + i) 0 p'.
  Proof.
    intros Hi Hp. unfold scale_one.
    rewrite (@vget_nth (Z * chars) (0%Z, ([] : chars)) _ _ Hi). cbn [obind].
    destruct (nth i (uq_order u) (0%Z, ([] : chars))) as [b name] eqn:Ebn. cbn [fst snd].
    assert (Hbn : nth_error (uq_order u) i = Some (b, name)).
    { rewrite <- Ebn. now apply nth_error_nth'. }
    assert (Hnom : exists nom, assoc Z.eqb b (uq_nominal u) = Some nom).
    { specialize (Hblocks b name). destruct (assoc Z.eqb b (uq_nominal u)); eauto. exfalso.
      apply Hblocks; auto. eapply nth_error_In; eauto. }
    destruct Hnom as (nom & Hnom). fold ns.
    destruct (@oloop_ind _ (fun s0 p => scaled (1 + i) i s0 p) 0 ns
      (fun s p0 =>
        let rows := match assoc Z.eqb b p0 with Some r => r | None => [] end in
        do row <- vget rows s;
        do xi <- vget (uq_xi q) s;
        do dxi <- vget xi i;
        Ok (assoc_set Z.eqb b (list_set rows s (assoc_set chars_eqb name (param row name + param (block_params (uq_ranges u) b) name * dxi)%R row)) p0)) p)
      as (p' & E & Hp'); [lia| | |].
    - intros b'. specialize (Hp b'). destruct (assoc Z.eqb b' (uq_nominal u)); auto.
    - intros s p1 Hs H1. cbn zeta. pose proof (H1 b) as H1b. rewrite Hnom in H1b. destruct H1b as (rows & E1 & E2 & E3).
      rewrite E1. rewrite (@vget_nth params [] rows s) by lia. cbn [obind].
      rewrite (@vget_nth (list R) [] (uq_xi q) s) by (rewrite (so_rows Hq); fold ns; lia). cbn [obind].
      rewrite (@vget_nth _ 0%R (nth s (uq_xi q) []) i).
      2:{ pose proof (so_row Hq) as Hr. unfold row in Hr. rewrite Hr; auto. fold ns. lia. }
      cbn [obind]. eexists. split; [reflexivity|]. intros b'. pose proof (H1 b') as H1b'.
      rewrite assoc_set_Z. destruct (Z.eqb_spec b' b) as [->|Hne].
      + rewrite Hnom in H1b' |- *. eexists. split; [reflexivity|]. split; [now rewrite list_set_length|].
        intros s' name' Hs'. rewrite nth_list_set by lia. specialize (E3 s' name' Hs').
        destruct (Nat.eqb_spec s' s) as [->|Hss].
        * replace (s <? 1 + s) with true by (symmetry; apply Nat.ltb_lt; lia).
          replace (s <? s) with false in E3 by (symmetry; apply Nat.ltb_ge; lia).
          rewrite param_set. unfold partial_sum in *. cbn [Rsum Nat.add]. unfold names at 2. rewrite Hbn. cbn [fst snd].
          rewrite Z.eqb_refl, eq_dec_chars. cbn [andb]. rewrite <- Rplus_assoc, <- E3.
          destruct (chars_eqb name' name) eqn:En.
          -- apply chars_eqb_eq in En. subst. rewrite chars_eqb_refl. unfold at_, row. reflexivity.
          -- replace (chars_eqb name name') with false by (symmetry; apply chars_eqb_false; apply chars_eqb_false in En; congruence). lra.
        * rewrite E3. f_equal. replace (s' <? 1 + s) with (s' <? s); auto.
          destruct (Nat.ltb_spec s' s), (Nat.ltb_spec s' (1 + s)); auto; lia.
      + destruct (assoc Z.eqb b' (uq_nominal u)) as [nom'|] eqn:En'; auto.
        destruct H1b' as (rows' & E1' & E2' & E3'). exists rows'. split; auto. split; auto. intros s' name' Hs'.
        rewrite E3' by auto. f_equal.
        assert (Hzero : partial_sum (1 + i) (row (uq_xi q) s') b' name' = partial_sum i (row (uq_xi q) s') b' name').
        { unfold partial_sum. cbn [Rsum Nat.add]. unfold names at 2. rewrite Hbn. cbn [fst].
          replace (b =? b')%Z with false by (symmetry; apply Z.eqb_neq; auto). cbn [andb]. lra. }
        destruct (s' <? s), (s' <? 1 + s); auto.
    - exists p'. split.
      + exact E.
      + intros b'. specialize (Hp' b'). destruct (assoc Z.eqb b' (uq_nominal u)); auto.
        destruct Hp' as (rows & E1 & E2 & E3). exists rows. split; auto. split; auto. intros s name' Hs.
        rewrite E3 by auto. replace (s <? ns) with true by (symmetry; apply Nat.ltb_lt; auto). reflexivity.
  Qed.

  Lemma scale_ok : exists p, scale_parameters u q = Ok p /\ scaled (length (uq_order u)) (length (uq_order u)) 0 p.
  Proof.
    unfold scale_parameters. fold ns.
    pose proof (@oloop_ind _ (fun i p => scaled i i 0 p) 0 (length (uq_order u)) (fun i p => scale_one u q p i)
      (map (fun e => (fst e, repeat (snd e) ns)) (uq_nominal u))) as H.
    unfold oloop in H. rewrite Nat.sub_0_r in H. apply H; [lia| |].
    - intros b. rewrite (assoc_map (fun p => repeat p ns)). destruct (assoc Z.eqb b (uq_nominal u)) as [nom|]; simpl; auto.
      exists (repeat nom ns). split; auto. split; [apply repeat_length|]. intros s name Hs.
      replace (nth s (repeat nom ns) []) with nom. { unfold partial_sum. simpl. lra. }
      symmetry. apply nth_error_nth. now apply nth_error_repeat.
    - intros i p Hi. apply scale_one_ok. lia.
  Qed.
End Scale.

(** ** Loops over the entries of a view *)
Lemma grid_loop N (body : nat -> nat -> view -> outcome view) (val : nat -> nat -> R -> R) v0 :
  shaped N 3 v0 ->
  (forall n c v, n < N -> c < 3 -> shaped N 3 v -> v_at v n c = v_at v0 n c ->
     exists v', body n c v = Ok v' /\ shaped N 3 v' /\ v_at v' n c = val n c (v_at v0 n c) /\
       forall n' c', n' <> n \/ c' <> c -> v_at v' n' c' = v_at v n' c') ->
  exists v', oloop 0 N (fun n v => oloop 0 3 (fun c v => body n c v) v) v0 = Ok v' /\ shaped N 3 v' /\
    forall n c, n < N -> c < 3 -> v_at v' n c = val n c (v_at v0 n c).
Proof.
  intros Hs Hb.
  destruct (@oloop_ind _ (fun k v => shaped N 3 v /\ forall n c, n < N -> c < 3 ->
     v_at v n c = if n <? k then val n c (v_at v0 n c) else v_at v0 n c) 0 N
     (fun n v => oloop 0 3 (fun c v => body n c v) v) v0) as (v' & E & H1 & H2); [lia| | |].
  - split; auto.
  - intros n v Hn (S1 & V1).
    destruct (@oloop_ind _ (fun k v => shaped N 3 v /\ forall n' c, n' < N -> c < 3 ->
     v_at v n' c = if (n' <? n) || ((n' =? n) && (c <? k)) then val n' c (v_at v0 n' c) else v_at v0 n' c) 0 3
     (fun c v => body n c v) v) as (v' & E & H1 & H2); [lia| | |].
    + split; auto. intros n' c Hn' Hc. rewrite V1 by auto. replace (c <? 0) with false by (symmetry; apply Nat.ltb_ge; lia).
      now rewrite andb_false_r, orb_false_r.
    + intros c v1 Hc (S2 & V2). destruct (Hb n c v1) as (v2 & E2 & S3 & A & B); auto; try lia.
      { rewrite V2 by lia. replace (n <? n) with false by (symmetry; apply Nat.ltb_ge; lia).
        replace (c <? c) with false by (symmetry; apply Nat.ltb_ge; lia). rewrite andb_false_r. reflexivity. }
      exists v2. split; auto. split; auto. intros n' c' Hn' Hc'.
      destruct (Nat.eqb_spec n' n) as [->|Hne].
      * destruct (Nat.eq_dec c' c) as [->|Hcc].
        -- rewrite A. replace (c <? 1 + c) with true by (symmetry; apply Nat.ltb_lt; lia). now rewrite orb_true_r.
        -- rewrite B, V2 by auto. rewrite Nat.eqb_refl.
           replace (c' <? 1 + c) with (c' <? c); auto. destruct (Nat.ltb_spec c' c), (Nat.ltb_spec c' (1 + c)); auto; lia.
      * rewrite B, V2 by auto. apply Nat.eqb_neq in Hne. now rewrite Hne.
    + exists v'. split; auto. split; auto. intros n' c Hn' Hc. rewrite H2 by auto.
      replace (c <? 3) with true by (symmetry; apply Nat.ltb_lt; lia). rewrite andb_true_r.
      replace ((n' <? n) || (n' =? n)) with (n' <? 1 + n); auto.
      destruct (Nat.ltb_spec n' n), (Nat.eqb_spec n' n), (Nat.ltb_spec n' (1 + n)); auto; lia.
  - exists v'. split; auto. split; auto. intros n c Hn Hc. rewrite H2 by auto.
    now replace (n <? N) with true by (symmetry; now apply Nat.ltb_lt).
Qed.

Lemma set_point N v n c x : shaped N 3 v -> n < N -> c < 3 ->
  exists v', view_set v n c x = Ok v' /\ shaped N 3 v' /\ v_at v' n c = x /\
    forall n' c', n' <> n \/ c' <> c -> v_at v' n' c' = v_at v n' c'.
Proof.
  intros Hs Hn Hc. rewrite (view_set_ok _ Hs) by auto. eexists. split; [reflexivity|]. split; [split; auto|]. simpl. split.
  - apply upd2_same.
  - intros n' c' H. now apply upd2_other.
Qed.

Lemma nth_in_forall {A} (P : A -> Prop) d l i : Forall P l -> i < length l -> P (nth i l d).
Proof. intros H Hi. rewrite Forall_forall in H. apply H. now apply nth_In. Qed.

(** ** The closure *)
Lemma close_entry_ok N nexact w nominal forces n c f :
  shaped N 3 nominal -> (forall k, k < nexact -> shaped N 3 (field forces k)) -> nexact <= length forces ->
  length w = nexact + 1 -> shaped N 3 f -> n < N -> c < 3 ->
  exists f', close_entry nexact w nominal forces n c f = Ok f' /\ shaped N 3 f' /\
    v_at f' n c = combination w (v_at nominal n c) (fun k => v_at (field forces k) n c) nexact /\
    forall n' c', n' <> n \/ c' <> c -> v_at f' n' c' = v_at f n' c'.
Proof.
  intros Hnom Hex Hlen Hw Hf Hn Hc. unfold close_entry.
  rewrite (@vget_nth _ 0%R w 0) by lia. cbn [obind]. rewrite (view_get_ok Hnom) by auto. cbn [obind].
  destruct (@set_point N f n c (v_at nominal n c * nth 0 w 0)%R Hf Hn Hc) as (f1 & E1 & S1 & A1 & B1). rewrite E1. cbn [obind].
  destruct (@oloop_ind _ (fun k f' => shaped N 3 f' /\
    v_at f' n c = combination w (v_at nominal n c) (fun k => v_at (field forces k) n c) k /\
    forall n' c', n' <> n \/ c' <> c -> v_at f' n' c' = v_at f n' c') 0 nexact
    (fun k f =>
      do fk <- vget forces k;
      do e <- view_get fk n c;
      do w <- vget w (k + 1);
      do cur <- view_get f n c;
      view_set f n c (cur + e * w)%R) f1) as (f' & E & H1 & H2 & H3); [lia| | |].
  - split; auto. split; auto. unfold combination, at_. cbn [Rsum]. rewrite A1. lra.
  - intros k f2 Hk (S2 & A2 & B2). rewrite (@vget_nth _ no_view forces k) by lia. cbn [obind].
    rewrite (view_get_ok (Hex k (proj2 Hk))) by auto. cbn [obind]. rewrite (@vget_nth _ 0%R w (k + 1)) by lia. cbn [obind].
    rewrite (view_get_ok S2) by auto. cbn [obind].
    destruct (@set_point N f2 n c (v_at f2 n c + v_at (nth k forces no_view) n c * nth (k + 1) w 0)%R S2 Hn Hc) as (f3 & E3 & S3 & A3 & B3).
    exists f3. split; auto. split; auto. split.
    + rewrite A3, A2. unfold combination. cbn [Rsum Nat.add]. unfold at_, field. lra.
    + intros n' c' Hne. rewrite B3, B2; auto.
  - exists f'. auto.
Qed.

Lemma closure_ok N q nominal forces nparameters : samples_ok nparameters q -> shaped N 3 nominal ->
  length forces = uq_nexact q + uq_napprox q -> Forall (shaped N 3) forces ->
  exists forces', apply_closure N q nominal forces = Ok forces' /\
    length forces' = length forces /\ Forall (shaped N 3) forces' /\
    (forall k, k < uq_nexact q -> field forces' k = field forces k) /\
    forall s n c, s < uq_napprox q -> n < N -> c < 3 ->
      v_at (field forces' (uq_nexact q + s)) n c =
        combination (row (uq_coeffs q) s) (v_at nominal n c) (fun k => v_at (field forces k) n c) (uq_nexact q).
Proof.
  intros Hq Hnom Hlen Hf. unfold apply_closure.
  destruct (@oloop_ind _ (fun s0 fs => length fs = length forces /\ Forall (shaped N 3) fs /\
     (forall k, k < uq_nexact q -> field fs k = field forces k) /\
     forall s n c, s < s0 -> n < N -> c < 3 ->
      v_at (field fs (uq_nexact q + s)) n c =
        combination (row (uq_coeffs q) s) (v_at nominal n c) (fun k => v_at (field forces k) n c) (uq_nexact q)) 0 (uq_napprox q)
    (fun s forces =>
    do f <- vget forces (s + uq_nexact q);
    do row <- vget (uq_coeffs q) s;
    do f' <- oloop 0 N (fun n f => oloop 0 3 (fun c f => close_entry (uq_nexact q) row nominal forces n c f) f) f;
    vset forces (s + uq_nexact q) f') forces) as (fs & E & H1 & H2 & H3 & H4); [lia| | |].
  - split; auto. split; auto. split; auto. intros; lia.
  - intros s fs Hs (L & Sh & Ex & Ap).
    rewrite (@vget_nth _ no_view fs (s + uq_nexact q)) by lia. cbn [obind].
    rewrite (@vget_nth _ [] (uq_coeffs q) s) by (rewrite (so_coeffs Hq); lia). cbn [obind].
    destruct (@grid_loop N (fun n c f => close_entry (uq_nexact q) (nth s (uq_coeffs q) []) nominal fs n c f)
      (fun n c _ => combination (row (uq_coeffs q) s) (v_at nominal n c) (fun k => v_at (field forces k) n c) (uq_nexact q))
      (nth (s + uq_nexact q) fs no_view)) as (f' & E' & S' & V').
    + apply nth_in_forall; auto. lia.
    + intros n c v Hn Hc Hv _.
      destruct (@close_entry_ok N (uq_nexact q) (nth s (uq_coeffs q) []) nominal fs n c v) as (f' & A1 & A2 & A3 & A4); auto.
      * intros k Hk. unfold field. apply nth_in_forall; auto. lia.
      * lia.
      * pose proof (so_coeff Hq) as Hc'. unfold row in Hc'. apply Hc'. lia.
      * exists f'. split; auto. split; auto. split; auto. rewrite A3. unfold combination. f_equal. apply Rsum_ext. intros k Hk. now rewrite Ex.
    + rewrite E'. cbn [obind]. rewrite vset_ok by lia. eexists. split; [reflexivity|].
      split; [now rewrite list_set_length|]. split; [|split].
      * apply Forall_forall. intros x Hx. apply (In_nth _ _ no_view) in Hx as (i & Hi & <-). rewrite list_set_length in Hi.
        rewrite nth_list_set by lia. destruct (i =? s + uq_nexact q); auto. apply nth_in_forall; auto.
      * intros k Hk. unfold field in *. rewrite nth_list_set by lia.
        replace (k =? s + uq_nexact q) with false by (symmetry; apply Nat.eqb_neq; lia). auto.
      * intros s' n c Hs' Hn Hc. unfold field. rewrite nth_list_set by lia.
        destruct (Nat.eqb_spec (uq_nexact q + s') (s + uq_nexact q)).
        -- replace s' with s by lia. rewrite V' by auto. reflexivity.
        -- fold (field fs (uq_nexact q + s')). apply Ap; auto. lia.
  - exists fs. auto.
Qed.
