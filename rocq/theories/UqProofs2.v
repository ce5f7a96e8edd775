(** Proofs about the sample forces and the trajectories. *)
From Coq Require Import NArith Reals Lra.
From Verif Require Import Base Strings InputModel InputSpec InputProofs InputProofs2 MeshTextModel Loops ListLemmas BcModel BcSpec BcProofs IntegratorModel IntegratorProofs UqModel UqSpec UqProofs.
Set Implicit Arguments.
Local Open Scope nat_scope.
Local Open Scope list_scope.
Local Notation length := List.length.

Lemma each_loop {A} (d : A) n body val l0 : n <= length l0 ->
  (forall i l, i < n -> length l = length l0 -> nth i l d = nth i l0 d -> body i l = Ok (list_set l i (val i))) ->
  exists l', oloop 0 n body l0 = Ok l' /\ length l' = length l0 /\ forall i, nth i l' d = if i <? n then val i else nth i l0 d.
Proof.
  intros Hn Hb.
  apply (@oloop_ind _ (fun k l => length l = length l0 /\ forall i, nth i l d = if i <? k then val i else nth i l0 d) 0 n body l0); [lia|auto|].
  intros k l Hk (L & V). exists (list_set l k (val k)). split.
  - apply Hb; auto; try lia. rewrite V. replace (k <? k) with false by (symmetry; apply Nat.ltb_ge; lia). auto.
  - split; [now rewrite list_set_length|]. intros i. rewrite nth_list_set by lia.
    destruct (Nat.eqb_spec i k) as [->|Hne].
    + now replace (k <? 1 + k) with true by (symmetry; apply Nat.ltb_lt; lia).
    + rewrite V. replace (i <? 1 + k) with (i <? k); auto. destruct (Nat.ltb_spec i k), (Nat.ltb_spec i (1 + k)); auto; lia.
Qed.

Lemma Forall_nth_intro {A} (P : A -> Prop) d l : (forall i, i < length l -> P (nth i l d)) -> Forall P l.
Proof. intros H. apply Forall_forall. intros x Hx. apply (In_nth _ _ d) in Hx as (i & Hi & <-). auto. Qed.
Lemma field_shaped N l i : Forall (shaped N 3) l -> i < length l -> shaped N 3 (field l i).
Proof. apply nth_in_forall. Qed.
Lemma zero_shaped N v : shaped N 3 v -> shaped N 3 (view_zero v).
Proof. intros (H1 & H2). split; auto. Qed.
Lemma add_shaped N v g : shaped N 3 v -> shaped N 3 (view_add v g).
Proof. intros (H1 & H2). split; auto. Qed.
Lemma sum_over_snoc {A} (l : list A) x f : sum_over (l ++ [x]) f = (sum_over l f + f x)%R.
Proof. unfold sum_over. induction l as [|a l IH]; simpl; [lra|]. rewrite IH. lra. Qed.

Section Force.
  Variables (block_force : block_force_t) (reduce : view -> view) (N : nat).
  Hypothesis Hreduce : forall v, shaped N 3 v -> shaped N 3 (reduce v).
  Variables (q : uq_samples) (p : sample_params) (nparameters : nat).
  Hypothesis Hq : samples_ok nparameters q.
  Let ns := uq_nexact q + uq_napprox q.
  Variables (blocks : list Z) (disp : view) (disps : list view).
  Hypothesis Hdisps : length disps = ns.
  Hypothesis Hparams : forall b k, In b blocks -> k < uq_nexact q -> succeeds (sample_parameters p b k).
  Hypothesis Hnominal : forall b, In b blocks -> succeeds (block_force b None disp).
  Hypothesis Hexact : forall b k, In b blocks -> k < uq_nexact q -> succeeds (block_force b (moduli p b k) (field disps k)).

  Lemma block_forces_ok pre b st : In b blocks ->
    length (snd st) = ns -> shaped N 3 (fst st) -> Forall (shaped N 3) (snd st) ->
    (forall n c, v_at (fst st) n c = sum_over pre (fun b => entry_of (block_force b None disp) n c)) ->
    (forall k n c, k < uq_nexact q -> v_at (field (snd st) k) n c =
       sum_over pre (fun b => entry_of (block_force b (moduli p b k) (field disps k)) n c)) ->
    exists st', block_forces block_force q p disp disps st b = Ok st' /\
    length (snd st') = ns /\ shaped N 3 (fst st') /\ Forall (shaped N 3) (snd st') /\
    (forall n c, v_at (fst st') n c = sum_over (pre ++ [b]) (fun b => entry_of (block_force b None disp) n c)) /\
    (forall k n c, k < uq_nexact q -> v_at (field (snd st') k) n c =
       sum_over (pre ++ [b]) (fun b => entry_of (block_force b (moduli p b k) (field disps k)) n c)).
  Proof.
    intros Hb Hl Hs Hf Hn He. unfold block_forces. destruct (Hnominal b Hb) as (g & Eg). rewrite Eg. cbn [obind].
    destruct (@each_loop _ no_view (uq_nexact q) (fun k (fs : list view) =>
      do u <- vget disps k;
      do f <- vget fs k;
      do pr <- sample_parameters p b k;
      do g <- block_force b (Some (param pr (lit "bulk_modulus"), param pr (lit "shear_modulus"))) u;
      vset fs k (view_add f g))
      (fun k => view_add (field (snd st) k) (entry_of (block_force b (moduli p b k) (field disps k)))) (snd st)) as (fs & E & L & V).
    - lia.
    - intros k l Hk Ll Ev. rewrite (@vget_nth _ no_view disps k) by lia. cbn [obind].
      rewrite (@vget_nth _ no_view l k) by lia. cbn [obind].
      destruct (Hparams b Hb Hk) as (pr & Epr). pose proof (Hexact b Hb Hk) as (g' & Eg'). unfold moduli in Eg' |- *. rewrite Epr in Eg' |- *. cbn [obind].
      fold (field disps k). rewrite Eg'. cbn [obind entry_of]. rewrite vset_ok by lia. rewrite Ev. reflexivity.
    - rewrite E. cbn [obind]. eexists. split; [reflexivity|]. cbn [fst snd]. split; [lia|]. split; [now apply add_shaped|]. split; [|split].
      + apply (Forall_nth_intro _ no_view). intros i Hi. rewrite V. destruct (i <? uq_nexact q).
        * apply add_shaped. apply field_shaped; auto; lia.
        * apply field_shaped; auto; lia.
      + intros n c. cbn [view_add v_at]. rewrite sum_over_snoc, Hn, Eg. reflexivity.
      + intros k n c Hk. unfold field at 1. rewrite V. replace (k <? uq_nexact q) with true by (symmetry; now apply Nat.ltb_lt).
        cbn [view_add v_at]. rewrite sum_over_snoc, He by auto. reflexivity.
  Qed.

  Variables (force : view) (forces : list view).
  Hypothesis Hforce : shaped N 3 force.
  Hypothesis Hforces : length forces = ns.
  Hypothesis Hforces' : Forall (shaped N 3) forces.

  Lemma force_ok : 0 < uq_napprox q ->
    exists total totals force' forces',
      uq_internal_force block_force reduce N q p blocks disp disps force forces = Ok (force', forces') /\
      shaped N 3 total /\ (forall n c, v_at total n c = sum_over blocks (fun b => entry_of (block_force b None disp) n c)) /\
      (forall k, k < uq_nexact q -> shaped N 3 (totals k) /\ forall n c, v_at (totals k) n c =
        sum_over blocks (fun b => entry_of (block_force b (moduli p b k) (field disps k)) n c)) /\
      force' = reduce total /\ shaped N 3 force' /\ length forces' = ns /\ Forall (shaped N 3) forces' /\
      (forall k, k < uq_nexact q -> field forces' k = reduce (totals k)) /\
      (forall s n c, s < uq_napprox q -> n < N -> c < 3 -> v_at (field forces' (uq_nexact q + s)) n c =
         combination (row (uq_coeffs q) s) (v_at force' n c) (fun k => v_at (field forces' k) n c) (uq_nexact q)).
  Proof.
    intros Hap. unfold uq_internal_force. fold ns.
    destruct (@each_loop _ no_view ns (fun i fs => do f <- vget fs i; vset fs i (view_zero f))
      (fun i => view_zero (field forces i)) forces) as (z & Ez & Lz & Vz).
    { lia. }
    { intros i l Hi Ll Ev. rewrite (@vget_nth _ no_view l i) by lia. cbn [obind]. rewrite vset_ok by lia. now rewrite Ev. }
    rewrite Ez. cbn [obind].
    destruct (@ofold_ind _ _ (fun pre (st : view * list view) =>
      length (snd st) = ns /\ shaped N 3 (fst st) /\ Forall (shaped N 3) (snd st) /\
      (forall n c, v_at (fst st) n c = sum_over pre (fun b => entry_of (block_force b None disp) n c)) /\
      (forall k n c, k < uq_nexact q -> v_at (field (snd st) k) n c =
         sum_over pre (fun b => entry_of (block_force b (moduli p b k) (field disps k)) n c)))
      (block_forces block_force q p disp disps) blocks (view_zero force, z)) as ([total zs] & E1 & A1 & A2 & A3 & A4 & A5).
    { cbn [fst snd]. split; [lia|]. split; [now apply zero_shaped|]. split; [|split].
      - apply (Forall_nth_intro _ no_view). intros i Hi. rewrite Vz. replace (i <? ns) with true by (symmetry; apply Nat.ltb_lt; lia).
        apply zero_shaped. apply field_shaped; auto; lia.
      - reflexivity.
      - intros k n c Hk. unfold field at 1. rewrite Vz. replace (k <? ns) with true by (symmetry; apply Nat.ltb_lt; unfold ns; lia). reflexivity. }
    { intros pre b post st El (B1 & B2 & B3 & B4 & B5).
      apply (@block_forces_ok pre b st); auto. rewrite El. apply in_or_app. right. now left. }
    rewrite E1. cbn [obind fst snd] in *.
    destruct (@each_loop _ no_view (uq_nexact q + 1) (fun i fs => do f <- vget fs i; vset fs i (reduce f))
      (fun i => reduce (field zs i)) zs) as (fs & E2 & L2 & V2).
    { unfold ns in *. lia. }
    { intros i l Hi Ll Ev. rewrite (@vget_nth _ no_view l i) by (unfold ns in *; lia). cbn [obind]. rewrite vset_ok by (unfold ns in *; lia). now rewrite Ev. }
    rewrite E2. cbn [obind].
    assert (Hfs : Forall (shaped N 3) fs).
    { apply (Forall_nth_intro _ no_view). intros i Hi. rewrite V2. destruct (i <? uq_nexact q + 1).
      - apply Hreduce. apply field_shaped; auto; lia.
      - apply field_shaped; auto; lia. }
    destruct (@closure_ok N q (reduce total) fs nparameters Hq) as (fs' & E3 & C1 & C2 & C3 & C4); auto.
    { unfold ns in *. lia. }
    rewrite E3. cbn [obind]. exists total, (field zs). do 2 eexists. split; [reflexivity|].
    split; [auto|]. split; [auto|]. split.
    { intros k Hk. split; auto. apply field_shaped; auto; unfold ns in *; lia. }
    split; [auto|]. split; [auto|]. split; [lia|]. split; [auto|]. split.
    { intros k Hk. rewrite C3 by auto. unfold field at 1. rewrite V2. now replace (k <? uq_nexact q + 1) with true by (symmetry; apply Nat.ltb_lt; lia). }
    intros s n c Hs Hn Hc. rewrite C4 by auto. unfold combination. f_equal. apply Rsum_ext. intros k Hk. now rewrite C3.
  Qed.
End Force.

(** With no approximate samples the reduction loop goes past the last trajectory. *)
Lemma ofold_not_ok {A B} (f : A -> B -> outcome A) l (P : A -> Prop) a r : P a ->
  (forall a b a', P a -> In b l -> f a b = Ok a' -> P a') -> ofold f l a = Ok r -> P r.
Proof.
  revert a. induction l as [|b l IH]; intros a Ha Hs H; simpl in H; [congruence|].
  destruct (f a b) as [a'| | |] eqn:E; try discriminate. simpl in H. apply (IH a'); auto.
  - eapply Hs; eauto. now left.
  - intros a1 b1 a2 H1 H2. apply Hs; auto. now right.
Qed.
Lemma obind_ok {A B} (x : outcome A) (f : A -> outcome B) r : obind x f = Ok r -> exists a, x = Ok a /\ f a = Ok r.
Proof. destruct x; simpl; try discriminate. eauto. Qed.
Lemma vset_length {A} (l l' : list A) i v : vset l i v = Ok l' -> length l' = length l.
Proof. unfold vset. destruct (i <? length l); try discriminate. intros [= <-]. apply list_set_length. Qed.
Lemma oloop_length {A} (body : nat -> list A -> outcome (list A)) n l l' :
  (forall i a a', body i a = Ok a' -> length a' = length a) -> oloop 0 n body l = Ok l' -> length l' = length l.
Proof.
  intros H E. unfold oloop in E. apply (@ofold_not_ok _ _ _ _ (fun a => length a = length l) _ _ eq_refl) in E; auto.
  intros a b a' Ha _ Hb. rewrite <- Ha. eauto.
Qed.

Lemma no_approx block_force reduce N q p blocks disp disps force forces r :
  uq_napprox q = 0 -> length forces = uq_nexact q ->
  uq_internal_force block_force reduce N q p blocks disp disps force forces <> Ok r.
Proof.
  intros Hap Hl H. unfold uq_internal_force in H.
  apply obind_ok in H as (z & E1 & H). apply obind_ok in H as ([t zs] & E2 & H). apply obind_ok in H as (fs & E3 & H).
  apply oloop_length in E1. 2:{ intros i a a' Ha. apply obind_ok in Ha as (f & _ & Ha). now apply vset_length in Ha. }
  apply (@ofold_not_ok _ _ _ _ (fun st : view * list view => length (snd st) = length z)) in E2; auto.
  2:{ intros [a1 a2] b [a1' a2'] Ha _ Hb. unfold block_forces in Hb. cbn [fst snd] in *.
      apply obind_ok in Hb as (g & _ & Hb). apply obind_ok in Hb as (fs' & Hb & E). injection E as _ <-. rewrite <- Ha.
      apply oloop_length in Hb; auto. intros i l l' Hl'.
      apply obind_ok in Hl' as (? & _ & Hl'). apply obind_ok in Hl' as (? & _ & Hl'). apply obind_ok in Hl' as (? & _ & Hl').
      apply obind_ok in Hl' as (? & _ & Hl'). now apply vset_length in Hl'. }
  cbn [snd] in E2, E3. unfold oloop in E3. rewrite Nat.sub_0_r, seq_app in E3. cbn [seq Nat.add] in E3.
  rewrite ofold_app in E3. apply obind_ok in E3 as (a & Ea & E3). cbn [ofold] in E3.
  apply obind_ok in E3 as (b & E3 & _). apply obind_ok in E3 as (f & E3 & _).
  assert (La : length a = length zs).
  { apply (@ofold_not_ok _ _ _ _ (fun l : list view => length l = length zs)) in Ea; auto.
    intros l i l' L _ Hl'. apply obind_ok in Hl' as (? & _ & Hl'). apply vset_length in Hl'. congruence. }
  unfold vget in E3. destruct (nth_error a (uq_nexact q)) eqn:En; try discriminate.
  assert (uq_nexact q < length a) by (apply nth_error_Some; congruence). lia.
Qed.

(** A block without sample parameters *)
Lemma no_parameters block_force reduce N q p blocks disp disps force forces r b :
  In b blocks -> assoc Z.eqb b p = None -> 0 < uq_nexact q ->
  uq_internal_force block_force reduce N q p blocks disp disps force forces <> Ok r.
Proof.
  intros Hb Hp Hq H. unfold uq_internal_force in H.
  apply obind_ok in H as (z & _ & H). apply obind_ok in H as (st & E & _).
  apply in_split in Hb as (l1 & l2 & ->). rewrite ofold_app in E. apply obind_ok in E as (st1 & _ & E). cbn [ofold] in E.
  apply obind_ok in E as (st2 & E & _). unfold block_forces in E. apply obind_ok in E as (g & _ & E). apply obind_ok in E as (fs & E & _).
  unfold oloop in E. rewrite Nat.sub_0_r in E. destruct (uq_nexact q) as [|n]; [lia|]. cbn [seq ofold] in E.
  apply obind_ok in E as (? & E & _). apply obind_ok in E as (? & _ & E). apply obind_ok in E as (? & _ & E). apply obind_ok in E as (? & E & _).
  unfold sample_parameters in E. rewrite Hp in E. discriminate.
Qed.
