(** The tables of fields: what an allocation changes and what it leaves alone. *)
From Coq Require Import Reals Lra.
From Verif Require Import Base Strings ListLemmas DataModel DataProofs Loops InputProofs3 ElemDataProofs4 KokkosModel KokkosProofs.
Set Implicit Arguments.
Local Open Scope nat_scope.
Local Open Scope list_scope.
Local Notation length := List.length.

(** * Look-ups *)
Inductive key := KNode (id : nat) | KElem (block id : nat) | KIpt (block id : nat) (st : step_t).
Lemma key_dec (a b : key) : {a = b} + {a <> b}.
Proof. decide equality; try apply Nat.eq_dec. decide equality. Defined.
Definition pair_at (hs ds : list kfield) (hi di : list (nat * nat)) (id : nat) : option (kfield * kfield) :=
  match assoc Nat.eqb id hi, assoc Nat.eqb id di with
  | Some i, Some j => match nth_error hs i, nth_error ds j with Some a, Some b => Some (a, b) | _, _ => None end
  | _, _ => None
  end.
Definition tlook (t : table) (id : nat) := pair_at (t_host t) (t_dev t) (t_hidx t) (t_didx t) id.
Definition ilook (t : itable) (id : nat) (st : step_t) :=
  match st with STEP_N => pair_at (i_hn t) (i_dn t) (i_hidx t) (i_didx t) id | STEP_NP1 => pair_at (i_hnp1 t) (i_dnp1 t) (i_hidx t) (i_didx t) id end.
Definition sub {T} (idx : list (nat * nat)) (ts : list T) (b : nat) : option T := match assoc Nat.eqb b idx with Some i => nth_error ts i | None => None end.
(** host and device view of a field *)
Definition look (tb : tables) (k : key) : option (kfield * kfield) :=
  match k with
  | KNode id => tlook (tb_node tb) id
  | KElem b id => match sub (tb_eidx tb) (tb_elem tb) b with Some t => tlook t id | None => None end
  | KIpt b id st => match sub (tb_iidx tb) (tb_ipt tb) b with Some t => ilook t id st | None => None end
  end.
Ltac looks := unfold vat, mat, mat_id; repeat match goal with |- context [match ?x with _ => _ end] => destruct x eqn:?; cbn [obind]; try discriminate end.
Lemma cast_same k v : cast k (KF k v) = Ok v.
Proof. unfold cast. simpl. now destruct (kind_eq_dec k k). Qed.
Lemma look_node tb id kh vh kd vd : look tb (KNode id) = Some (KF kh vh, KF kd vd) -> host_node tb kh (Some id) = Ok vh /\ dev_node tb kd (Some id) = Ok vd.
Proof.
  unfold look, tlook, pair_at, host_node, dev_node, mat_id, mat, vat. destruct (assoc Nat.eqb id (t_hidx _)) as [i|]; [|discriminate].
  destruct (assoc Nat.eqb id (t_didx _)) as [j|]; [|discriminate]. cbn [obind].
  destruct (nth_error (t_host _) i) as [a|]; [|discriminate]. destruct (nth_error (t_dev _) j) as [b|]; [|discriminate].
  intros [= -> ->]. cbn [obind]. now rewrite !cast_same.
Qed.
Lemma look_ipt tb b id st kh vh kd vd : look tb (KIpt b id st) = Some (KF kh vh, KF kd vd) ->
  host_ipt tb kh b (Some id) st = Ok vh /\ dev_ipt tb kd b (Some id) st = Ok vd.
Proof.
  unfold look, sub, ilook, pair_at, host_ipt, dev_ipt, mat_id, mat, vat. destruct (assoc Nat.eqb b (tb_iidx tb)) as [bi|]; [|discriminate].
  cbn [obind]. destruct (nth_error (tb_ipt tb) bi) as [t|]; [|discriminate]. cbn [obind].
  destruct st; (destruct (assoc Nat.eqb id (i_hidx t)) as [i|]; [|discriminate];
  destruct (assoc Nat.eqb id (i_didx t)) as [j|]; [|discriminate]; cbn [obind];
  destruct (nth_error _ i) as [x|]; [|discriminate]; destruct (nth_error _ j) as [y|]; [|discriminate];
  intros [= -> ->]; cbn [obind]; now rewrite !cast_same).
Qed.
Lemma look_elem tb b id kh vh kd vd : look tb (KElem b id) = Some (KF kh vh, KF kd vd) ->
  host_elem tb kh b (Some id) = Ok vh /\ dev_elem tb kd b (Some id) = Ok vd.
Proof.
  unfold look, sub, tlook, pair_at, host_elem, dev_elem, mat_id, mat, vat. destruct (assoc Nat.eqb b (tb_eidx tb)) as [bi|]; [|discriminate].
  cbn [obind]. destruct (nth_error (tb_elem tb) bi) as [t|]; [|discriminate]. cbn [obind].
  destruct (assoc Nat.eqb id (t_hidx t)) as [i|]; [|discriminate];
  destruct (assoc Nat.eqb id (t_didx t)) as [j|]; [|discriminate]; cbn [obind];
  destruct (nth_error _ i) as [x|]; [|discriminate]; destruct (nth_error _ j) as [y|]; [|discriminate];
  intros [= -> ->]; cbn [obind]; now rewrite !cast_same.
Qed.

(** * Appending to a table *)
Definition in_range {A} (idx : list (nat * nat)) (l : list A) : Prop := forall id i, assoc Nat.eqb id idx = Some i -> i < length l.
Lemma pair_at_add hs ds hi di id a b id' : in_range hi hs -> in_range di ds ->
  pair_at (hs ++ [a]) (ds ++ [b]) (map_put id (length hs) hi) (map_put id (length ds) di) id' = if id' =? id then Some (a, b) else pair_at hs ds hi di id'.
Proof.
  intros H1 H2. unfold pair_at. rewrite !assoc_put. destruct (id' =? id).
  - now rewrite !nth_error_snoc_last.
  - destruct (assoc Nat.eqb id' hi) as [i|] eqn:E1; auto. destruct (assoc Nat.eqb id' di) as [j|] eqn:E2; auto.
    rewrite !nth_error_app1; eauto.
Qed.
Lemma in_range_add {A} idx (l : list A) id a : in_range idx l -> in_range (map_put id (length l) idx) (l ++ [a]).
Proof.
  intros H id' i. rewrite assoc_put, app_length. simpl. destruct (id' =? id); [intros [= <-]; lia|]. intros E. apply H in E. lia.
Qed.
Definition twf (t : table) : Prop := in_range (t_hidx t) (t_host t) /\ in_range (t_didx t) (t_dev t).
Definition iwf (t : itable) : Prop := in_range (i_hidx t) (i_hn t) /\ in_range (i_hidx t) (i_hnp1 t) /\ in_range (i_didx t) (i_dn t) /\ in_range (i_didx t) (i_dnp1 t) /\
  length (i_hn t) = length (i_hnp1 t) /\ length (i_dn t) = length (i_dnp1 t).
(** sub-tables: indices in range, one block each *)
Definition swf {T} (P : T -> Prop) (idx : list (nat * nat)) (ts : list T) : Prop :=
  in_range idx ts /\ (forall b1 b2 i, assoc Nat.eqb b1 idx = Some i -> assoc Nat.eqb b2 idx = Some i -> b1 = b2) /\ Forall P ts.
Definition labels_ok (l : list (chars * nat)) : Prop :=
  (forall x i, assoc chars_eqb x l = Some i -> i < length l) /\ (forall x y i, assoc chars_eqb x l = Some i -> assoc chars_eqb y l = Some i -> x = y).
Definition wft (tb : tables) : Prop :=
  labels_ok (tb_labels tb) /\ twf (tb_node tb) /\ swf twf (tb_eidx tb) (tb_elem tb) /\ swf iwf (tb_iidx tb) (tb_ipt tb).

Lemma assoc_set_len {V} k (v : V) m : assoc chars_eqb k m = None -> length (assoc_set chars_eqb k v m) = 1 + length m.
Proof. induction m as [|[a b] m IH]; simpl; auto. destruct (chars_eqb k a); [discriminate|]. intros H. simpl. now rewrite IH. Qed.
Lemma label_spec l x l' id : labels_ok l -> label_id l x = (l', id) ->
  labels_ok l' /\ assoc chars_eqb x l' = Some id /\ forall y i, assoc chars_eqb y l = Some i -> assoc chars_eqb y l' = Some i.
Proof.
  intros [H1 H2]. unfold label_id. destruct (assoc chars_eqb x l) as [i|] eqn:E; intros [= <- <-]; [repeat split; auto|].
  assert (A : forall y, assoc chars_eqb y (assoc_set chars_eqb x (length l) l) = if chars_eqb y x then Some (length l) else assoc chars_eqb y l).
  { intros y. apply assoc_assoc_set. intros; apply chars_eqb_eq. }
  assert (Len : length (assoc_set chars_eqb x (length l) l) = 1 + length l) by now apply assoc_set_len.
  repeat split.
  - intros y i. rewrite A, Len. destruct (chars_eqb y x); [intros [= <-]; lia|]. intros Hy. apply H1 in Hy. lia.
  - intros y z i. rewrite !A. destruct (chars_eqb y x) eqn:Ey, (chars_eqb z x) eqn:Ez; try (apply chars_eqb_eq in Ey); try (apply chars_eqb_eq in Ez); subst; auto.
    + intros [= <-] Hz. apply H1 in Hz. lia.
    + intros Hy [= <-]. apply H1 in Hy. lia.
    + apply H2.
  - rewrite A. now rewrite (proj2 (chars_eqb_eq x x) eq_refl).
  - intros y i Hy. rewrite A. destruct (chars_eqb y x) eqn:Ey; auto. apply chars_eqb_eq in Ey. subst. congruence.
Qed.
(** creating the sub-table of a block, then replacing it *)
Lemma sub_spec {T} (P : T -> Prop) idx (ts : list T) b empty (t0 : T) idx' ts' bi : P empty -> swf P idx ts ->
  (match assoc Nat.eqb b idx with Some _ => (idx, ts) | None => (map_put b (length ts) idx, ts ++ [empty]) end) = (idx', ts') ->
  mat idx' b = Ok bi -> vat ts' bi = Ok t0 ->
  (t0 = match sub idx ts b with Some t => t | None => empty end) /\ P t0 /\
  forall t1, P t1 -> swf P idx' (list_set ts' bi t1) /\ forall b', sub idx' (list_set ts' bi t1) b' = if b' =? b then Some t1 else sub idx ts b'.
Proof.
  intros Pe (W1 & W2 & W3) Hc Hm Hv. unfold mat in Hm. unfold vat in Hv.
  destruct (assoc Nat.eqb b idx) as [i|] eqn:E.
  - injection Hc as <- <-. rewrite E in Hm. injection Hm as ->. destruct (nth_error ts bi) as [t|] eqn:En; [|discriminate]. injection Hv as ->.
    assert (P0 : P t0) by (eapply Forall_forall; [exact W3|]; eapply nth_error_In; exact En). split; [unfold sub; now rewrite E, En|]. split; auto.
    intros t1 P1. split.
    + repeat split; [intros x y Hx; rewrite list_set_length; eauto|exact W2|].
      apply Forall_forall. intros x Hx. apply In_nth_error in Hx. destruct Hx as [k Hk]. rewrite nth_error_list_set in Hk.
      destruct (_ && _); [injection Hk as <-; exact P1|]. eapply Forall_forall; [exact W3|]. eapply nth_error_In; exact Hk.
    + intros b'. unfold sub. destruct (Nat.eqb_spec b' b) as [->|Hne].
      * rewrite E. apply nth_set_same. eauto.
      * destruct (assoc Nat.eqb b' idx) as [j|] eqn:Ej; auto. apply nth_set_other. intros ->. apply Hne. eapply W2; eauto.
  - injection Hc as <- <-. rewrite assoc_put, Nat.eqb_refl in Hm. injection Hm as <-. rewrite nth_error_snoc_last in Hv. injection Hv as <-.
    split; [unfold sub; now rewrite E|]. split; auto. intros t1 P1.
    assert (EL : list_set (ts ++ [empty]) (length ts) t1 = ts ++ [t1]).
    { clear. induction ts as [|t ts IH]; simpl; auto. now rewrite IH. }
    rewrite EL. split.
    + repeat split.
      * apply in_range_add. exact W1.
      * intros b1 b2 i. rewrite !assoc_put. destruct (Nat.eqb_spec b1 b) as [->|], (Nat.eqb_spec b2 b) as [->|]; auto.
        -- intros [= <-] H. apply W1 in H. lia.
        -- intros H [= <-]. apply W1 in H. lia.
        -- apply W2.
      * apply Forall_app. split; auto.
    + intros b'. unfold sub. rewrite assoc_put. destruct (Nat.eqb_spec b' b) as [->|]; [apply nth_error_snoc_last|].
      destruct (assoc Nat.eqb b' idx) as [j|] eqn:Ej; auto. apply nth_error_app1. eauto.
Qed.
