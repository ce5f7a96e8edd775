(** The object after DataManager::Initialize and InitializeBlocks. *)
From Coq Require Import Reals Lra Sorted.
From Verif Require Import Base Strings ListLemmas DataModel DataProofs Loops InputProofs3 ElemDataProofs4 KokkosModel KokkosProofs KokkosProofs7 KokkosProofs8.
Set Implicit Arguments.
Local Open Scope nat_scope.
Local Open Scope list_scope.
Local Notation length := List.length.

(** a field with given contents on the host and on the device *)
Definition holds (s : tables * heap) (x : key) (k : kind) (n : nat) (hd dd : list R) : Prop :=
  exists p, look (fst s) x = Some p /\ kf_kind (fst p) = k /\ kf_kind (snd p) = k /\ extent (fst p) = n /\ extent (snd p) = n /\
    nth_error (snd s) (vid (fst p)) = Some hd /\ nth_error (snd s) (vid (snd p)) = Some dd.
Lemma holds_new same s s' label id keys k n init x : allocated same s s' label id keys k n init -> In x keys -> holds s' x k n init init.
Proof. intros A Hx. destruct (a_new A x Hx) as (p & H1 & H2 & H3 & H4 & H5 & H6 & H7 & _). exists p. repeat split; auto. Qed.
Lemma holds_old same s s' label id keys k n init x k' n' hd dd : allocated same s s' label id keys k n init -> ~ In x keys -> holds s x k' n' hd dd -> holds s' x k' n' hd dd.
Proof.
  intros A Hx (p & H1 & H2 & H3 & H4 & H5 & H6 & H7). exists p. rewrite (a_other A) by assumption. destruct (a_heap A) as [_ K].
  repeat split; auto; rewrite K; auto; eapply nth_some_lt; eauto.
Qed.
Lemma good_none same : good same (no_tables, []).
Proof.
  constructor; simpl.
  - repeat split; simpl; try constructor; try (intros ? ? H; discriminate); try (intros ? ? ? H; discriminate).
  - intros [|b id|b id []] p H; try discriminate.
  - intros [|b id|b id []] k2 p q H; try discriminate.
Qed.
(** changing the contents of a view, not its size *)
Lemma good_set same tb h g d d' : good same (tb, h) -> nth_error h g = Some d -> length d' = length d -> good same (tb, list_set h g d').
Proof.
  intros [G1 G2 G3] Hg Hl. constructor; cbn [fst snd] in *; auto. intros k p Hp. destruct (G2 k p Hp) as (A & B & C).
  assert (St : forall f, stored h f -> stored (list_set h g d') f).
  { intros f (x & H1 & H2). destruct (Nat.eq_dec (vid f) g) as [E|E].
    - exists d'. rewrite E, nth_set_same by (eapply nth_some_lt; eauto). split; auto. rewrite Hl. rewrite E, Hg in H1. injection H1 as ->. exact H2.
    - exists x. rewrite nth_set_other by assumption. auto. }
  split; [auto|]. split; [auto|]. exact C.
Qed.
(** two labels with different names have different ids *)
Lemma label_ne same s x y i j : good same s -> assoc chars_eqb x (tb_labels (fst s)) = Some i -> assoc chars_eqb y (tb_labels (fst s)) = Some j -> x <> y -> i <> j.
Proof. intros G H1 H2 Hne ->. apply Hne. destruct (g_wf G) as ((_ & H) & _). eapply H; eauto. Qed.

(** * DataManager::Initialize *)
Definition coord_list (dim N : nat) (coords : nat -> nat -> R) : list R := map (fun j => if j mod 3 <? dim then coords (j / 3) (j mod 3) else 0%R) (seq 0 (N * 3)).
Lemma write_rows_ok dim coords N h v : dim <= 3 -> nth_error h (v_id v) = Some (repeat 0%R (N * 3)) ->
  write_rows dim coords N h v = Ok (list_set h (v_id v) (coord_list dim N coords)).
Proof.
  intros Hd Hv. unfold write_rows.
  pose (cell := fun i c j => if (j / 3 <? i) || ((j / 3 =? i) && (j mod 3 <? c)) then if j mod 3 <? dim then coords (j / 3) (j mod 3) else 0%R else 0%R).
  assert (Lt : v_id v < length h) by (eapply nth_some_lt; eauto).
  destruct (@oloop_ind heap (fun i h' => h' = list_set h (v_id v) (map (cell i 0) (seq 0 (N * 3)))) 0 N
    (fun i h => oloop 0 dim (fun c h => do _ <- rd h (v_id v, i * 3 + c); Ok (wr h (v_id v, i * 3 + c) (coords i c))) h) h) as (h' & E & ->).
  - lia.
  - symmetry. apply list_set_self. rewrite Hv. f_equal. apply list_of_map; [apply repeat_length|]. intros j Hj. rewrite nth_error_repeat by assumption.
    unfold cell. f_equal. destruct (j / 3 <? 0) eqn:E1; [apply Nat.ltb_lt in E1; lia|]. destruct (j mod 3 <? 0) eqn:E2; [apply Nat.ltb_lt in E2; lia|]. now rewrite andb_false_r.
  - intros i s Hi ->.
    destruct (@oloop_ind heap (fun c h' => h' = list_set h (v_id v) (map (cell i c) (seq 0 (N * 3)))) 0 dim
      (fun c h => do _ <- rd h (v_id v, i * 3 + c); Ok (wr h (v_id v, i * 3 + c) (coords i c))) (list_set h (v_id v) (map (cell i 0) (seq 0 (N * 3))))) as (h' & E & ->).
    + lia.
    + reflexivity.
    + intros c s Hc ->. set (d := map (cell i c) (seq 0 (N * 3))). assert (Ld : length d = N * 3) by (unfold d; now rewrite map_length, seq_length).
      unfold rd, vget. cbn [fst snd]. rewrite nth_set_same by assumption. cbn [obind].
      destruct (nth_error d (i * 3 + c)) as [x|] eqn:Ex; [|apply nth_error_None in Ex; nia]. cbn [obind]. eexists. split; [reflexivity|].
      unfold wr. cbn [fst snd]. rewrite nth_set_same by assumption. rewrite list_set_set. f_equal.
      apply list_of_map; [now rewrite list_set_length|]. intros j Hj. rewrite nth_error_list_set, Ld. unfold d. rewrite nth_map_seq by assumption.
      assert (E3 : (i * 3 + c) / 3 = i) by (symmetry; apply (Nat.div_unique _ 3 i c); lia).
      assert (E4 : (i * 3 + c) mod 3 = c) by (symmetry; apply (Nat.mod_unique _ 3 i c); lia).
      destruct (Nat.eqb_spec j (i * 3 + c)) as [->|Hne].
      * replace (i * 3 + c <? N * 3) with true by (symmetry; apply Nat.ltb_lt; nia). simpl andb. cbv iota. f_equal. unfold cell. rewrite E3, E4.
        replace (i <? i) with false by (symmetry; apply Nat.ltb_ge; lia). rewrite Nat.eqb_refl. replace (c <? 1 + c) with true by (symmetry; apply Nat.ltb_lt; lia).
        simpl. replace (c <? dim) with true by (symmetry; apply Nat.ltb_lt; lia). reflexivity.
      * simpl andb. cbv iota. f_equal. unfold cell. pose proof (Nat.div_mod j 3 ltac:(lia)) as Ej. pose proof (Nat.mod_upper_bound j 3 ltac:(lia)) as Uj.
        destruct (Nat.ltb_spec (j / 3) i); auto. destruct (Nat.eqb_spec (j / 3) i) as [Eq|]; auto. cbn [orb andb].
        destruct (Nat.ltb_spec (j mod 3) c), (Nat.ltb_spec (j mod 3) (1 + c)); auto; lia.
    + rewrite E. eexists. split; [reflexivity|]. f_equal. apply map_ext. intros j. unfold cell.
      pose proof (Nat.div_mod j 3 ltac:(lia)) as Ej. pose proof (Nat.mod_upper_bound j 3 ltac:(lia)) as Uj.
      destruct (Nat.ltb_spec (j / 3) i), (Nat.ltb_spec (j / 3) (1 + i)), (Nat.eqb_spec (j / 3) i), (Nat.eqb_spec (j / 3) (1 + i)), (Nat.ltb_spec (j mod 3) dim), (Nat.ltb_spec (j mod 3) 0); simpl; auto; lia.
  - rewrite E. do 2 f_equal. unfold coord_list. apply map_ext_in. intros j Hj. apply in_seq in Hj. unfold cell.
    assert (j / 3 < N) by (apply Nat.div_lt_upper_bound; lia). replace (j / 3 <? N) with true by (symmetry; apply Nat.ltb_lt; lia). reflexivity.
Qed.
Definition explicit : chars := lit "explicit".
(** the names of the nodal fields, in the order of allocation *)
Record node_ids := NI { n_mass : nat; n_ref : nat; n_disp : nat; n_vel : nat; n_acc : nat; n_force : nat; n_ext : nat; n_con : nat }.
Definition label_of (tb : tables) (l : chars) (i : nat) : Prop := assoc chars_eqb l (tb_labels tb) = Some i.
Record labelled (tb : tables) (i : node_ids) : Prop := {
  lb_mass : label_of tb (lit "lumped_mass") (n_mass i); lb_ref : label_of tb (lit "reference_coordinate") (n_ref i);
  lb_disp : label_of tb (lit "displacement") (n_disp i); lb_vel : label_of tb (lit "velocity") (n_vel i);
  lb_acc : label_of tb (lit "acceleration") (n_acc i); lb_force : label_of tb (lit "internal_force") (n_force i);
  lb_ext : label_of tb (lit "external_force") (n_ext i); lb_con : label_of tb (lit "contact_force") (n_con i) }.
Lemma labelled_mono same s s' label id keys k n init i : allocated same s s' label id keys k n init -> labelled (fst s) i -> labelled (fst s') i.
Proof. intros A [H1 H2 H3 H4 H5 H6 H7 H8]. constructor; eapply (a_labels A); eassumption. Qed.
Definition zeros3 (N : nat) : list R := repeat 0%R (N * 3).
(** contents of the nodal fields: [hr] and [dr] are the host's and the device's reference coordinates *)
Record nodal (s : tables * heap) (i : node_ids) (N : nat) (hr dr : list R) : Prop := {
  no_mass : holds s (KNode (n_mass i)) KScalarNode N (repeat 0%R N) (repeat 0%R N);
  no_ref : holds s (KNode (n_ref i)) KVectorNode N hr dr;
  no_disp : holds s (KNode (n_disp i)) KVectorNode N (zeros3 N) (zeros3 N);
  no_vel : holds s (KNode (n_vel i)) KVectorNode N (zeros3 N) (zeros3 N);
  no_acc : holds s (KNode (n_acc i)) KVectorNode N (zeros3 N) (zeros3 N);
  no_force : holds s (KNode (n_force i)) KVectorNode N (zeros3 N) (zeros3 N);
  no_ext : holds s (KNode (n_ext i)) KVectorNode N (zeros3 N) (zeros3 N);
  no_con : holds s (KNode (n_con i)) KVectorNode N (zeros3 N) (zeros3 N) }.
Definition ids_of (i : node_ids) (o : field_ids) : Prop :=
  f_ref o = Some (n_ref i) /\ f_disp o = Some (n_disp i) /\ f_vel o = Some (n_vel i) /\ f_mass o = Some (n_mass i) /\ f_force o = Some (n_force i).
Lemma initialize_ok same dim N coords : dim = 2 \/ dim = 3 ->
  exists d i, initialize same explicit dim N coords = Ok d /\ kd_same d = same /\ good same (state_of d) /\ labelled (kd_tables d) i /\ ids_of i (kd_ids d) /\
    nodal (state_of d) i N (coord_list dim N coords) (if same then coord_list dim N coords else zeros3 N) /\
    kd_blocks d = [] /\ kd_disp d = None /\ kd_vel d = None.
Proof.
  intros Hdim. unfold initialize.
  replace (negb ((dim =? 2) || (dim =? 3))) with false by (destruct Hdim as [->| ->]; reflexivity). cbv zeta.
  change (chars_eqb explicit (lit "explicit")) with true. change (chars_eqb explicit (lit "quasistatic")) with false. cbv iota.
  destruct (@node_spec same (@pair tables heap no_tables []) SCALAR (lit "lumped_mass") N KScalarNode (good_none same) eq_refl) as (s0 & i0 & E0 & A0). rewrite E0. cbn [obind fst snd].
  destruct (@node_spec same s0 VECTOR (lit "reference_coordinate") N KVectorNode (a_good A0) eq_refl) as (s1 & i1 & E1 & A1). rewrite E1. cbn [obind fst snd].
  destruct (@node_spec same s1 VECTOR (lit "displacement") N KVectorNode (a_good A1) eq_refl) as (s2 & i2 & E2 & A2). rewrite E2. cbn [obind fst snd].
  destruct (@node_spec same s2 VECTOR (lit "velocity") N KVectorNode (a_good A2) eq_refl) as (s3 & i3 & E3 & A3). rewrite E3. cbn [obind fst snd].
  destruct (@node_spec same s3 VECTOR (lit "acceleration") N KVectorNode (a_good A3) eq_refl) as (s4 & i4 & E4 & A4). rewrite E4. cbn [obind fst snd].
  destruct (@node_spec same s4 VECTOR (lit "internal_force") N KVectorNode (a_good A4) eq_refl) as (s5 & i5 & E5 & A5). rewrite E5. cbn [obind fst snd].
  destruct (@node_spec same s5 VECTOR (lit "external_force") N KVectorNode (a_good A5) eq_refl) as (s6 & i6 & E6 & A6). rewrite E6. cbn [obind fst snd].
  destruct (@node_spec same s6 VECTOR (lit "contact_force") N KVectorNode (a_good A6) eq_refl) as (s7 & i7 & E7 & A7). rewrite E7. cbn [obind fst snd].
  set (i := NI i0 i1 i2 i3 i4 i5 i6 i7).
  assert (Lb : labelled (fst s7) i).
  { constructor; unfold label_of; simpl.
    - apply (a_labels A7), (a_labels A6), (a_labels A5), (a_labels A4), (a_labels A3), (a_labels A2), (a_labels A1), (a_label A0).
    - apply (a_labels A7), (a_labels A6), (a_labels A5), (a_labels A4), (a_labels A3), (a_labels A2), (a_label A1).
    - apply (a_labels A7), (a_labels A6), (a_labels A5), (a_labels A4), (a_labels A3), (a_label A2).
    - apply (a_labels A7), (a_labels A6), (a_labels A5), (a_labels A4), (a_label A3).
    - apply (a_labels A7), (a_labels A6), (a_labels A5), (a_label A4).
    - apply (a_labels A7), (a_labels A6), (a_label A5).
    - apply (a_labels A7), (a_label A6).
    - apply (a_label A7). }
  assert (Ne : forall x y a b, assoc chars_eqb x (tb_labels (fst s7)) = Some a -> assoc chars_eqb y (tb_labels (fst s7)) = Some b -> x <> y -> ~ In (KNode a) [KNode b]).
  { intros x y a b Hx Hy Hne [E|[]]. injection E as ->. exact (label_ne (a_good A7) Hx Hy Hne eq_refl). }
  destruct Lb as [B0 B1 B2 B3 B4 B5 B6 B7] eqn:LbE. clear LbE. unfold label_of in *. simpl in B0, B1, B2, B3, B4, B5, B6, B7.
  assert (Nd : nodal s7 i N (zeros3 N) (zeros3 N)).
  { assert (W : width KScalarNode = 1) by reflexivity. assert (Z1 : repeat 0%R (N * width KScalarNode) = repeat 0%R N) by (rewrite W, Nat.mul_1_r; reflexivity).
    rewrite Z1 in A0.
    constructor; simpl.
    - eapply (holds_old A7); [eapply Ne; [exact B0|exact B7|discriminate]|]. eapply (holds_old A6); [eapply Ne; [exact B0|exact B6|discriminate]|].
      eapply (holds_old A5); [eapply Ne; [exact B0|exact B5|discriminate]|]. eapply (holds_old A4); [eapply Ne; [exact B0|exact B4|discriminate]|].
      eapply (holds_old A3); [eapply Ne; [exact B0|exact B3|discriminate]|]. eapply (holds_old A2); [eapply Ne; [exact B0|exact B2|discriminate]|].
      eapply (holds_old A1); [eapply Ne; [exact B0|exact B1|discriminate]|]. eapply (holds_new _ A0). now left.
    - eapply (holds_old A7); [eapply Ne; [exact B1|exact B7|discriminate]|]. eapply (holds_old A6); [eapply Ne; [exact B1|exact B6|discriminate]|].
      eapply (holds_old A5); [eapply Ne; [exact B1|exact B5|discriminate]|]. eapply (holds_old A4); [eapply Ne; [exact B1|exact B4|discriminate]|].
      eapply (holds_old A3); [eapply Ne; [exact B1|exact B3|discriminate]|]. eapply (holds_old A2); [eapply Ne; [exact B1|exact B2|discriminate]|].
      eapply (holds_new _ A1). now left.
    - eapply (holds_old A7); [eapply Ne; [exact B2|exact B7|discriminate]|]. eapply (holds_old A6); [eapply Ne; [exact B2|exact B6|discriminate]|].
      eapply (holds_old A5); [eapply Ne; [exact B2|exact B5|discriminate]|]. eapply (holds_old A4); [eapply Ne; [exact B2|exact B4|discriminate]|].
      eapply (holds_old A3); [eapply Ne; [exact B2|exact B3|discriminate]|]. eapply (holds_new _ A2). now left.
    - eapply (holds_old A7); [eapply Ne; [exact B3|exact B7|discriminate]|]. eapply (holds_old A6); [eapply Ne; [exact B3|exact B6|discriminate]|].
      eapply (holds_old A5); [eapply Ne; [exact B3|exact B5|discriminate]|]. eapply (holds_old A4); [eapply Ne; [exact B3|exact B4|discriminate]|].
      eapply (holds_new _ A3). now left.
    - eapply (holds_old A7); [eapply Ne; [exact B4|exact B7|discriminate]|]. eapply (holds_old A6); [eapply Ne; [exact B4|exact B6|discriminate]|].
      eapply (holds_old A5); [eapply Ne; [exact B4|exact B5|discriminate]|]. eapply (holds_new _ A4). now left.
    - eapply (holds_old A7); [eapply Ne; [exact B5|exact B7|discriminate]|]. eapply (holds_old A6); [eapply Ne; [exact B5|exact B6|discriminate]|]. eapply (holds_new _ A5). now left.
    - eapply (holds_old A7); [eapply Ne; [exact B6|exact B7|discriminate]|]. eapply (holds_new _ A6). now left.
    - eapply (holds_new _ A7). now left. }
  destruct Nd as [D0 D1 D2 D3 D4 D5 D6 D7]. simpl in *.
  unfold get_field_id. rewrite B1. cbn [obind].
  destruct D1 as (p & P1 & P2 & P3 & P4 & P5 & P6 & P7). destruct p as [[kh vh] [kd vd]]. simpl in P2, P3. subst kh kd.
  destruct (look_node _ _ P1) as [Q1 Q2]. rewrite Q1. cbn [obind].
  unfold vid in P6, P7. cbn [kf_view fst snd] in P6, P7.
  rewrite (@write_rows_ok dim coords N (snd s7) vh) by (assumption || lia). cbn [obind].
  assert (Lc : length (coord_list dim N coords) = length (zeros3 N)) by (unfold coord_list, zeros3; now rewrite map_length, seq_length, repeat_length).
  eexists _, i. split; [reflexivity|]. cbn [kd_same kd_tables kd_heap kd_ids kd_blocks kd_disp kd_vel].
  split; [reflexivity|]. split; [|split; [|split; [|split; [|auto]]]].
  - unfold state_of. cbn [kd_tables kd_heap]. eapply good_set; [|exact P6|exact Lc]. destruct s7; exact (a_good A7).
  - constructor; simpl; assumption.
  - repeat split; reflexivity.
  - unfold state_of. cbn [kd_tables kd_heap].
    assert (Oth : forall a x k hd dd, holds s7 (KNode a) k N hd dd -> assoc chars_eqb x (tb_labels (fst s7)) = Some a -> x <> lit "reference_coordinate" ->
      holds (fst s7, list_set (snd s7) (v_id vh) (coord_list dim N coords)) (KNode a) k N hd dd).
    { intros a x k hd dd (q & R1 & R2 & R3 & R4 & R5 & R6 & R7) Hx Hne. exists q. cbn [fst snd].
      assert (Ap : apart q (KF KVectorNode vh, KF KVectorNode vd)).
      { eapply (g_apart (a_good A7)); [exact R1|exact P1|]. intros [= E]. exact (label_ne (a_good A7) Hx B1 Hne E). }
      repeat split; auto; rewrite nth_set_other; auto; [apply (Ap (fst q) (KF KVectorNode vh))|apply (Ap (snd q) (KF KVectorNode vh))]; simpl; auto. }
    constructor; simpl.
    1,3,4,5,6,7,8: eapply Oth; [eassumption|eassumption|discriminate].
    exists (KF KVectorNode vh, KF KVectorNode vd). cbn [fst snd]. repeat split; auto.
    + apply nth_set_same. eapply nth_some_lt; exact P6.
    + unfold vid. cbn [kf_view]. destruct (g_pair (a_good A7) _ P1) as (_ & _ & _ & _ & Sm). destruct same; cbn [fst snd] in Sm.
      * injection Sm as <-. apply nth_set_same. eapply nth_some_lt; exact P6.
      * rewrite nth_set_other; [exact P7|]. unfold vid in Sm. simpl in Sm. congruence.
Qed.
