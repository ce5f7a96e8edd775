(** The dense matrix class. *)
From Verif Require Import Base ListLemmas Loops LinModel LinSpec CrsProofs.
Local Open Scope nat_scope.
Set Implicit Arguments.

Section Dense.
  Context {T : Type} (n : nat).
  Definition drep (a : dense T) (D : nat -> nat -> T) : Prop :=
    d_rows a = n /\ length (d_data a) = n * n /\
    forall i j, i < n -> j < n -> nth_error (d_data a) (n * i + j) = Some (D i j).

  Lemma cell_lt i j : i < n -> j < n -> n * i + j < n * n.
  Proof. nia. Qed.
  Lemma cell_inj i j i' j' : j < n -> j' < n -> n * i + j = n * i' + j' -> i = i' /\ j = j'.
  Proof. intros. assert (i = i') by nia. subst. split; auto. lia. Qed.

  Lemma dense_op_refines a D o : drep a D -> dense_valid n o ->
    exists a', dense_call a o = Ok a' /\ drep a' (op_meaning D o).
  Proof.
    intros (Hn & Hl & HD) Hv. destruct o as [v|r v|c v|i j v]; simpl in *.
    - eexists. split; [reflexivity|]. split; auto. simpl. split; [now rewrite map_length|].
      intros i j Hi Hj. rewrite nth_error_map, HD by auto. reflexivity.
    - unfold dense_set_row. rewrite Hn.
      destruct (@oloop_ind _ (fun k d => length d = n * n /\ forall i j, i < n -> j < n ->
        nth_error d (n * i + j) = Some (if (i =? r) && (j <? k) then v else D i j)) 0 n
        (fun i d => vset d (n * r + i) v) (d_data a)) as (d & E & H1 & H2); [lia| | |].
      + split; auto. intros i j Hi Hj. rewrite andb_false_r. auto.
      + intros k d Hk [H1 H2]. unfold vset. pose proof (@cell_lt r k Hv ltac:(lia)).
        replace (n * r + k <? length d) with true by (symmetry; apply Nat.ltb_lt; lia).
        eexists. split; [reflexivity|]. split; [now rewrite list_set_length|].
        intros i j Hi Hj. rewrite nth_error_list_set.
        replace (n * r + k <? length d) with true by (symmetry; apply Nat.ltb_lt; lia). rewrite andb_true_r.
        destruct (Nat.eqb_spec (n * i + j) (n * r + k)) as [E|E].
        * apply cell_inj in E as [-> ->]; [|lia|lia]. rewrite Nat.eqb_refl.
          now replace (k <? 1 + k) with true by (symmetry; apply Nat.ltb_lt; lia).
        * rewrite H2 by auto. destruct (Nat.eqb_spec i r) as [->|]; cbn [andb]; auto.
          destruct (Nat.ltb_spec j k), (Nat.ltb_spec j (1 + k)); auto; try lia; assert (j = k) by lia; congruence.
      + rewrite E. simpl. eexists. split; [reflexivity|]. split; auto. simpl. split; auto.
        intros i j Hi Hj. rewrite H2 by auto. replace (j <? n) with true by (symmetry; now apply Nat.ltb_lt).
        now rewrite andb_true_r.
    - unfold dense_set_col. rewrite Hn.
      destruct (@oloop_ind _ (fun k d => length d = n * n /\ forall i j, i < n -> j < n ->
        nth_error d (n * i + j) = Some (if (j =? c) && (i <? k) then v else D i j)) 0 n
        (fun i d => vset d (n * i + c) v) (d_data a)) as (d & E & H1 & H2); [lia| | |].
      + split; auto. intros i j Hi Hj. rewrite andb_false_r. auto.
      + intros k d Hk [H1 H2]. unfold vset. pose proof (@cell_lt k c ltac:(lia) Hv).
        replace (n * k + c <? length d) with true by (symmetry; apply Nat.ltb_lt; lia).
        eexists. split; [reflexivity|]. split; [now rewrite list_set_length|].
        intros i j Hi Hj. rewrite nth_error_list_set.
        replace (n * k + c <? length d) with true by (symmetry; apply Nat.ltb_lt; lia). rewrite andb_true_r.
        destruct (Nat.eqb_spec (n * i + j) (n * k + c)) as [E|E].
        * apply cell_inj in E as [-> ->]; [|lia|lia]. rewrite Nat.eqb_refl.
          now replace (k <? 1 + k) with true by (symmetry; apply Nat.ltb_lt; lia).
        * rewrite H2 by auto. destruct (Nat.eqb_spec j c) as [->|]; cbn [andb]; auto.
          destruct (Nat.ltb_spec i k), (Nat.ltb_spec i (1 + k)); auto; try lia; assert (i = k) by lia; congruence.
      + rewrite E. simpl. eexists. split; [reflexivity|]. split; auto. simpl. split; auto.
        intros i j Hi Hj. rewrite H2 by auto. replace (i <? n) with true by (symmetry; now apply Nat.ltb_lt).
        now rewrite andb_true_r.
    - destruct Hv as [Hi Hj]. unfold dense_set, vset. rewrite Hn, Hl. pose proof (cell_lt Hi Hj).
      replace (n * i + j <? n * n) with true by (symmetry; now apply Nat.ltb_lt). simpl.
      eexists. split; [reflexivity|]. split; auto. simpl. split; [now rewrite list_set_length|].
      intros i' j' Hi' Hj'. rewrite nth_error_list_set, Hl.
      replace (n * i + j <? n * n) with true by (symmetry; now apply Nat.ltb_lt). rewrite andb_true_r.
      destruct (Nat.eqb_spec (n * i' + j') (n * i + j)) as [E|E].
      + apply cell_inj in E as [-> ->]; auto. now rewrite !Nat.eqb_refl.
      + rewrite HD by auto. destruct (Nat.eqb_spec i' i) as [->|]; cbn [andb]; auto.
        destruct (Nat.eqb_spec j' j) as [->|]; auto. congruence.
  Qed.

  Lemma dense_get_rep a D i j : drep a D -> i < n -> j < n -> dense_get a i j = Ok (D i j).
  Proof. intros (Hn & _ & HD) Hi Hj. unfold dense_get, vget. now rewrite Hn, HD. Qed.

  Lemma dense_history a D os : drep a D -> Forall (dense_valid n) os ->
    exists a', ofold dense_call os a = Ok a' /\ drep a' (fold_left op_meaning os D).
  Proof.
    intros Ha Hv. revert a D Ha. induction Hv as [|o os Ho _ IH]; intros a D Ha; simpl; [eauto|].
    destruct (@dense_op_refines a D o Ha Ho) as (a1 & E1 & H1). rewrite E1. simpl. auto.
  Qed.
End Dense.

Lemma dense_allocate_rep {T} (zero : T) ii n : (forall i, In i ii -> i < n) -> (n = 1 \/ In (n - 1) ii) -> 0 < n ->
  drep n (dense_allocate zero (dense_new (T:=T)) ii) (fun _ _ => zero).
Proof.
  intros H1 H2 Hn. unfold dense_allocate.
  set (mx := fold_left _ ii 0).
  assert (E : mx = n - 1).
  { destruct (fold_max_ge ii 0) as [_ Hge]. destruct (fold_max_in ii 0) as [Hin|Hin]; fold mx in Hge, Hin.
    - destruct H2 as [->|H2]; [auto|]. specialize (Hge _ H2). lia.
    - specialize (H1 _ Hin). destruct H2 as [->|H2]; [lia|]. specialize (Hge _ H2). lia. }
  rewrite E. replace (n - 1 + 1) with n by lia. split; [reflexivity|]. simpl.
  unfold vec_resize. rewrite firstn_nil. simpl. rewrite Nat.sub_0_r. split; [apply repeat_length|].
  intros i j Hi Hj. apply nth_error_repeat. now apply cell_lt.
Qed.
