(** Histories of field allocations. *)
From Coq Require Import Reals Lra.
From Verif Require Import Base Strings ListLemmas DataModel DataProofs Loops InputProofs3 ElemDataProofs4 KokkosModel KokkosSpec3 KokkosProofs KokkosProofs2 KokkosProofs7 KokkosProofs8 KokkosProofs9.
Set Implicit Arguments.
Local Open Scope nat_scope.
Local Open Scope list_scope.
Local Notation length := List.length.

Definition key_of (p : home) (id : nat) (st : step_t) : key := match p with AtNodes => KNode id | OnElements b => KElem b id | AtPoints b => KIpt b id st end.
Lemma concat_repeat_concat {A} (l : list A) m n : List.concat (repeat (List.concat (repeat l m)) n) = List.concat (repeat l (n * m)).
Proof.
  induction n as [|n IH]; auto. cbn [repeat List.concat Nat.mul]. rewrite IH. clear IH.
  rewrite repeat_app, concat_app. reflexivity.
Qed.
Lemma firstn_entries (iv : list R) m : m <= length iv -> omapM (fun i => vat iv i) (seq 0 m) = Ok (firstn m iv).
Proof.
  intros H. induction m as [|m IH]; auto. replace (Datatypes.S m) with (m + 1) at 1 by lia. rewrite seq_app, omapM_app. rewrite IH by lia. cbn [obind seq omapM Nat.add].
  unfold vat. destruct (nth_error iv m) as [x|] eqn:E; [|apply nth_error_None in E; lia]. cbn [obind].
  f_equal. clear IH H. revert m x E. induction iv as [|y iv IH]; intros [|m] x E; try discriminate.
  - injection E as ->. destruct iv; reflexivity.
  - simpl in E. specialize (IH m x E). cbn [firstn app]. destruct m; f_equal; exact IH.
Qed.
Lemma concat_repeat_length {A} (l : list A) n : length (List.concat (repeat l n)) = n * length l.
Proof. induction n as [|n IH]; auto. cbn [repeat List.concat]. rewrite app_length, IH. lia. Qed.
Lemma initial_points len k iv n b : ipt_kind len = Some k -> iv = [] \/ numbers len <= length iv ->
  initial k iv n (contents (Alloc (AtPoints b) len [] n iv)).
Proof.
  intros Hk Hi. unfold contents. cbn [al_init al_n al_home al_len]. destruct iv as [|x iv].
  - left. split; auto. f_equal. destruct len; try discriminate; injection Hk as <-; cbn [points numbers width]; lia.
  - right. split; [discriminate|]. destruct Hi as [Hi|Hi]; [discriminate|].
    assert (S1 : fst (ipt_shape k) = numbers len) by (destruct len; try discriminate; injection Hk as <-; reflexivity).
    assert (S2 : snd (ipt_shape k) = points (AtPoints b) len) by (destruct len; try discriminate; injection Hk as <-; reflexivity).
    assert (S3 : width k = points (AtPoints b) len * numbers len) by (destruct len; try discriminate; injection Hk as <-; reflexivity).
    split.
    + unfold initial_entries. rewrite S1, S2. destruct n as [|n]; [reflexivity|]. change (Datatypes.S n =? 0) with false. cbv iota.
      rewrite (firstn_entries _ Hi). cbn [obind]. now rewrite concat_repeat_concat.
    + rewrite concat_repeat_length, firstn_length, Nat.min_l by assumption. rewrite S3. lia.
Qed.
(** one allocation *)
Lemma allocate_spec same s a : good same s -> acceptable a -> exists s' id k, allocate same s a = Ok (s', id) /\ kind_for (al_home a) (al_len a) = Some k /\
  allocated same s s' (al_label a) id [key_of (al_home a) id STEP_N; key_of (al_home a) id STEP_NP1] k (al_n a) (contents a).
Proof.
  intros G [Hk Hi]. destruct a as [p len label n iv]. cbn [al_home al_len al_label al_n al_init] in *. unfold allocate. cbn [al_home al_len al_label al_n al_init].
  assert (Dup : forall s' id x k data, allocated same s s' label id [x] k n data -> allocated same s s' label id [x; x] k n data).
  { intros s' id x k data [A1 A2 A3 A4 A5 A6]. constructor; auto; intros y Hy; [apply A4|apply A5]; simpl in *; tauto. }
  destruct p as [|b|b].
  - assert (iv = []) as -> by (destruct Hi as [Hi|[[b Hb] _]]; [auto|discriminate]).
    destruct (node_kind len) as [k|] eqn:Ek; [|destruct len; try discriminate; elim Hk; reflexivity].
    destruct (node_spec len label n G Ek) as (s' & id & E & A). exists s', id, k. split; [exact E|].
    split; [destruct len; try discriminate; exact Ek|]. apply Dup. replace (contents _) with (repeat 0%R (n * width k)); [exact A|].
    unfold contents. cbn [al_init al_n al_home al_len]. f_equal. destruct len; try discriminate; injection Ek as <-; cbn [points numbers width]; lia.
  - assert (iv = []) as -> by (destruct Hi as [Hi|[[b' Hb] _]]; [auto|discriminate]).
    destruct (elem_kind len) as [k|] eqn:Ek; [|destruct len; try discriminate; elim Hk; reflexivity].
    destruct (@elem_spec same s b len label n k G Ek) as (s' & id & E & A). exists s', id, k. split; [exact E|].
    split; [destruct len; try discriminate; exact Ek|]. apply Dup. replace (contents _) with (repeat 0%R (n * width k)); [exact A|].
    unfold contents. cbn [al_init al_n al_home al_len]. f_equal. destruct len; try discriminate; injection Ek as <-; cbn [points numbers width]; lia.
  - destruct (ipt_kind len) as [k|] eqn:Ek; [|destruct len; try discriminate; elim Hk; reflexivity].
    assert (Hi' : iv = [] \/ numbers len <= length iv) by tauto.
    destruct (@ipt_spec same s b len label n k iv _ G Ek (@initial_points len k iv n b Ek Hi')) as (s' & id & E & A). exists s', id, k. split; [exact E|].
    split; [destruct len; try discriminate; exact Ek|exact A].
Qed.
(** all allocations *)
Record inv (same : bool) (l : list alloc) (s : tables * heap) (ids : list nat) : Prop := {
  in_good : good same s;
  in_len : length ids = length l;
  in_label : forall i a, nth_error l i = Some a -> exists id, nth_error ids i = Some id /\ assoc chars_eqb (al_label a) (tb_labels (fst s)) = Some id;
  in_latest : forall i a id st, nth_error l i = Some a -> nth_error ids i = Some id -> latest l i ->
    exists k, kind_for (al_home a) (al_len a) = Some k /\ holds s (key_of (al_home a) id st) k (al_n a) (contents a) (contents a)
}.
Lemma key_of_inj p id st q id' st' : key_of p id st = key_of q id' st' -> p = q /\ id = id'.
Proof. destruct p, q; simpl; intros E; try discriminate; injection E; intros; subst; auto. Qed.
Lemma all_ok same l : Forall acceptable l -> exists s ids, allocate_all same l = Ok (s, ids) /\ inv same l s ids.
Proof.
  induction l as [|a l IH] using rev_ind; intros H.
  - exists (@pair tables heap no_tables []), []. split; [reflexivity|]. constructor; auto; [apply good_none|..]; intros i x; rewrite nth_error_nil || destruct i; discriminate.
  - apply Forall_app in H. destruct H as [Hl Ha]. inversion_clear Ha as [|? ? Ha' _]. destruct (IH Hl) as (s & ids & E & I). clear IH.
    destruct (allocate_spec (in_good I) Ha') as (s' & id & k & Ea & Hk & A).
    exists s', (ids ++ [id]). split.
    { unfold allocate_all in *. rewrite ofold_app, E. cbn [obind ofold fst snd]. rewrite Ea. reflexivity. }
    pose proof (in_len I) as L.
    assert (Lb : forall i b, nth_error (l ++ [a]) i = Some b -> exists id', nth_error (ids ++ [id]) i = Some id' /\ assoc chars_eqb (al_label b) (tb_labels (fst s')) = Some id').
    { intros i b Hb. destruct (Nat.lt_ge_cases i (length l)) as [Hi|Hi].
      - rewrite nth_error_app1 in Hb by assumption. destruct (in_label I i Hb) as (id' & E1 & E2). exists id'. rewrite nth_error_app1 by lia. split; auto. now apply (a_labels A).
      - rewrite nth_error_app2 in Hb by assumption. destruct (i - length l) as [|z] eqn:Ez; [|destruct z; discriminate]. injection Hb as <-.
        exists id. rewrite nth_error_app2 by lia. replace (i - length ids) with 0 by lia. split; auto. apply (a_label A). }
    constructor; auto.
    + apply (a_good A).
    + rewrite !app_length. simpl. lia.
    + intros i b id' st Hb Hid Hlat. destruct (Nat.lt_ge_cases i (length l)) as [Hi|Hi].
      * rewrite nth_error_app1 in Hb by assumption. rewrite nth_error_app1 in Hid by lia.
        assert (Hlat' : latest l i).
        { intros j x y Hij Hx Hy. apply (Hlat j x y Hij); rewrite nth_error_app1; auto. apply nth_error_Some. congruence. }
        destruct (in_latest I st Hb Hid Hlat') as (k' & E1 & E2). exists k'. split; auto. eapply holds_old; [exact A| |exact E2].
        intros Hin. assert (Hp : al_home a = al_home b /\ id = id') by (destruct Hin as [Hin|[Hin|[]]]; apply key_of_inj in Hin; exact Hin).
        destruct Hp as [Hp Hid']. 
        apply (Hlat (length l) b a Hi); [now rewrite nth_error_app1|rewrite nth_error_app2, Nat.sub_diag by lia; reflexivity|]. split; auto.
        destruct (in_label I i Hb) as (id2 & E3 & E4). rewrite Hid in E3. injection E3 as <-.
        destruct (chars_eqb (al_label a) (al_label b)) eqn:Ec; [now apply chars_eqb_eq|].
        exfalso. apply (@label_ne same s' (al_label a) (al_label b) id id' (a_good A) (a_label A) (a_labels A _ E4)); auto.
        intros En. rewrite En, (proj2 (chars_eqb_eq _ _) eq_refl) in Ec. discriminate.
      * rewrite nth_error_app2 in Hb by assumption. destruct (i - length l) as [|z] eqn:Ez; [|destruct z; discriminate]. injection Hb as <-.
        rewrite nth_error_app2 in Hid by lia. replace (i - length ids) with 0 in Hid by lia. injection Hid as <-.
        exists k. split; auto. eapply holds_new; [exact A|]. destruct st; simpl; auto.
Qed.
Lemma views_of s p id st k n hd dd : holds s (key_of p id st) k n hd dd -> exists vh vd,
  look (fst s) (key_of p id st) = Some (KF k vh, KF k vd) /\
  host_view (fst s) p k id st = Ok vh /\ device_view (fst s) p k id st = Ok vd /\ v_extent vh = n /\ v_extent vd = n /\
  nth_error (snd s) (v_id vh) = Some hd /\ nth_error (snd s) (v_id vd) = Some dd.
Proof.
  intros ([[kh vh] [kd vd]] & H1 & H2 & H3 & H4 & H5 & H6 & H7). unfold extent, vid in *. cbn [fst snd kf_kind kf_view] in *. subst kh kd. exists vh, vd.
  split; [exact H1|].
  assert (V : host_view (fst s) p k id st = Ok vh /\ device_view (fst s) p k id st = Ok vd).
  { destruct p; simpl in *; [now apply look_node|now apply look_elem|now apply look_ipt]. }
  destruct V. repeat (split; [assumption|]). assumption.
Qed.
