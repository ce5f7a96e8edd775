(** Proofs about LU_Decompose / LU_Solve. *)
From Verif Require Import Base ListLemmas Loops LinModel LinSpec.
From Coq Require Import Reals Lra.
Local Open Scope R_scope.
Set Implicit Arguments.

Lemma Rsum_trunc n m f : (m <= n)%nat -> (forall k, (m <= k < n)%nat -> f k = 0) -> Rsum n f = Rsum m f.
Proof.
  intros Hm H. replace n with (m + (n - m))%nat by lia. rewrite Rsum_split.
  rewrite (Rsum_zero (n - m)); [ring|]. intros k Hk. apply H. lia.
Qed.

(** unit lower and upper factors packed in one matrix *)
Definition Lf (M : matrix) (i k : nat) : R := if (k <? i)%nat then M i k else if (k =? i)%nat then 1 else 0.
Definition Uf (M : matrix) (k c : nat) : R := if (k <=? c)%nat then M k c else 0.

Ltac natb := repeat match goal with
  | |- context [(?a <? ?b)%nat] => destruct (Nat.ltb_spec a b)
  | |- context [(?a =? ?b)%nat] => destruct (Nat.eqb_spec a b)
  | |- context [(?a <=? ?b)%nat] => destruct (Nat.leb_spec a b)
  end.

Lemma LU_entry n M i c : (i < n)%nat -> (c < n)%nat ->
  Rsum n (fun k => Lf M i k * Uf M k c) =
  if (i <=? c)%nat then Rsum i (fun k => M i k * M k c) + M i c else Rsum (S c) (fun k => M i k * M k c).
Proof.
  intros Hi Hc. destruct (Nat.leb_spec i c) as [H|H].
  - rewrite (@Rsum_trunc n (S i)); [|lia|].
    2:{ intros k Hk. unfold Lf. natb; try lia. ring. }
    simpl. f_equal.
    + apply Rsum_ext. intros k Hk. unfold Lf, Uf. natb; try lia. reflexivity.
    + unfold Lf, Uf. natb; try lia. ring.
  - rewrite (@Rsum_trunc n (S c)); [|lia|].
    2:{ intros k Hk. unfold Uf. natb; try lia. ring. }
    apply Rsum_ext. intros k Hk. unfold Lf, Uf. natb; try lia. reflexivity.
Qed.

(** ** Back substitution *)
Lemma backward_ok n M v : (forall i, (i < n)%nat -> M i i <> 0) ->
  forall i, (i < n)%nat -> Rsum n (fun c => Uf M i c * lu_backward n M v c) = v i.
Proof.
  intros Hd.
  pose (P := fun (k : nat) (vec : nat -> R) =>
    (forall i, (n - k <= i < n)%nat -> Rsum n (fun c => Uf M i c * vec c) = v i) /\
    (forall i, (i < n - k)%nat -> vec i = v i)).
  assert (HP : P n (lu_backward n M v)).
  { unfold lu_backward. apply floop_ind; [lia| |].
    - split; [intros; lia|auto].
    - intros k vec Hk [H1 H2]. set (i := (n - 1 - k)%nat).
      set (new := _ / _). split.
      + intros i' Hi'. destruct (Nat.eq_dec i' i) as [->|Hne].
        * (* the row just solved *)
          replace n with (i + (n - i))%nat at 1 by (unfold i; lia). rewrite Rsum_split.
          rewrite (Rsum_zero i).
          2:{ intros c Hc. unfold Uf. natb; try lia. ring. }
          replace (n - i)%nat with (1 + (n - S i))%nat by (unfold i; lia). rewrite Rsum_split. simpl Rsum at 1.
          rewrite !Nat.add_0_r, upd_same. unfold Uf at 1. rewrite Nat.leb_refl.
          assert (Hnew : M i i * new = v i - Rsum (n - S i) (fun c => M i (S i + c)%nat * vec (S i + c)%nat)).
          { unfold new. rewrite floop_sub by (unfold i; lia).
            rewrite H2 by (unfold i; lia). replace (i + 1)%nat with (S i) by lia.
            field. apply Hd. unfold i. lia. }
          rewrite Rplus_0_l, Rplus_0_l, Hnew.
          replace (Rsum (n - S i) (fun k0 => Uf M i (i + (1 + k0)) * upd vec i new (i + (1 + k0)))) with
            (Rsum (n - S i) (fun c => M i (S i + c)%nat * vec (S i + c)%nat)); [ring|].
          apply Rsum_ext. intros c Hc. rewrite upd_other by lia. unfold Uf. natb; try lia.
          now replace (i + (1 + c))%nat with (S i + c)%nat by lia.
        * rewrite <- (H1 i') by (unfold i in *; lia). apply Rsum_ext. intros c Hc.
          destruct (Nat.eq_dec c i) as [->|]; [|now rewrite upd_other].
          unfold Uf. natb; try (unfold i in *; lia). ring.
      + intros i' Hi'. rewrite upd_other by (unfold i; lia). apply H2. lia. }
  destruct HP as [HP _]. intros i Hi. apply HP. lia.
Qed.

(** ** Row permutations *)
Definition tau (j l i : nat) : nat := if (i =? j)%nat then l else if (i =? l)%nat then j else i.
Fixpoint pseq (index : nat -> nat) (j : nat) (i : nat) : nat :=
  match j with O => i | S j => pseq index j (tau j (index j) i) end.

Lemma tau_inv j l i : tau j l (tau j l i) = i.
Proof.
  unfold tau. destruct (Nat.eqb_spec i j), (Nat.eqb_spec i l); natb; lia.
Qed.
Lemma tau_lt n j l i : (j < n)%nat -> (l < n)%nat -> (i < n)%nat -> (tau j l i < n)%nat.
Proof. unfold tau. natb; lia. Qed.

Lemma pseq_ext f g j : (forall k, (k < j)%nat -> f k = g k) -> forall i, pseq f j i = pseq g j i.
Proof.
  induction j as [|j IH]; intros H i; simpl; auto. rewrite H by lia. apply IH. intros; apply H; lia.
Qed.

Lemma pseq_lt n index j : (forall k, (k < j)%nat -> (index k < n)%nat) -> (j <= n)%nat ->
  forall i, (i < n)%nat -> (pseq index j i < n)%nat.
Proof.
  induction j as [|j IH]; intros H Hj i Hi; simpl; auto. apply IH; [intros; apply H; lia|lia|].
  apply tau_lt; auto; lia.
Qed.

Lemma pseq_surj n index j : (forall k, (k < j)%nat -> (index k < n)%nat) -> (j <= n)%nat ->
  forall r, (r < n)%nat -> exists i, (i < n)%nat /\ pseq index j i = r.
Proof.
  induction j as [|j IH]; intros H Hj r Hr; simpl; [eauto|].
  destruct (IH ltac:(intros; apply H; lia) ltac:(lia) r Hr) as (i & Hi & E).
  exists (tau j (index j) i). split; [apply tau_lt; auto; lia|]. now rewrite tau_inv.
Qed.

(** ** Forward substitution *)
Lemma forward_ok n M index b : (forall k, (k < n)%nat -> (k <= index k < n)%nat) ->
  forall i, (i < n)%nat -> Rsum n (fun k => Lf M i k * lu_forward n M index b k) = b (pseq index n i).
Proof.
  intros Hidx.
  pose (P := fun (k : nat) (vec : nat -> R) =>
    (forall i, (i < k)%nat -> Rsum n (fun c => Lf M i c * vec c) = b (pseq index k i)) /\
    (forall i, (k <= i < n)%nat -> vec i = b (pseq index k i))).
  assert (HP : P n (lu_forward n M index b)).
  { unfold lu_forward. apply floop_ind; [lia| |].
    - split; [intros; lia|reflexivity].
    - intros k vec Hk [H1 H2]. destruct (Hidx k) as [Hi1 Hi2]; [lia|].
      set (v1 := upd vec (index k) (vec k)).
      set (new := floop 0 k _ _).
      assert (Hnew : new = b (pseq index (S k) k) - Rsum k (fun j => M k j * vec j)).
      { unfold new. rewrite floop_sub by lia. rewrite Nat.sub_0_r. simpl.
        f_equal.
        - rewrite H2 by lia. unfold tau. now rewrite Nat.eqb_refl.
        - apply Rsum_ext. intros c Hc. unfold v1. rewrite upd_other by lia. reflexivity. }
      split.
      + intros i Hi. destruct (Nat.eq_dec i k) as [->|Hne].
        * rewrite (@Rsum_trunc n (S k)); [|lia|].
          2:{ intros c Hc. unfold Lf. natb; try lia. ring. }
          simpl Rsum. rewrite upd_same. replace (Lf M k k) with 1 by (unfold Lf; natb; lia || reflexivity).
          rewrite Hnew. rewrite (@Rsum_ext k _ (fun j => M k j * vec j)).
          -- simpl. ring.
          -- intros c Hc. rewrite upd_other by lia. unfold v1. rewrite upd_other by lia.
             unfold Lf. natb; try lia. reflexivity.
        * simpl pseq. unfold tau. replace (i =? k)%nat with false by (symmetry; apply Nat.eqb_neq; lia).
          replace (i =? index k)%nat with false by (symmetry; apply Nat.eqb_neq; lia).
          rewrite <- H1 by lia. apply Rsum_ext. intros c Hc.
          destruct (Nat.lt_ge_cases i c) as [Hic|Hic].
          -- unfold Lf. natb; try lia. ring.
          -- rewrite upd_other by lia. unfold v1. now rewrite upd_other by lia.
      + intros i Hi. rewrite upd_other by lia. unfold v1. simpl pseq. unfold tau.
        replace (i =? k)%nat with false by (symmetry; apply Nat.eqb_neq; lia).
        destruct (Nat.eqb_spec i (index k)) as [->|Hne].
        * rewrite upd_same. apply H2. lia.
        * rewrite upd_other by auto. apply H2. lia. }
  destruct HP as [HP _]. exact HP.
Qed.

(** ** The decomposition *)
Section LU.
  Variables (tiny : R) (n : nat) (A : matrix).
  Hypothesis Htiny : 0 < tiny.
  Hypothesis Hns : nonsingular n A.

  Record lu_inv (j : nat) (st : lu_state) : Prop := {
    li_idx : forall k, (k < j)%nat -> (k <= lu_index st k < n)%nat;
    li_vv : forall i, (i < n)%nat -> 0 < lu_vv st i;
    li_done : forall i c, (i < n)%nat -> (c < j)%nat ->
      A (pseq (lu_index st) j i) c = Rsum n (fun k => Lf (lu_m st) i k * Uf (lu_m st) k c);
    li_todo : forall i c, (i < n)%nat -> (j <= c < n)%nat -> lu_m st i c = A (pseq (lu_index st) j i) c;
    li_piv : forall k, (k < j)%nat -> lu_m st k k <> 0 }.

  Lemma upper_spec j M : (j <= n)%nat -> let m1 := lu_upper j M in
    (forall i c, c <> j \/ (j <= i)%nat -> m1 i c = M i c) /\
    (forall i, (i < j)%nat -> M i j = Rsum i (fun k => m1 i k * m1 k j) + m1 i j).
  Proof.
    intros Hj m1.
    pose (P := fun (i0 : nat) (m : matrix) =>
      (forall i c, c <> j \/ (i0 <= i)%nat -> m i c = M i c) /\
      (forall i, (i < i0)%nat -> M i j = Rsum i (fun k => m i k * m k j) + m i j)).
    assert (HP : P j m1).
    { unfold m1, lu_upper. apply floop_ind; [lia|split; [auto|intros; lia]|].
      intros k m Hk [H1 H2]. unfold crout_sum. rewrite floop_sub by lia. rewrite Nat.sub_0_r. split.
      - intros i c Hic. rewrite upd2_other by lia. apply H1. lia.
      - intros i Hi. destruct (Nat.eq_dec i k) as [->|Hne].
        + rewrite upd2_same. rewrite (H1 k j) by lia.
          rewrite (@Rsum_ext k _ (fun k0 => m k (0 + k0)%nat * m (0 + k0)%nat j)).
          * ring.
          * intros c Hc. rewrite !upd2_other by lia. reflexivity.
        + rewrite (H2 i) by lia. rewrite (upd2_other m k j _ i j) by lia. f_equal.
          apply Rsum_ext. intros c Hc. rewrite !upd2_other by lia. reflexivity. }
    exact HP.
  Qed.

  Lemma lower_spec j vv M big0 imax0 : (j < n)%nat -> (forall i, (i < n)%nat -> 0 < vv i) -> big0 = 0 ->
    let '(m2, _, imax) := lu_lower n j vv (M, big0, imax0) in
    (forall i c, c <> j \/ (i < j)%nat \/ (n <= i)%nat -> m2 i c = M i c) /\
    (forall i, (j <= i < n)%nat -> M i j = Rsum j (fun k => m2 i k * m2 k j) + m2 i j) /\
    ((j <= imax < n)%nat \/ (forall i, (j <= i < n)%nat -> m2 i j = 0)).
  Proof.
    intros Hj Hvv ->.
    pose (P := fun (i0 : nat) (st : matrix * R * nat) => let '(m, big, imax) := st in
      (forall i c, c <> j \/ (i < j)%nat \/ (i0 <= i)%nat -> m i c = M i c) /\
      (forall i, (j <= i < i0)%nat -> M i j = Rsum j (fun k => m i k * m k j) + m i j) /\
      ((j <= imax < i0)%nat \/ (big = 0 /\ forall i, (j <= i < i0)%nat -> m i j = 0))).
    assert (HP : P n (lu_lower n j vv (M, 0, imax0))).
    { unfold lu_lower. apply floop_ind; [lia|split; [auto|split; [intros; lia|right; split; [auto|intros; lia]]]|].
      intros k [[m big] imax] Hk (H1 & H2 & H3). unfold P.
      set (sum := crout_sum m k j j).
      assert (Hsum : sum = M k j - Rsum j (fun c => m k c * m c j)).
      { unfold sum, crout_sum. rewrite floop_sub by lia. rewrite Nat.sub_0_r, (H1 k j) by lia. reflexivity. }
      assert (Hfr : forall i c, c <> j \/ (i < j)%nat \/ (1 + k <= i)%nat -> upd2 m k j sum i c = M i c).
      { intros i c Hic. rewrite upd2_other by lia. apply H1. lia. }
      assert (Heq : forall i, (j <= i < 1 + k)%nat -> M i j = Rsum j (fun c => upd2 m k j sum i c * upd2 m k j sum c j) + upd2 m k j sum i j).
      { intros i Hi. destruct (Nat.eq_dec i k) as [->|Hne].
        - rewrite upd2_same. rewrite (@Rsum_ext j _ (fun c => m k c * m c j)); [rewrite Hsum; ring|].
          intros c Hc. rewrite !upd2_other by lia. reflexivity.
        - rewrite (H2 i) by lia. rewrite (upd2_other m k j sum i j) by lia. f_equal.
          apply Rsum_ext. intros c Hc. rewrite !upd2_other by lia. reflexivity. }
      destruct (Rlt_dec big (vv k * Rabs sum)) as [Hlt|Hge]; (split; [exact Hfr|split; [exact Heq|]]).
      - left. lia.
      - destruct H3 as [H3|[Hb H3]]; [left; lia|]. right. split; auto.
        intros i Hi. destruct (Nat.eq_dec i k) as [->|Hne].
        + rewrite upd2_same. pose proof (Hvv k ltac:(lia)) as Hv. pose proof (Rabs_pos sum).
          destruct (Req_dec sum 0) as [|Hne0]; auto. apply Rabs_pos_lt in Hne0. exfalso. apply Hge. rewrite Hb.
          now apply Rmult_lt_0_compat.
        + rewrite upd2_other by lia. apply H3. lia. }
    unfold P in HP. destruct (lu_lower n j vv (M, 0, imax0)) as [[m2 big] imax].
    destruct HP as (H1 & H2 & H3). split; [exact H1|]. split; [exact H2|].
    destruct H3 as [H3|[_ H3]]; auto.
  Qed.

  Lemma swap_rows_spec M x y : (x < n)%nat -> (y < n)%nat -> x <> y ->
    forall i c, (i < n)%nat -> swap_rows n M x y i c = if (c <? n)%nat then M (tau y x i) c else M i c.
  Proof.
    intros Hx Hy Hne i c Hi. unfold swap_rows. revert i c Hi.
    apply (@floop_ind _ (fun k m => forall i c, (i < n)%nat -> m i c = if (c <? k)%nat then M (tau y x i) c else M i c)); [lia|auto|].
    intros k m Hk H i c Hi. unfold tau.
    destruct (Nat.eq_dec c k) as [->|Hck].
    - replace (k <? 1 + k)%nat with true by (symmetry; apply Nat.ltb_lt; lia).
      assert (Hold : forall i, (i < n)%nat -> m i k = M i k).
      { intros i0 Hi0. rewrite H by auto. now replace (k <? k)%nat with false by (symmetry; apply Nat.ltb_ge; lia). }
      destruct (Nat.eqb_spec i y) as [->|Hiy].
      + rewrite upd2_same. auto.
      + rewrite upd2_other by auto. destruct (Nat.eqb_spec i x) as [->|Hix].
        * rewrite upd2_same. auto.
        * rewrite upd2_other by auto. auto.
    - rewrite !upd2_other by auto. rewrite H by auto. unfold tau.
      destruct (Nat.ltb_spec c k), (Nat.ltb_spec c (1 + k)); auto; lia.
  Qed.

  Lemma scale_spec j M : (j < n)%nat ->
    (forall i c, c <> j \/ (i <= j)%nat \/ (n <= i)%nat -> lu_scale n j M i c = M i c) /\
    (forall i, (j < i < n)%nat -> lu_scale n j M i j = M i j * (1 / M j j)).
  Proof.
    intros Hj. unfold lu_scale.
    pose (P := fun (i0 : nat) (m : matrix) =>
      (forall i c, c <> j \/ (i <= j)%nat \/ (i0 <= i)%nat -> m i c = M i c) /\
      (forall i, (j < i < i0)%nat -> m i j = M i j * (1 / M j j))).
    match goal with |- context [floop ?a ?b ?f ?s] => assert (HP : P n (floop a b f s)) end; [|exact HP].
    apply floop_ind; [lia|split; [auto|intros; lia]|].
    intros k m Hk [H1 H2]. split.
    - intros i c Hic. rewrite upd2_other by lia. apply H1. lia.
    - intros i Hi. destruct (Nat.eq_dec i k) as [->|Hne].
      + rewrite upd2_same, H1 by lia. reflexivity.
      + rewrite upd2_other by lia. apply H2. lia.
  Qed.

  (** A column that vanishes from the diagonal down contradicts nonsingularity. *)
  Lemma zero_column_singular j st m2 : (j < n)%nat -> lu_inv j st ->
    (forall i c, (i < n)%nat -> (c < j)%nat -> m2 i c = lu_m st i c) ->
    (forall i, (i < j)%nat -> A (pseq (lu_index st) j i) j = Rsum i (fun k => m2 i k * m2 k j) + m2 i j) ->
    (forall i, (j <= i < n)%nat -> A (pseq (lu_index st) j i) j = Rsum j (fun k => m2 i k * m2 k j) + m2 i j) ->
    (forall i, (j <= i < n)%nat -> m2 i j = 0) -> False.
  Proof.
    intros Hj Hinv Hm2 Hup Hlo Hz.
    pose (w := lu_backward j m2 (fun k => - m2 k j)).
    assert (Hw : forall i, (i < j)%nat -> Rsum j (fun c => Uf m2 i c * w c) = - m2 i j).
    { intros i Hi. unfold w. rewrite backward_ok; auto. intros k Hk. rewrite Hm2 by lia. now apply (li_piv Hinv). }
    pose (x := fun c => if (c <? j)%nat then w c else if (c =? j)%nat then 1 else 0).
    (* A(p i) . x = sum over c <= j *)
    assert (Hfact : forall i c, (i < n)%nat -> (c <= j)%nat ->
       A (pseq (lu_index st) j i) c = Rsum n (fun k => Lf m2 i k * (if (k <? j)%nat then Uf m2 k c else 0))).
    { intros i c Hi Hc. destruct (Nat.eq_dec c j) as [->|Hne].
      - rewrite (@Rsum_trunc n j); [|lia|].
        2:{ intros k Hk. natb; try lia. ring. }
        destruct (Nat.lt_ge_cases i j) as [Hij|Hij].
        + rewrite Hup by auto. rewrite (@Rsum_trunc j (S i)); [|lia|].
          2:{ intros k Hk. unfold Lf. natb; try lia; ring. }
          simpl. f_equal.
          * apply Rsum_ext. intros k Hk. unfold Lf, Uf. natb; try lia. reflexivity.
          * unfold Lf, Uf. natb; try lia. ring.
        + rewrite Hlo, Hz by lia. rewrite Rplus_0_r. apply Rsum_ext. intros k Hk.
          unfold Lf, Uf. natb; try lia. reflexivity.
      - rewrite (li_done Hinv) by lia.
        rewrite (@Rsum_trunc n j); [|lia|].
        2:{ intros k Hk. unfold Uf. natb; try lia. ring. }
        rewrite (@Rsum_trunc n j); [|lia|].
        2:{ intros k Hk. natb; try lia. ring. }
        apply Rsum_ext. intros k Hk. unfold Lf, Uf. natb; try lia; rewrite ?Hm2 by lia; reflexivity. }
    assert (Hker : forall i, (i < n)%nat -> mv n A x (pseq (lu_index st) j i) = 0).
    { intros i Hi. unfold mv. rewrite (@Rsum_trunc n (S j)); [|lia|].
      2:{ intros k Hk. unfold x. natb; try lia. ring. }
      rewrite (@Rsum_ext (S j) _ (fun c => Rsum n (fun k => Lf m2 i k * ((if (k <? j)%nat then Uf m2 k c else 0) * x c)))).
      2:{ intros c Hc. rewrite Hfact by lia. rewrite Rmult_comm, <- Rsum_scal. apply Rsum_ext. intros; ring. }
      rewrite Rsum_swap. apply Rsum_zero. intros k Hk. rewrite Rsum_scal.
      destruct (Nat.ltb_spec k j) as [Hkj|Hkj].
      - simpl Rsum. rewrite (@Rsum_ext j _ (fun c => Uf m2 k c * w c)).
        2:{ intros c Hc. unfold x. natb; try lia. reflexivity. }
        rewrite Hw by auto. unfold x, Uf. natb; try lia. ring.
      - rewrite (Rsum_zero (S j)); [ring|]. intros c Hc. ring. }
    assert (Hx : x j = 0).
    { apply (Hns x); auto. intros r Hr.
      destruct (@pseq_surj n (lu_index st) j) with (r := r) as (i & Hi & <-); auto; try lia.
      - intros k Hk. apply (li_idx Hinv). auto. }
    unfold x in Hx. rewrite Nat.ltb_irrefl, Nat.eqb_refl in Hx. lra.
  Qed.

  Lemma column_inv j st st' : (j < n)%nat -> lu_inv j st -> lu_column tiny n j st = Ok st' -> lu_inv (S j) st'.
  Proof.
    intros Hj Hinv. unfold lu_column.
    destruct (@upper_spec j (lu_m st) ltac:(lia)) as [U1 U2]. set (m1 := lu_upper j (lu_m st)) in *.
    pose proof (@lower_spec j (lu_vv st) m1 0 (lu_imax st) Hj (li_vv Hinv) eq_refl) as HL.
    destruct (lu_lower n j (lu_vv st) (m1, 0, lu_imax st)) as [[m2 big] imax].
    destruct HL as (L1 & L2 & L3).
    set (p := pseq (lu_index st) j) in *.
    assert (E_up : forall i, (i < j)%nat -> A (p i) j = Rsum i (fun k => m2 i k * m2 k j) + m2 i j).
    { intros i Hi. rewrite <- (li_todo Hinv) by lia. rewrite U2 by auto. rewrite (L1 i j) by lia. f_equal.
      apply Rsum_ext. intros k Hk. rewrite !L1 by lia. reflexivity. }
    assert (E_lo : forall i, (j <= i < n)%nat -> A (p i) j = Rsum j (fun k => m2 i k * m2 k j) + m2 i j).
    { intros i Hi. rewrite <- (li_todo Hinv) by lia. rewrite <- (U1 i j) by lia. apply L2. auto. }
    assert (E_old : forall i c, (c < j)%nat \/ (j < c)%nat -> m2 i c = lu_m st i c).
    { intros i c Hc. rewrite L1, U1 by lia. reflexivity. }
    destruct L3 as [Himax|Hz].
    2:{ exfalso. apply (@zero_column_singular j st m2); auto. }
    set (m3 := if (j =? imax)%nat then m2 else swap_rows n m2 imax j).
    assert (E3 : forall i c, (i < n)%nat -> (c < n)%nat -> m3 i c = m2 (tau j imax i) c).
    { intros i c Hi Hc. unfold m3. destruct (Nat.eqb_spec j imax) as [<-|Hne].
      - unfold tau. destruct (Nat.eqb_spec i j); congruence.
      - rewrite swap_rows_spec by lia. now replace (c <? n)%nat with true by (symmetry; now apply Nat.ltb_lt). }
    clearbody m3.
    destruct (Rlt_dec (Rabs (m3 j j)) tiny) as [|Hpiv]; [discriminate|].
    intros [= <-]. assert (Hp0 : m3 j j <> 0).
    { intros E. rewrite E, Rabs_R0 in Hpiv. lra. }
    destruct (@scale_spec j m3 Hj) as [S1 S2]. set (m4 := lu_scale n j m3) in *.
    assert (Hps : forall i, pseq (upd (lu_index st) j imax) (S j) i = p (tau j imax i)).
    { intros i. simpl. rewrite upd_same. apply pseq_ext. intros k Hk. apply upd_other. lia. }
    assert (Htl : forall i, (i < n)%nat -> (tau j imax i < n)%nat) by (intros; apply tau_lt; lia).
    assert (Htk : forall k, (k < j)%nat -> tau j imax k = k).
    { intros k Hk. unfold tau. natb; lia. }
    assert (Htge : forall i, (j <= i)%nat -> (j <= tau j imax i)%nat).
    { intros i Hi. unfold tau. natb; lia. }
    assert (M4 : forall i c, (i < n)%nat -> (c < n)%nat -> c <> j -> m4 i c = lu_m st (tau j imax i) c).
    { intros i c Hi Hc Hne. rewrite S1 by auto. rewrite E3 by auto. apply E_old. lia. }
    split; cbn [lu_index lu_vv lu_m].
    - intros k Hk. destruct (Nat.eq_dec k j) as [->|Hne]; [rewrite upd_same; lia|].
      rewrite upd_other by auto. apply (li_idx Hinv). lia.
    - intros i Hi. destruct (Nat.eqb_spec j imax); [now apply (li_vv Hinv)|].
      unfold upd. destruct (i =? imax)%nat; apply (li_vv Hinv); lia.
    - intros i c Hi Hc. rewrite Hps, LU_entry by lia. destruct (Nat.eq_dec c j) as [->|Hne].
      + (* the column just processed *)
        destruct (Nat.leb_spec i j) as [Hij|Hij].
        * destruct (Nat.eq_dec i j) as [->|Hne].
          -- rewrite (E_lo (tau j imax j)) by (split; [auto|apply Htl; lia]). rewrite (S1 j j) by lia.
             rewrite E3 by lia. f_equal. apply Rsum_ext. intros k Hk.
             rewrite (S1 j k), (S1 k j) by lia. rewrite (E3 j k), (E3 k j), (Htk k) by lia. reflexivity.
          -- rewrite Htk by lia. rewrite E_up by lia. rewrite (S1 i j) by lia. rewrite E3, Htk by lia.
             f_equal. apply Rsum_ext. intros k Hk. rewrite (S1 i k), (S1 k j) by lia.
             rewrite (E3 i k), (E3 k j), !Htk by lia. reflexivity.
        * rewrite (E_lo (tau j imax i)) by (split; [apply Htge; lia|apply Htl; lia]).
          simpl Rsum. rewrite S2 by lia. rewrite (S1 j j) by lia. f_equal.
          -- apply Rsum_ext. intros k Hk. rewrite (S1 i k), (S1 k j) by lia.
             rewrite (E3 i k), (E3 k j), (Htk k) by lia. reflexivity.
          -- rewrite (E3 i j) by lia. field. auto.
      + unfold p. rewrite (li_done Hinv) by (auto; lia). rewrite LU_entry by (auto; lia).
        assert (Hc' : (c < j)%nat) by lia.
        destruct (Nat.lt_ge_cases i j) as [Hij|Hij].
        * rewrite Htk by auto. destruct (Nat.leb_spec i c).
          -- rewrite M4, Htk by lia. f_equal. apply Rsum_ext. intros k Hk. rewrite !M4, !Htk by lia. reflexivity.
          -- apply Rsum_ext. intros k Hk. rewrite !M4, !Htk by lia. reflexivity.
        * pose proof (Htge i Hij). replace (i <=? c)%nat with false by (symmetry; apply Nat.leb_gt; lia).
          replace (tau j imax i <=? c)%nat with false by (symmetry; apply Nat.leb_gt; lia).
          apply Rsum_ext. intros k Hk. rewrite !M4 by lia. rewrite (Htk k) by lia. reflexivity.
    - intros i c Hi Hc. rewrite Hps, M4 by lia. unfold p. apply (li_todo Hinv); auto. lia.
    - intros k Hk. destruct (Nat.eq_dec k j) as [->|Hne].
      + rewrite S1 by lia. auto.
      + rewrite M4, Htk by lia. apply (li_piv Hinv). lia.
  Qed.

  Lemma scaling_pos vv : lu_scaling tiny n A = Ok vv -> forall i, (i < n)%nat -> 0 < vv i.
  Proof.
    unfold lu_scaling. intros H.
    eapply (@oloop_inv _ (fun k vv => forall i, (i < k)%nat -> 0 < vv i) 0 n); [lia| | |exact H]; [intros; lia|].
    intros k s s' Hk Hs E i Hi. cbv beta in E. destruct (Rlt_dec (row_max n A k) tiny); [discriminate E|].
    injection E as <-. unfold upd. destruct (Nat.eqb_spec i k) as [->|]; [|apply Hs; lia].
    apply Rdiv_lt_0_compat; lra.
  Qed.

  Lemma lu_solves v x : lu_solve_system tiny n A v = Ok x ->
    forall r, (r < n)%nat -> mv n A x r = v r.
  Proof.
    unfold lu_solve_system, lu_decompose. destruct (lu_scaling tiny n A) as [vv| | |] eqn:Es; try discriminate.
    simpl obind.
    destruct (oloop 0 n (lu_column tiny n) _) as [st| | |] eqn:Eo; try discriminate.
    simpl. intros [= <-] r Hr.
    assert (Hinv : lu_inv n st).
    { eapply oloop_inv with (P := lu_inv); [| | |exact Eo]; [lia| |].
      - split; cbn [lu_index lu_vv lu_m]; try (intros; lia).
        + now apply scaling_pos.
        + reflexivity.
      - intros k s s' Hk Hs E. apply (column_inv (proj2 Hk) Hs E). }
    destruct (@pseq_surj n (lu_index st) n) with (r := r) as (i & Hi & <-); auto.
    { intros k Hk. apply (li_idx Hinv). auto. }
    unfold mv. set (y := lu_forward n (lu_m st) (lu_index st) v).
    set (xx := lu_solve n (lu_m st) (lu_index st) v).
    rewrite (@Rsum_ext n _ (fun c => Rsum n (fun k => Lf (lu_m st) i k * (Uf (lu_m st) k c * xx c)))).
    2:{ intros c Hc. rewrite (li_done Hinv) by auto. rewrite Rmult_comm, <- Rsum_scal. apply Rsum_ext. intros; ring. }
    rewrite Rsum_swap. rewrite (@Rsum_ext n _ (fun k => Lf (lu_m st) i k * y k)).
    - unfold y. apply forward_ok; auto. apply (li_idx Hinv).
    - intros k Hk. rewrite Rsum_scal. f_equal. unfold xx, lu_solve. apply backward_ok; auto.
      apply (li_piv Hinv).
  Qed.
End LU.
