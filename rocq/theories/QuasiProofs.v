(** Lemmas about the quasistatic model: node map, update loops, held entries of the CG solution. *)
From Coq Require Import Reals Lra Permutation.
From Verif Require Import Base ListLemmas Loops LinModel LinSpec CrsProofs CgProofs PatternProofs BcModel BcSpec BcProofs IntegratorModel IntegratorSpec QuasiModel QuasiSpec.
Local Open Scope nat_scope.
Set Implicit Arguments.

(** ** map_from_linear_system *)
Lemma assoc_nset_same {V} k (v : V) m : assoc Nat.eqb k (assoc_set Nat.eqb k v m) = Some v.
Proof.
  induction m as [|[k' v'] m IH]; simpl.
  - now rewrite Nat.eqb_refl.
  - destruct (Nat.eqb_spec k k') as [->|Hk]; simpl; [now rewrite Nat.eqb_refl|].
    apply Nat.eqb_neq in Hk. now rewrite Hk.
Qed.
Lemma assoc_nset_other {V} k k' (v : V) m : k <> k' -> assoc Nat.eqb k (assoc_set Nat.eqb k' v m) = assoc Nat.eqb k m.
Proof.
  intros Hk. induction m as [|[k2 v2] m IH]; simpl.
  - apply Nat.eqb_neq in Hk. now rewrite Hk.
  - destruct (Nat.eqb_spec k' k2) as [->|H2]; simpl.
    + apply Nat.eqb_neq in Hk. now rewrite Hk.
    + now rewrite IH.
Qed.
Lemma assoc_nset_length {V} k (v : V) m : assoc Nat.eqb k m = None -> length (assoc_set Nat.eqb k v m) = 1 + length m.
Proof.
  induction m as [|[k' v'] m IH]; simpl; auto. destruct (Nat.eqb k k'); [discriminate|]. intros H. simpl. now rewrite IH.
Qed.

Lemma ls_map_gen : forall gids a m, NoDup gids -> (forall g, In g gids -> assoc Nat.eqb g m = None) ->
  let m' := fold_left (fun m ng => assoc_set Nat.eqb (snd ng) [fst ng] m) (combine (seq a (length gids)) gids) m in
  length m' = length m + length gids /\
  (forall i g, nth_error gids i = Some g -> assoc Nat.eqb g m' = Some [a + i]) /\
  (forall g, ~ In g gids -> assoc Nat.eqb g m' = assoc Nat.eqb g m).
Proof.
  induction gids as [|g0 gids IH]; intros a m Hnd Hm; simpl.
  - split; [lia|]. split; [intros [|]; discriminate|auto].
  - inversion_clear Hnd as [|? ? Hn Hnd'].
    destruct (IH (S a) (assoc_set Nat.eqb g0 [a] m) Hnd') as (H1 & H2 & H3).
    { intros g Hg. rewrite assoc_nset_other by (intros ->; contradiction). apply Hm. now right. }
    split; [|split].
    + rewrite H1, assoc_nset_length by (apply Hm; now left). lia.
    + intros [|i] g E; simpl in E.
      * injection E as ->. rewrite H3 by auto. rewrite assoc_nset_same. now rewrite Nat.add_0_r.
      * rewrite (H2 i g E). now rewrite <- plus_n_Sm.
    + intros g Hg. rewrite H3 by tauto. apply assoc_nset_other. intros ->. apply Hg. now left.
Qed.
Lemma ls_map_ok gids : NoDup gids -> length (linear_system_map gids) = length gids /\
  forall i g, nth_error gids i = Some g -> assoc Nat.eqb g (linear_system_map gids) = Some [i].
Proof.
  intros H. destruct (@ls_map_gen gids 0 [] H) as (H1 & H2 & _); [reflexivity|]. split; auto.
Qed.

(** a duplicate-free list of N numbers below N contains all of them *)
Lemma pigeon gids N : length gids = N -> NoDup gids -> Forall (fun g => g < N) gids ->
  forall g, g < N -> exists i, nth_error gids i = Some g.
Proof.
  intros Hl Hnd Hr g Hg. apply In_nth_error.
  assert (Hi : incl (seq 0 N) gids).
  { apply NoDup_length_incl; auto.
    - rewrite seq_length. lia.
    - intros x Hx. rewrite Forall_forall in Hr. apply in_seq. specialize (Hr x Hx). lia. }
  apply Hi. apply in_seq. lia.
Qed.

(** ** the loops over all unknowns *)
Section Over.
  Context {S : Type} (cfg : qconfig) (st : qstate S) (N : nat).
  Let dim := mg_dim (q_mgr st).
  Hypothesis Hlen : length (qc_gids cfg) = N.
  Hypothesis Hnd : NoDup (qc_gids cfg).
  Hypothesis Hr : Forall (fun g => g < N) (qc_gids cfg).

  Lemma over_ok (f : nat -> nat -> nat -> view -> outcome view) (h : nat -> nat -> nat -> R -> R) v :
    shaped N dim v ->
    (forall i n c v', shaped N dim v' -> n < N -> c < dim -> i < N * dim ->
       f i n c v' = Ok (View N dim (upd2 (v_at v') n c (h i n c (v_at v' n c))))) ->
    exists v', over_unknowns cfg st f v = Ok v' /\ shaped N dim v' /\
      forall n g c, nth_error (qc_gids cfg) n = Some g -> c < dim -> v_at v' n c = h (g * dim + c) n c (v_at v n c).
  Proof.
    intros Hv Hf. unfold over_unknowns, ls_nodes. destruct (ls_map_ok Hnd) as [Hl Hm]. rewrite Hl, Hlen.
    pose (P := fun (k : nat) (v' : view) => shaped N dim v' /\
      forall n g c, nth_error (qc_gids cfg) n = Some g -> c < dim ->
        v_at v' n c = if g <? k then h (g * dim + c) n c (v_at v n c) else v_at v n c).
    destruct (@oloop_ind _ P 0 N (fun n v => ofold (fun v node => oloop 0 (mg_dim (q_mgr st)) (fun dof v =>
        f (n * mg_dim (q_mgr st) + dof) node dof v) v)
        (match assoc Nat.eqb n (linear_system_map (qc_gids cfg)) with Some l => l | None => [] end) v) v)
      as (v' & E & Hs & H); [lia| | |].
    - split; auto.
    - intros k v1 Hk [Hs H]. destruct (@pigeon _ N Hlen Hnd Hr k) as [i Hi]; [lia|].
      assert (Hi' : i < N) by (rewrite <- Hlen; eapply nth_error_Some_lt; eauto).
      rewrite (Hm i k Hi). cbn [ofold]. fold dim.
      pose (Q := fun (d : nat) (v' : view) => shaped N dim v' /\
        forall n g c, nth_error (qc_gids cfg) n = Some g -> c < dim ->
          v_at v' n c = if (g =? k) && (c <? d) then h (g * dim + c) n c (v_at v n c) else v_at v1 n c).
      destruct (@oloop_ind _ Q 0 dim (fun dof v => f (k * dim + dof) i dof v) v1) as (v2 & E2 & Hs2 & H2); [lia| | |].
      + split; auto. intros n g c Hn Hc. rewrite andb_false_r. reflexivity.
      + intros d v2 Hd [Hs2 H2]. rewrite Hf; auto; [|lia|nia]. eexists. split; [reflexivity|].
        split; [split; reflexivity|]. intros n g c Hn Hc. cbn [v_at]. unfold upd2.
        destruct (Nat.eqb_spec n i) as [->|Hni].
        * rewrite Hi in Hn. injection Hn as <-. rewrite Nat.eqb_refl. cbn [andb].
          destruct (Nat.eqb_spec c d) as [->|Hcd].
          -- replace (d <? 1 + d) with true by (symmetry; apply Nat.ltb_lt; lia).
             rewrite (H2 i k d Hi Hc). rewrite Nat.eqb_refl, Nat.ltb_irrefl. cbn [andb].
             rewrite (H i k d Hi Hc). now rewrite Nat.ltb_irrefl.
          -- rewrite (H2 i k c Hi Hc). rewrite Nat.eqb_refl. cbn [andb].
             destruct (Nat.ltb_spec c d), (Nat.ltb_spec c (1 + d)); auto; lia.
        * cbn [andb]. rewrite (H2 n g c Hn Hc).
          destruct (Nat.eqb_spec g k) as [->|]; auto.
          exfalso. apply Hni. rewrite NoDup_nth_error in Hnd. apply Hnd; [|congruence].
          eapply nth_error_Some_lt; eauto.
      + exists v2. rewrite E2. cbn [obind]. split; [reflexivity|]. split; auto.
        intros n g c Hn Hc. rewrite (H2 n g c Hn Hc). rewrite (H n g c Hn Hc).
        replace (c <? dim) with true by (symmetry; now apply Nat.ltb_lt). rewrite andb_true_r.
        destruct (Nat.eqb_spec g k), (Nat.ltb_spec g k), (Nat.ltb_spec g (1 + k)); auto; lia.
    - exists v'. split; [exact E|]. split; auto. intros n g c Hn Hc. rewrite (H n g c Hn Hc).
      rewrite Forall_forall in Hr. specialize (Hr g (nth_error_In _ _ Hn)).
      now replace (g <? N) with true by (symmetry; now apply Nat.ltb_lt).
  Qed.
End Over.

(** ** CG keeps held unknowns at zero *)
Section Zero.
  Variables (pat : list (nat * nat)) (Hpat : good_pattern pat).
  Variables (a : rcrs) (D : nat -> nat -> R) (Hrep : represents pat a D).
  Let n := num_rows a.
  Hypothesis Hcols : forall i j, In (i, j) pat -> j < n.
  Variables (b : nat -> R) (m : list R) (k : nat).
  Hypothesis Hk : k < n.
  Hypothesis Hrow : forall j, In (k, j) pat -> j <> k -> D k j = 0%R.
  Hypothesis Hb : b k = 0%R.

  Lemma zero_matvec x y : x k = 0%R -> mat_vec a x y k = 0%R.
  Proof.
    intros Hx. rewrite (@matvec_mv pat Hpat a D Hrep Hcols x y k Hk). unfold mv. apply Rsum_zero. intros j Hj.
    destruct (Nat.eq_dec j k) as [->|Hne]; [rewrite Hx; ring|].
    unfold dense_of. destruct (in_dec nn_dec (k, j) pat) as [Hin|]; [rewrite Hrow; auto|]; ring.
  Qed.
  Definition zero_at (st : cg_state) : Prop := cg_x st k = 0%R /\ cg_d st k = 0%R /\ cg_r st k = 0%R.
  Lemma ltb_k : (k <? n) = true. Proof. now apply Nat.ltb_lt. Qed.
  Lemma zero_step st st' : zero_at st -> cg_step a n m b st = Some st' -> zero_at st'.
  Proof.
    intros (H1 & H2 & H3). unfold cg_step.
    set (q := mat_vec a (cg_d st) (cg_q st)). destruct (Req_EM_T (inner n (cg_d st) q) 0) as [|_]; [discriminate|].
    set (alpha := (cg_delta st / inner n (cg_d st) q)%R).
    set (x := floop 0 n (fun i x => upd x i (x i + alpha * cg_d st i)%R) (cg_x st)).
    assert (Hx : x k = 0%R).
    { unfold x. rewrite (floop_pointwise n (fun i v => v + alpha * cg_d st i)%R), ltb_k, H1, H2. ring. }
    set (r := if (cg_iter st mod 50 =? 0) then _ else _).
    assert (Hr : r k = 0%R).
    { unfold r. destruct (cg_iter st mod 50 =? 0).
      - rewrite (floop_pointwise n (fun i _ => b i - mat_vec a x q i)%R), ltb_k, Hb, zero_matvec by auto. ring.
      - rewrite (floop_pointwise n (fun i v => v - alpha * q i)%R), ltb_k, H3. unfold q. rewrite zero_matvec by auto. ring. }
    clearbody r. destruct (Req_EM_T (cg_delta st) 0) as [|_]; [discriminate|]. intros Est. injection Est as <-. split; [exact Hx|]. split; [|exact Hr]. simpl.
    rewrite (floop_pointwise n (fun i v => diag_mat_vec n m r (cg_s st) i + _ * v)%R), ltb_k, H2.
    unfold diag_mat_vec. rewrite (floop_pointwise n (fun i _ => nth i m 0 * r i)%R), ltb_k, Hr. ring.
  Qed.
  Lemma zero_loop fuel tol : forall st st', zero_at st -> cg_loop fuel a n m b tol st = Some st' -> zero_at st'.
  Proof.
    induction fuel as [|fuel IH]; intros st st' H; simpl; [intros E; injection E as <-; auto|].
    destruct (Rlt_dec tol (cg_delta st)); [|intros E; injection E as <-; auto].
    destruct (cg_step a n m b st) as [s1|] eqn:E1; [|discriminate]. apply IH. eapply zero_step; eauto.
  Qed.
End Zero.

Lemma cg_zero pat a D b m0 scratch x tol mx res k : good_pattern pat -> represents pat a D ->
  (forall i j, In (i, j) pat -> j < num_rows a) -> k < num_rows a ->
  (forall j, In (k, j) pat -> j <> k -> D k j = 0%R) -> b k = 0%R -> x k = 0%R ->
  cg_solve a b m0 scratch x tol mx = Ok (Some res) -> cg_solution res k = 0%R.
Proof.
  intros Hp Hr Hc Hk Hrow Hb Hx. unfold cg_solve. destruct (populate_diagonal a m0) as [m| | |]; try discriminate.
  cbn [obind]. destruct (zero_diagonal a); [discriminate|]. cbv zeta. set (st0 := CG _ _ _ _ _ _ _).
  destruct (cg_loop mx a (num_rows a) m b _ st0) as [st|] eqn:El; [|discriminate]. intros E. injection E as <-. cbn [cg_solution].
  apply (@zero_loop pat Hp a D Hr Hc b m k Hk Hrow Hb mx) in El; [apply El|]. unfold st0. clear El st0. split; [exact Hx|].
  set (q := mat_vec a x scratch).
  assert (Hrk : floop 0 (num_rows a) (fun i r => upd r i (b i - q i)%R) scratch k = 0%R).
  { rewrite (floop_pointwise (num_rows a) (fun i _ => b i - q i)%R), (@ltb_k a k Hk), Hb. unfold q.
    rewrite (@zero_matvec pat Hp a D Hr Hc k Hk Hrow x scratch Hx). ring. }
  split; [|exact Hrk]. simpl. unfold diag_mat_vec.
  rewrite (floop_pointwise (num_rows a) (fun i _ => nth i m 0 * _)%R), (@ltb_k a k Hk), Hrk. ring.
Qed.
