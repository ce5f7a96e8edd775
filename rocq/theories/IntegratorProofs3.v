(** Independence of the output frequency; conservation laws. *)
From Verif Require Import Base ListLemmas Loops BcModel BcSpec BcProofs IntegratorModel IntegratorSpec IntegratorProofs IntegratorProofs2.
From Coq Require Import Reals Lra FunctionalExtensionality.
Local Open Scope nat_scope.
Set Implicit Arguments.

Section Freq.
  Context {S : Type} (ph : physics S) (cfg : run_config) (N : nat) (mg0 : manager) (ref : view).
  Hypothesis Hbc : bc_input_ok mg0 N.
  Hypothesis Hdim : mg_dim mg0 = 3.
  Hypothesis Hsch : mg_scheme mg0 = EXPLICIT.
  Hypothesis Href : shaped N 3 ref.
  Hypothesis Hmass : length (rc_mass cfg) = N.
  Local Notation cfg1 := (every_step cfg).
  Local Notation h := (user_step cfg).
  Lemma h1 : user_step cfg1 = h. Proof. reflexivity. Qed.

  Record rel (s s1 : istate S) : Prop := {
    r_time : i_time s1 = i_time s; r_disp : k_disp (i_kin s1) = k_disp (i_kin s);
    r_vel : forall n c, undriven mg0 h n c -> v_at (k_vel (i_kin s1)) n c = v_at (k_vel (i_kin s)) n c;
    r_acc : i_acc s1 = i_acc s; r_int : i_int s1 = i_int s; r_ext : i_ext s1 = i_ext s; r_con : i_con s1 = i_con s;
    r_old : i_old s1 = i_old s; r_new : i_new s1 = i_new s }.

  Lemma axv_agree v w a x : (forall n c, undriven mg0 h n c -> v_at v n c = v_at w n c) ->
    forall n c, undriven mg0 h n c -> v_at (axv N v a x) n c = v_at (axv N w a x) n c.
  Proof. intros H n c Hu. simpl. now rewrite H. Qed.

  Lemma rel_half s s1 : rel s s1 ->
    bcv N mg0 ref h (i_time s1 + h) (k_disp (i_kin s1)) (axv N (k_vel (i_kin s1)) (h / 2) (i_acc s1)) =
    bcv N mg0 ref h (i_time s + h) (k_disp (i_kin s)) (axv N (k_vel (i_kin s)) (h / 2) (i_acc s)).
  Proof.
    intros [A B C D _ _ _ _ _]. rewrite A, B, D. apply bcv_agree; auto. now apply axv_agree.
  Qed.


  Lemma rel_step k s s' s1 s1' : rel s s1 -> step_effect ph cfg N mg0 ref k s s' -> step_effect ph cfg1 N mg0 ref k s1 s1' ->
    rel s' s1' /\ (is_output cfg k = true -> written_of s1' = written_of s').
  Proof.
    intros Hr E E1. pose proof (rel_half Hr) as Hh. destruct Hr as [A B C D R1 R2 R3 R4 R5].
    pose proof (se_disp E) as Ed. pose proof (se_disp E1) as Ed1. change (user_step cfg1) with h in Ed1.
    rewrite Hh, B in Ed1. rewrite <- Ed in Ed1.
    destruct (se_int E) as (f & Ef & Ei). destruct (se_int E1) as (f1 & Ef1 & Ei1). change (user_step cfg1) with h in Ef1.
    rewrite Ed1, A, R4, R5 in Ef1. assert (Eq : Ok (i_old s1', f1) = Ok (i_old s', f)) by congruence. injection Eq as Eold ->.
    assert (Eint : i_int s1' = i_int s') by congruence.
    assert (Eext : i_ext s1' = i_ext s') by (rewrite (se_ext E), (se_ext E1); reflexivity).
    assert (Econ : i_con s1' = i_con s').
    { pose proof (se_con E) as Q. pose proof (se_con E1) as Q1. destruct (ph_contact ph) as [g|].
      - destruct Q as (x & X1 & X2). destruct Q1 as (y & Y1 & Y2). rewrite Ed1 in Y1. congruence.
      - congruence. }
    assert (Eacc : i_acc s1' = i_acc s').
    { rewrite (se_acc E), (se_acc E1). f_equal. apply functional_extensionality. intros n. apply functional_extensionality. intros c.
      unfold acc_entry, mass_of. rewrite Eint, Eext, Econ, D. reflexivity. }
    pose proof (se_vel E) as V. pose proof (se_vel E1) as V1. cbv zeta in V, V1. change (user_step cfg1) with h in V1.
    rewrite Hh, Ed1, Eacc, A in V1.
    set (v4 := axv N (bcv N mg0 ref h (i_time s + h) (k_disp (i_kin s'))
       (bcv N mg0 ref h (i_time s + h) (k_disp (i_kin s)) (axv N (k_vel (i_kin s)) (h / 2) (i_acc s)))) (h / 2) (i_acc s')) in *.
    assert (O1 : is_output cfg1 k = true).
    { unfold is_output, every_step. simpl. rewrite Z.rem_1_r. reflexivity. }
    rewrite O1 in V1.
    split.
    - split; auto.
      + rewrite (se_time E), (se_time E1), A. reflexivity.
      + intros n c Hu. rewrite V, V1. rewrite bcv_undriven by auto. destruct (is_output cfg k); auto. now rewrite bcv_undriven.
      + rewrite (se_new E), (se_new E1). auto.
    - intros Ho. rewrite Ho in V. unfold written_of. rewrite Ed1, Eacc, Eint, Eext, Econ, V, V1, (se_time E), (se_time E1), A. reflexivity.
  Qed.

  Lemma rel_run s s' n : good N mg0 ref s -> i_out s = [written_of s] -> oloop 0 n (explicit_step ph cfg N) s = Ok s' ->
    exists s1' l, oloop 0 n (explicit_step ph cfg1 N) s = Ok s1' /\ i_out s1' = map l (seq 0 (n + 1)) /\
      i_out s' = l 0 :: map (fun k => l (k + 1)) (filter (is_output cfg) (seq 0 n)).
  Proof.
    intros G Ho E. destruct (@run_traj S ph cfg N mg0 ref Hbc Hdim Hsch Href Hmass n s s' G E) as (tr & T0 & Tn & T).
    assert (Hm1 : length (rc_mass cfg1) = N) by exact Hmass.
    destruct (@oloop_ind _ (fun k s1 => good N mg0 ref s1 /\ rel (tr k) s1) 0 n (explicit_step ph cfg1 N) s) as (s1' & E1 & _).
    - lia.
    - split; auto. rewrite T0. split; auto.
    - intros k s1 Hk [G1 R1]. pose proof (tr_step T (k := k) ltac:(lia)) as Es.
      pose proof (rel_half R1) as Hh.
      destruct (se_int Es) as (f & Ef & Ei). rewrite (se_disp Es) in Ef.
      assert (Hd : axv N (k_disp (i_kin s1)) h (bcv N mg0 ref h (i_time s1 + h) (k_disp (i_kin s1)) (axv N (k_vel (i_kin s1)) (h / 2) (i_acc s1)))
         = k_disp (i_kin (tr (k + 1)))) by (rewrite Hh, (r_disp R1); symmetry; apply (se_disp Es)).
      pose proof (se_con Es) as Ec.
      assert (Hc : exists fc, match ph_contact ph, fc with
        | Some g, Some fc => g (k + 1) (axv N (k_disp (i_kin s1)) h (bcv N mg0 ref h (i_time s1 + h) (k_disp (i_kin s1)) (axv N (k_vel (i_kin s1)) (h / 2) (i_acc s1)))) = Ok fc
        | None, None => True | _, _ => False end).
      { rewrite Hd. destruct (ph_contact ph) as [g|]; [|now exists None]. destruct Ec as (x & X & _). now exists (Some x). }
      destruct Hc as (fc & Hc).
      destruct (@step_ok S ph cfg1 N mg0 ref Hbc Hdim Hsch Href Hm1 k s1 (i_old (tr (k + 1))) f fc G1) as (s2 & E2 & Es2).
      + change (user_step cfg1) with h. rewrite Hd, (r_old R1), (r_new R1), (r_time R1).
        rewrite <- (se_disp Es) in Ef. exact Ef.
      + exact Hc.
      + exists s2. split; auto. split; [apply Es2|]. replace (1 + k) with (k + 1) by lia. apply (rel_step R1 Es Es2).
    - destruct (@run_traj S ph cfg1 N mg0 ref Hbc Hdim Hsch Href Hm1 n s s1' G E1) as (tr1 & T01 & Tn1 & T1).
      assert (R : forall k, k <= n -> rel (tr k) (tr1 k)).
      { induction k as [|k IH]; intros Hk; [rewrite T0, T01; split; auto|]. rewrite <- Nat.add_1_r.
        apply (@rel_step k (tr k) _ (tr1 k) _ (IH ltac:(lia))); [apply T|apply T1]; lia. }
      exists s1', (fun k => written_of (tr1 k)). split; auto. split.
      + rewrite <- Tn1. rewrite (@traj_out S ph cfg1 N mg0 ref Hdim Hm1 tr1 n n T1) by lia. rewrite T01, Ho.
        rewrite Nat.add_1_r. simpl. rewrite T01. f_equal.
        replace (filter (is_output cfg1) (seq 0 n)) with (seq 0 n).
        * rewrite <- seq_shift, map_map. apply map_ext. intros a. now rewrite Nat.add_1_r.
        * generalize (seq 0 n). induction l as [|a l IH]; simpl; auto.
          replace (is_output cfg1 a) with true; [congruence|].
          unfold is_output, every_step. simpl. rewrite Z.rem_1_r. reflexivity.
      + rewrite <- Tn, (@traj_out S ph cfg N mg0 ref Hdim Hmass tr n n T) by lia. rewrite T0, Ho, T01. simpl. f_equal.
        apply map_ext_in. intros k Hk. apply filter_In in Hk. destruct Hk as [Hk Hok]. apply in_seq in Hk.
        symmetry. apply (@rel_step k (tr k) _ (tr1 k) _ (R k ltac:(lia))); auto; [apply T|apply T1]; lia.
  Qed.
End Freq.

Section Forms.
  Local Open Scope R_scope.
  Variable (N : nat).
  Lemma nodal_ext f g : (forall n c, (n < N)%nat -> (c < 3)%nat -> f n c = g n c) -> nodal_sum N f = nodal_sum N g.
  Proof. intros H. apply Rsum_ext. intros n Hn. apply Rsum_ext. intros c Hc. auto. Qed.
  Lemma nodal_plus f g : nodal_sum N (fun n c => f n c + g n c) = nodal_sum N f + nodal_sum N g.
  Proof. unfold nodal_sum. rewrite <- Rsum_plus. apply Rsum_ext. intros n Hn. apply Rsum_plus. Qed.
  Lemma nodal_scal a f : nodal_sum N (fun n c => a * f n c) = a * nodal_sum N f.
  Proof. unfold nodal_sum. rewrite <- Rsum_scal. apply Rsum_ext. intros n Hn. apply Rsum_scal. Qed.
  Lemma nodal_minus f g : nodal_sum N (fun n c => f n c - g n c) = nodal_sum N f - nodal_sum N g.
  Proof. unfold nodal_sum. rewrite <- Rsum_minus. apply Rsum_ext. intros n Hn. apply Rsum_minus. Qed.
  Lemma nodal_swap (f : nat -> nat -> nat -> nat -> R) :
    nodal_sum N (fun n c => nodal_sum N (fun n' c' => f n c n' c')) = nodal_sum N (fun n' c' => nodal_sum N (fun n c => f n c n' c')).
  Proof.
    unfold nodal_sum.
    transitivity (Rsum N (fun n => Rsum N (fun n' => Rsum 3 (fun c => Rsum 3 (fun c' => f n c n' c'))))).
    { apply Rsum_ext. intros n Hn. apply Rsum_swap. }
    rewrite Rsum_swap. apply Rsum_ext. intros n' Hn'.
    transitivity (Rsum N (fun n => Rsum 3 (fun c' => Rsum 3 (fun c => f n c n' c')))).
    { apply Rsum_ext. intros n Hn. apply Rsum_swap. }
    apply Rsum_swap.
  Qed.
  Lemma nodal_nonneg f : (forall n c, (n < N)%nat -> (c < 3)%nat -> 0 <= f n c) -> 0 <= nodal_sum N f.
  Proof. intros H. apply Rsum_nonneg. intros n Hn. apply Rsum_nonneg. auto. Qed.

  Variable K : nat -> nat -> nat -> nat -> R.
  Hypothesis Ksym : forall n c n' c', (n < N)%nat -> (c < 3)%nat -> (n' < N)%nat -> (c' < 3)%nat -> K n c n' c' = K n' c' n c.
  Lemma quad_expand a b : quadratic N K a b = nodal_sum N (fun n c => nodal_sum N (fun n' c' => a n c * K n c n' c' * b n' c')).
  Proof.
    apply nodal_ext. intros n c _ _. unfold stiffness_times. rewrite <- nodal_scal. apply nodal_ext. intros; ring.
  Qed.
  Lemma quad_sym a b : quadratic N K a b = quadratic N K b a.
  Proof.
    rewrite !quad_expand, nodal_swap. apply nodal_ext. intros n c Hn Hc. apply nodal_ext. intros n' c' Hn' Hc'.
    rewrite (@Ksym n' c' n c) by auto. ring.
  Qed.
  Lemma quad_lin_l a1 a2 x b : quadratic N K (fun n c => a1 n c + x * a2 n c) b = quadratic N K a1 b + x * quadratic N K a2 b.
  Proof.
    unfold quadratic. rewrite <- nodal_scal, <- nodal_plus. apply nodal_ext. intros; ring.
  Qed.
  Lemma quad_lin_r a b1 b2 x : quadratic N K a (fun n c => b1 n c + x * b2 n c) = quadratic N K a b1 + x * quadratic N K a b2.
  Proof. rewrite quad_sym, quad_lin_l. now rewrite (quad_sym b1), (quad_sym b2). Qed.
End Forms.
