(** The quasistatic solver on linear problems. *)
From Coq Require Import Reals Lra Permutation.
From Verif Require Import Base ListLemmas Loops LinModel LinSpec CrsProofs CgProofs CgSpd PatternProofs BcModel BcSpec BcProofs IntegratorModel IntegratorSpec QuasiModel QuasiSpec QuasiProofs QuasiProofs2 QuasiProofs3 QuasiProofs4.
Local Open Scope nat_scope.
Set Implicit Arguments.

(** ** sums *)
Lemma Rsum_block n d f : Rsum (n * d) f = Rsum n (fun i => Rsum d (fun c => f (i * d + c))).
Proof.
  induction n as [|n IH]; [reflexivity|]. replace (Datatypes.S n * d) with (n * d + d) by lia.
  rewrite Rsum_split, IH. simpl. reflexivity.
Qed.
Definition lsum (l : list R) : R := fold_right Rplus 0%R l.
Lemma lsum_app l l' : lsum (l ++ l') = (lsum l + lsum l')%R.
Proof. induction l as [|x l IH]; simpl; [ring|]. rewrite IH. ring. Qed.
Lemma lsum_perm l l' : Permutation l l' -> lsum l = lsum l'.
Proof. induction 1; simpl; try congruence; lra. Qed.
Lemma Rsum_lsum n f : Rsum n f = lsum (map f (seq 0 n)).
Proof. induction n as [|n IH]; [reflexivity|]. rewrite seq_S, map_app, lsum_app. simpl. rewrite IH. ring. Qed.
Lemma Rsum_perm (gids : list nat) N (F : nat -> R) : length gids = N -> NoDup gids -> Forall (fun g => g < N) gids ->
  Rsum N (fun n => F (nth n gids 0)) = Rsum N F.
Proof.
  intros Hl Hn Hr. rewrite !Rsum_lsum. apply lsum_perm.
  assert (Hm : map (fun n => F (nth n gids 0)) (seq 0 N) = map F gids).
  { transitivity (map F (map (fun n => nth n gids 0) (seq 0 N))); [now rewrite map_map|]. f_equal. subst N.
    clear. induction gids as [|g l IH]; [reflexivity|]. cbn [length seq map]. rewrite <- seq_shift, map_map. cbn [nth]. now rewrite IH. }
  rewrite Hm. apply Permutation_map. apply NoDup_Permutation; auto; [apply seq_NoDup|].
  intros x. rewrite in_seq. split.
  - intros Hx. rewrite Forall_forall in Hr. specialize (Hr x Hx). lia.
  - intros Hx. destruct (@pigeon gids N Hl Hn Hr x) as [n Hnn]; [lia|]. eapply nth_error_In; eauto.
Qed.

Section Env.
  Context {S : Type} (ph : qphysics S) (cfg : qconfig) (N : nat) (mg0 : manager) (ref : view) (pat : list (nat * nat)).
  Let dim := mg_dim mg0.
  Let gids := qc_gids cfg.
  Hypothesis E : env ph cfg N mg0 ref pat.
  Variables (f0 : S -> R -> R -> nat -> nat -> R) (K : nat -> nat -> R) (lo hi : R).
  Hypothesis Hlin : linear_physics N dim gids ph f0 K.
  Hypothesis Hst : stiffness_ok N mg0 gids K lo hi.
  Let M := N * dim.

  Lemma gids_nth n : n < N -> nth_error gids n = Some (nth n gids 0).
  Proof. intros Hn. apply nth_error_nth'. unfold gids. rewrite (e_len E). exact Hn. Qed.

  Lemma all_unknowns (F : nat -> R) : Rsum M F = Rsum N (fun n => Rsum dim (fun c => F (unknown dim gids n c))).
  Proof.
    unfold M. rewrite Rsum_block. symmetry. unfold unknown.
    apply (@Rsum_perm gids N (fun g => Rsum dim (fun c => F (g * dim + c))) (e_len E) (e_nodup E) (e_range E)).
  Qed.

  Lemma held_unknown_constrained i : held_unknown mg0 gids i <-> constrained mg0 gids i.
  Proof.
    split.
    - intros (n & c & Hn & Hc & Hh & ->). unfold unknown. apply (@held_constrained _ ph cfg N mg0 ref pat E n (nth n gids 0) c); auto.
      now apply nth_error_nth'.
    - intros Hc. pose proof (@constrained_lt _ ph cfg N mg0 ref pat E i Hc) as Hlt.
      destruct (@row_gid _ ph cfg N mg0 ref pat E i Hlt) as (n & g & c & Hn & Hcc & ->).
      exists n, c. split; [eapply nth_error_Some_lt; eauto|]. split; auto.
      split; [now apply (@held_constrained _ ph cfg N mg0 ref pat E n g c)|]. unfold unknown.
      now rewrite (@nth_error_nth_eq _ gids n 0 g Hn).
  Qed.

  (** ** the matrix of the linear system *)
  Section Matrix.
  Variables (l : list (nat * nat * R)) (diag : R) (D : nat -> nat -> R) (d : view).
  Hypothesis Hl : qp_tangent ph d = Ok l.
  Hypothesis Hsm : system_matrix cfg N mg0 l diag D.
  Hypothesis Hnone : forall i j, ~ In (i, j) pat -> i < N * dim -> j < N * dim -> D i j = dense_of pat D i j.
  Hypothesis Hdiag : (diag * INR (N * dim) = Rsum (N * dim) (fun i => Rabs (contributed l i i)))%R.
  Let A := dense_of pat D.

  Lemma A_D i j : i < M -> j < M -> A i j = D i j.
  Proof.
    intros Hi Hj. destruct (in_dec nn_dec (i, j) pat) as [Hin|Hn]; [now apply dense_of_in|]. symmetry. now apply Hnone.
  Qed.
  Lemma A_held i j : i < M -> j < M -> constrained mg0 gids i \/ constrained mg0 gids j -> A i j = if i =? j then diag else 0%R.
  Proof. intros Hi Hj Hc. rewrite A_D by auto. now apply (Hsm Hi Hj). Qed.
  Lemma A_free i j : i < M -> j < M -> ~ constrained mg0 gids i -> ~ constrained mg0 gids j -> A i j = K i j.
  Proof.
    intros Hi Hj H1 H2. rewrite A_D by auto. destruct (Hsm Hi Hj) as [_ B]. rewrite B by auto. now apply (lp_tangent Hlin d).
  Qed.

  Definition freed (x : nat -> R) (i : nat) : R := if existsb (Nat.eqb i) (all_dofs mg0 gids) then 0%R else x i.
  Lemma freed_held x i : constrained mg0 gids i -> freed x i = 0%R.
  Proof.
    intros Hc. unfold freed. replace (existsb (Nat.eqb i) (all_dofs mg0 gids)) with true; auto. symmetry.
    apply existsb_eqb_In. apply all_dofs_constrained; auto.
    intros id n. apply (@node_sets_lt _ ph cfg N mg0 ref pat E mg0 id n). apply same_refl.
  Qed.
  Lemma freed_free x i : ~ constrained mg0 gids i -> freed x i = x i.
  Proof.
    intros Hc. unfold freed. destruct (existsb (Nat.eqb i) (all_dofs mg0 gids)) eqn:Ex; auto. exfalso. apply Hc.
    apply existsb_eqb_In in Ex. apply all_dofs_constrained in Ex; auto.
    intros id n. apply (@node_sets_lt _ ph cfg N mg0 ref pat E mg0 id n). apply same_refl.
  Qed.

  Lemma A_row_free x i : i < M -> ~ constrained mg0 gids i -> mv M A x i = mv M K (freed x) i.
  Proof.
    intros Hi Hc. unfold mv. apply Rsum_ext. intros j Hj.
    destruct (@constrained_dec _ ph cfg N mg0 ref pat E j) as [Hjc|Hjc].
    - rewrite freed_held by auto. rewrite A_held by auto. destruct (Nat.eqb_spec i j) as [->|]; [contradiction|ring].
    - rewrite freed_free by auto. now rewrite A_free.
  Qed.
  Lemma A_row_held x i : i < M -> constrained mg0 gids i -> mv M A x i = (diag * x i)%R.
  Proof.
    intros Hi Hc. unfold mv. rewrite (@Rsum_single M _ i Hi).
    - rewrite A_held by auto. now rewrite Nat.eqb_refl.
    - intros j Hj Hne. rewrite A_held by auto. apply not_eq_sym, Nat.eqb_neq in Hne. rewrite Hne. ring.
  Qed.

  Lemma A_sym : symmetric M A.
  Proof.
    intros i j Hi Hj.
    destruct (@constrained_dec _ ph cfg N mg0 ref pat E i) as [C1|C1]; [rewrite !A_held by auto; now rewrite Nat.eqb_sym; destruct (Nat.eqb_spec j i)|].
    destruct (@constrained_dec _ ph cfg N mg0 ref pat E j) as [C2|C2]; [rewrite !A_held by auto; now rewrite Nat.eqb_sym; destruct (Nat.eqb_spec j i)|].
    rewrite !A_free by auto. now apply (so_sym Hst).
  Qed.

  Lemma M_pos : 0 < M.
  Proof. pose proof (e_dim E). pose proof (e_pos E). unfold M, dim. nia. Qed.

  Lemma diag_hi : (diag <= hi)%R.
  Proof.
    assert (HM : (0 < INR M)%R) by (apply lt_0_INR, M_pos).
    assert (Hs : (Rsum M (fun i => Rabs (contributed l i i)) <= INR M * hi)%R).
    { replace (INR M * hi)%R with (Rsum M (fun _ => hi)).
      - apply Rsum_le. intros i Hi. rewrite (lp_tangent Hlin d Hl). now apply (so_hi Hst).
      - clear. generalize M. intros k. induction k as [|k IH]; [simpl; ring|]. simpl Rsum. rewrite IH, S_INR. ring. }
    fold M in Hdiag. rewrite <- Hdiag in Hs. apply Rmult_le_reg_r with (INR M); auto. lra.
  Qed.
  Lemma diag_pos_free i : i < M -> ~ constrained mg0 gids i -> (0 < diag)%R.
  Proof.
    intros Hi Hc. assert (HM : (0 < INR M)%R) by (apply lt_0_INR, M_pos).
    assert (Hs : (0 < Rsum M (fun i => Rabs (contributed l i i)))%R).
    { apply Rlt_le_trans with (Rsum M (fun j => if j =? i then Rabs (contributed l i i) else 0%R)).
      - rewrite (@Rsum_single M _ i Hi); [|intros k _ Hk; apply Nat.eqb_neq in Hk; now rewrite Hk].
        rewrite Nat.eqb_refl, (lp_tangent Hlin d Hl).
        assert (Hd : (lo <= K i i)%R) by (apply (so_diag Hst); auto; now rewrite held_unknown_constrained).
        pose proof (so_lo Hst). apply Rabs_pos_lt. lra.
      - apply Rsum_le. intros k Hk. destruct (Nat.eqb_spec k i) as [->|]; [lra|apply Rabs_pos]. }
    fold M in Hdiag. rewrite <- Hdiag in Hs. apply Rmult_lt_reg_r with (INR M); auto. lra.
  Qed.

  Lemma A_pd i0 : i0 < M -> ~ constrained mg0 gids i0 -> positive_definite M A.
  Proof.
    intros Hi0 Hc0 x (i & Hi & Hx). pose proof (diag_pos_free Hi0 Hc0) as Hdp.
    pose (h := fun i => if existsb (Nat.eqb i) (all_dofs mg0 gids) then (diag * (x i * x i))%R else 0%R).
    assert (Hg : forall id n, In n (node_set mg0 id) -> n < length gids).
    { intros id n. apply (@node_sets_lt _ ph cfg N mg0 ref pat E mg0 id n). apply same_refl. }
    assert (Hh : forall i, (0 <= h i)%R).
    { intros k. unfold h. destruct (existsb _ _); [|lra]. pose proof (Rle_0_sqr (x k)) as Hq. unfold Rsqr in Hq. nra. }
    assert (Hsum : dot M x (mv M A x) = (dot M (freed x) (mv M K (freed x)) + Rsum M h)%R).
    { unfold dot. rewrite <- Rsum_plus. apply Rsum_ext. intros k Hk.
      destruct (@constrained_dec _ ph cfg N mg0 ref pat E k) as [Hkc|Hkc].
      - rewrite A_row_held, freed_held by auto. unfold h. replace (existsb (Nat.eqb k) (all_dofs mg0 gids)) with true; [ring|].
        symmetry. apply existsb_eqb_In. now apply all_dofs_constrained.
      - rewrite A_row_free, freed_free by auto. unfold h. replace (existsb (Nat.eqb k) (all_dofs mg0 gids)) with false; [ring|].
        symmetry. match goal with |- ?y = false => destruct y eqn:Ex end; auto. exfalso. apply Hkc.
        apply existsb_eqb_In in Ex. now apply all_dofs_constrained in Ex. }
    rewrite Hsum.
    assert (Hfree : forall k, k < M -> freed x k <> 0%R -> (0 < dot M (freed x) (mv M K (freed x)))%R).
    { intros k Hk Hne. apply (so_pd Hst); [|exists k; auto]. intros j Hj. apply freed_held. now apply held_unknown_constrained. }
    assert (Hhsum : (0 <= Rsum M h)%R) by (apply Rsum_nonneg; auto).
    destruct (@constrained_dec _ ph cfg N mg0 ref pat E i) as [Hic|Hic].
    - assert (Hhi : (0 < Rsum M h)%R).
      { apply Rlt_le_trans with (Rsum M (fun j => if j =? i then h i else 0%R)).
        - rewrite (@Rsum_single M _ i Hi); [|intros k _ Hk; apply Nat.eqb_neq in Hk; now rewrite Hk].
          rewrite Nat.eqb_refl. unfold h. replace (existsb (Nat.eqb i) (all_dofs mg0 gids)) with true.
          + apply Rmult_lt_0_compat; auto. assert (Hq := Rlt_0_sqr (x i) Hx). exact Hq.
          + symmetry. apply existsb_eqb_In. now apply all_dofs_constrained.
        - apply Rsum_le. intros k Hk. destruct (Nat.eqb_spec k i) as [->|]; [lra|apply Hh]. }
      destruct (Req_EM_T (dot M (freed x) (mv M K (freed x))) 0) as [->|Hnz]; [lra|].
      unfold dot in Hnz. apply Rsum_nonzero in Hnz as (k & Hk & Hne).
      assert (freed x k <> 0%R) by (intros H0; apply Hne; rewrite H0; ring).
      pose proof (Hfree k Hk H). lra.
    - assert (freed x i <> 0%R) by (rewrite freed_free; auto). pose proof (Hfree i Hi H). lra.
  Qed.

  Lemma A_diag_range i i0 : i0 < M -> ~ constrained mg0 gids i0 -> i < M -> (0 < A i i <= hi)%R /\ (~ constrained mg0 gids i -> lo <= A i i)%R.
  Proof.
    intros Hi0 Hc0 Hi. destruct (@constrained_dec _ ph cfg N mg0 ref pat E i) as [Hic|Hic].
    - rewrite A_held, Nat.eqb_refl by auto. split; [|contradiction]. split; [now apply (diag_pos_free Hi0)|apply diag_hi].
    - rewrite A_free by auto. assert (Hd : (lo <= K i i)%R) by (apply (so_diag Hst); auto; now rewrite held_unknown_constrained).
      pose proof (so_lo Hst). pose proof (so_hi Hst Hi). pose proof (Rle_abs (K i i)). split; [lra|auto].
  Qed.
  End Matrix.

  Lemma largest_le n f B : (0 <= B)%R -> (forall i, i < n -> (f i <= B)%R) -> (largest n f <= B)%R.
  Proof.
    intros HB. induction n as [|n IH]; intros H; simpl; auto. apply Rmax_lub; [apply IH; intros; apply H; lia|apply H; lia].
  Qed.
  Lemma largest_zero n f : (forall i, i < n -> f i = 0%R) -> largest n f = 0%R.
  Proof. induction n as [|n IH]; intros H; simpl; auto. rewrite IH by (intros; apply H; lia). rewrite H by lia. apply Rmax_left. lra. Qed.
  Lemma N_le_M : N <= M.
  Proof. pose proof (e_dim E). unfold M, dim. nia. Qed.
  Lemma measured_norm r : length r = M -> (measured N r <= 21 * norm2 r)%R.
  Proof.
    intros Hr. unfold measured, norm2. rewrite Hr. pose proof N_le_M as HNM.
    assert (Hsq : forall k, k < M -> (nth k r 0 * nth k r 0 <= Rsum M (fun i => nth i r 0 * nth i r 0))%R).
    { intros k Hk. apply Rle_trans with (Rsum M (fun j => if j =? k then nth k r 0 * nth k r 0 else 0)%R).
      - rewrite (@Rsum_single M _ k Hk); [rewrite Nat.eqb_refl; lra|]. intros j _ Hj. apply Nat.eqb_neq in Hj. now rewrite Hj.
      - apply Rsum_le. intros j Hj. destruct (Nat.eqb_spec j k) as [->|]; [lra|exact (Rle_0_sqr _)]. }
    assert (H1 : (sqrt (Rsum N (fun i => nth i r 0 * nth i r 0)) <= sqrt (Rsum M (fun i => nth i r 0 * nth i r 0)))%R).
    { apply sqrt_le_1_alt. replace M with (N + (M - N)) by lia. rewrite Rsum_split.
      assert (0 <= Rsum (M - N) (fun k => nth (N + k) r 0 * nth (N + k) r 0))%R by (apply Rsum_nonneg; intros; exact (Rle_0_sqr _)). lra. }
    assert (H2 : (largest N (fun i => Rabs (nth i r 0)) <= sqrt (Rsum M (fun i => nth i r 0 * nth i r 0)))%R).
    { apply largest_le; [apply sqrt_pos|]. intros i Hi. rewrite <- sqrt_Rsqr_abs. apply sqrt_le_1_alt. unfold Rsqr. apply Hsq. lia. }
    lra.
  Qed.

  Section Step.
  Variables (tprev t : R) (e0 : S) (start : view).
  Notation settled' := (@settled S ph cfg N mg0 ref pat tprev t e0 start).

  Lemma linear_pass st m : settled' st m -> (0 < m)%R -> M < cg_default_max ->
    exists st' m', newton_step ph cfg tprev t st = Ok (Done (st', m')) /\ settled' st' m' /\ framed st st' /\
      (m' <= attainable lo hi (q_residual st))%R.
  Proof.
    intros Hs Hm HM1000.
    destruct (@newton_step_full _ ph cfg N mg0 ref pat E tprev t e0 start st m Hs) as (r & E1 & H).
    destruct H as (l & diag & D & sol & El & Hsm & Hnone & Hdiag & Hspd & H).
    set (A := dense_of pat D) in *. pose proof (se_oob Hs) as [Hrl Hr]. change (N * mg_dim mg0) with M in Hrl.
    set (b := fun i => nth i (q_residual st) 0%R) in *.
    assert (Hbheld : forall i, constrained mg0 gids i -> b i = 0%R).
    { intros i Hc. apply held_unknown_constrained in Hc as (n & c & Hn & Hc & Hh & ->). apply (Hr n c (nth n gids 0)); auto.
      now apply nth_error_nth'. }
    (* an unknown that is out of balance *)
    assert (Hex : exists i0, i0 < M /\ b i0 <> 0%R).
    { destruct (Req_EM_T (Rsum M (fun i => b i * b i)%R) 0%R) as [Hz|Hz].
      - exfalso. assert (Hall : forall k, k < M -> b k = 0%R).
        { intros k Hk. assert (Hle : (b k * b k <= 0)%R).
          { rewrite <- Hz. apply Rle_trans with (Rsum M (fun j => if j =? k then b k * b k else 0)%R).
            - rewrite (@Rsum_single M _ k Hk); [rewrite Nat.eqb_refl; lra|]. intros j _ Hj. apply Nat.eqb_neq in Hj. now rewrite Hj.
            - apply Rsum_le. intros j Hj. destruct (Nat.eqb_spec j k) as [->|]; [lra|exact (Rle_0_sqr _)]. }
          pose proof (Rle_0_sqr (b k)) as Hq. unfold Rsqr in Hq. assert (Hb0 : (b k * b k = 0)%R) by lra.
          apply Rmult_integral in Hb0. tauto. }
        pose proof N_le_M as HNM. rewrite (se_meas Hs) in Hm. unfold measured in Hm.
        rewrite (@Rsum_zero N) in Hm by (intros k Hk; fold (b k); rewrite Hall by lia; ring).
        rewrite largest_zero in Hm by (intros k Hk; fold (b k); rewrite Hall by lia; apply Rabs_R0). rewrite sqrt_0 in Hm. lra.
      - apply Rsum_nonzero in Hz as (i & Hi & Hz). exists i. split; auto. intros H0. apply Hz. rewrite H0. ring. }
    destruct Hex as (i0 & Hi0 & Hb0). assert (Hc0 : ~ constrained mg0 gids i0) by (intros Hc; apply Hb0; auto).
    pose proof (@A_pd l diag D _ El Hsm Hnone Hdiag i0 Hi0 Hc0) as Hpd. pose proof (@A_sym l diag D _ El Hsm Hnone) as Hsym. fold A in Hpd, Hsym.
    destruct (Hspd Hsym Hpd HM1000) as [s ->].
    destruct H as (Hls & Hz & Hres & tr & ft & rt & x & y & Htr & Htint & [Hrtl Hrt] & Hend).
    change (N * mg_dim mg0) with M in Hrtl. fold dim M in Hls, Hres.
    set (sv := fun i => nth i s 0%R) in *.
    assert (Hfreed : forall i, freed sv i = sv i).
    { intros i. destruct (@constrained_dec _ ph cfg N mg0 ref pat E i) as [Hc|Hc].
      - rewrite freed_held by auto. symmetry. now apply Hz.
      - rewrite freed_free; auto. }
    (* the imbalance of the trial *)
    assert (Hrti : forall i, i < M -> nth i rt 0%R = (b i - mv M A sv i)%R).
    { intros i Hi. destruct (@row_gid _ ph cfg N mg0 ref pat E i Hi) as (n & g & c & Hn & Hc & ->).
      assert (HnN : n < N) by (rewrite <- (e_len E); eapply nth_error_Some_lt; eauto).
      change (mg_dim mg0) with dim. change (mg_dim mg0) with dim in Hc, Hi.
      destruct (Hr n c g Hn Hc) as [B1 B2]. destruct (Hrt n c g Hn Hc) as [T1 T2]. change (mg_dim mg0) with dim in B1, B2, T1, T2.
      pose proof (@held_constrained _ ph cfg N mg0 ref pat E n g c Hn Hc) as Hh. change (mg_dim mg0) with dim in Hh.
      destruct (@held_dec _ ph cfg N mg0 ref pat E n c HnN Hc) as [Hhe|Hhe].
      - rewrite T1 by auto. unfold b. rewrite B1 by auto.
        rewrite (@A_row_held l diag D Hsm Hnone) by (auto; now apply Hh). unfold sv. rewrite Hz by (now apply Hh). ring.
      - rewrite T2 by auto. unfold b. rewrite B2 by auto.
        rewrite (@A_row_free l diag D _ El Hsm Hnone) by (auto; intros Hq; apply Hhe; now apply Hh).
        rewrite (@mv_ext M K (freed sv) sv (g * dim + c)) by (intros; apply Hfreed).
        destruct (se_force Hs) as (x1 & y1 & Hint). destruct Htr as [Htrs Htr].
        rewrite (@lp_force _ _ _ _ _ _ _ Hlin _ _ _ _ _ _ _ Hint (qi_disp (qi_inv0 (se_inv Hs))) n c HnN Hc).
        rewrite (@lp_force _ _ _ _ _ _ _ Hlin _ _ _ _ _ _ _ Htint Htrs n c HnN Hc). unfold mv. rewrite all_unknowns.
        assert (Eun : unknown dim gids n c = g * dim + c) by (unfold unknown; now rewrite (@nth_error_nth_eq _ gids n 0 g Hn)).
        rewrite Eun.
        set (f00 := f0 e0 tprev t n c).
        match goal with |- (- (f00 - ?X) = - (f00 - ?Y) - ?Z)%R => enough (HX : X = (Y - Z)%R) by (rewrite HX; ring) end.
        rewrite <- Rsum_minus. apply Rsum_ext. intros n' Hn'. rewrite <- Rsum_minus. apply Rsum_ext. intros c' Hc'.
        rewrite (Htr n' (nth n' gids 0) c' (gids_nth Hn') Hc'). unfold sv. change (nth n' gids 0 * mg_dim mg0 + c') with (unknown dim gids n' c'). ring. }
    assert (Hdr : forall i, i < M -> (0 < A i i <= hi)%R /\ (~ constrained mg0 gids i -> lo <= A i i)%R).
    { intros i Hi. now apply (@A_diag_range l diag D _ El Hsm Hnone Hdiag i i0 Hi0 Hc0). }
    assert (Hb2 : forall i, i < M -> (b i * b i / A i i <= b i * b i / lo)%R).
    { intros i Hi. destruct (@constrained_dec _ ph cfg N mg0 ref pat E i) as [Hc|Hc].
      - rewrite Hbheld by auto. unfold Rdiv. lra.
      - destruct (Hdr i Hi) as [_ H2]. specialize (H2 Hc). unfold Rdiv. apply Rmult_le_compat_l; [exact (Rle_0_sqr _)|].
        apply Rinv_le_contravar; auto. apply (so_lo Hst). }
    assert (HW0 : weighted_residual M A b (fun _ => 0%R) = Rsum M (fun i => b i * b i / A i i)%R).
    { unfold weighted_residual. apply Rsum_ext. intros i Hi. unfold mv.
      rewrite (@Rsum_zero M) by (intros; ring). f_equal. ring. }
    assert (HWs : weighted_residual M A b sv = Rsum M (fun i => nth i rt 0 * nth i rt 0 / A i i)%R).
    { unfold weighted_residual. apply Rsum_ext. intros i Hi. now rewrite Hrti. }
    rewrite HW0, HWs in Hres.
    assert (HWpos : (0 < Rsum M (fun i => b i * b i / A i i))%R).
    { apply Rlt_le_trans with (Rsum M (fun j => if j =? i0 then b i0 * b i0 / A i0 i0 else 0)%R).
      - rewrite (@Rsum_single M _ i0 Hi0); [|intros k _ Hk; apply Nat.eqb_neq in Hk; now rewrite Hk].
        rewrite Nat.eqb_refl. destruct (Hdr i0 Hi0) as [[H1 _] _]. apply Rdiv_lt_0_compat; auto. exact (Rlt_0_sqr _ Hb0).
      - apply Rsum_le. intros k Hk. destruct (Nat.eqb_spec k i0) as [->|]; [lra|].
        destruct (Hdr k Hk) as [[H1 _] _]. unfold Rdiv. apply Rmult_le_pos; [exact (Rle_0_sqr _)|]. left. now apply Rinv_0_lt_compat. }
    assert (Htol : cg_default_tol = (/ 10 ^ 16)%R) by (unfold cg_default_tol, Rdiv; ring).
    (* the secant step is defined *)
    assert (Hnum : (list_inner s rt - list_inner s (q_residual st))%R = (- dot M sv (mv M A sv))%R).
    { unfold list_inner. rewrite Hls. rewrite !inner_dot. unfold dot. rewrite <- Rsum_minus.
      replace (- Rsum M (fun i => sv i * mv M A sv i))%R with (-1 * Rsum M (fun i => sv i * mv M A sv i))%R by ring.
      rewrite <- Rsum_scal. apply Rsum_ext. intros i Hi. fold (sv i) (b i). rewrite Hrti by auto. ring. }
    assert (Hnz : (list_inner s rt - list_inner s (q_residual st))%R <> 0%R).
    { rewrite Hnum. intros H0.
      destruct (Req_EM_T (Rsum M (fun i => sv i * sv i)%R) 0%R) as [Hz0|Hz0].
      - assert (Hall : forall k, k < M -> sv k = 0%R).
        { intros k Hk. assert (Hle : (sv k * sv k <= 0)%R).
          { rewrite <- Hz0. apply Rle_trans with (Rsum M (fun j => if j =? k then sv k * sv k else 0)%R).
            - rewrite (@Rsum_single M _ k Hk); [rewrite Nat.eqb_refl; lra|]. intros j _ Hj. apply Nat.eqb_neq in Hj. now rewrite Hj.
            - apply Rsum_le. intros j Hj. destruct (Nat.eqb_spec j k) as [->|]; [lra|exact (Rle_0_sqr _)]. }
          pose proof (Rle_0_sqr (sv k)) as Hq. unfold Rsqr in Hq. assert (Hb1 : (sv k * sv k = 0)%R) by lra.
          apply Rmult_integral in Hb1. tauto. }
        assert (Heq : Rsum M (fun i => nth i rt 0 * nth i rt 0 / A i i)%R = Rsum M (fun i => b i * b i / A i i)%R).
        { apply Rsum_ext. intros i Hi. rewrite Hrti by auto. replace (mv M A sv i) with 0%R; [f_equal; ring|].
          symmetry. unfold mv. apply Rsum_zero. intros j Hj. rewrite Hall by auto. ring. }
        rewrite Heq, Htol in Hres. set (w := Rsum M (fun i => b i * b i / A i i)%R) in *.
        assert (/ 10 ^ 16 < 1)%R by lra. nra.
      - apply Rsum_nonzero in Hz0 as (i & Hi & Hi').
        assert (0 < dot M sv (mv M A sv))%R; [|lra]. apply Hpd. exists i. split; auto. intros H1. apply Hi'. rewrite H1. ring. }
    cbv zeta in Hend. destruct Hend as [[H0 _]|(_ & st' & m' & -> & Hset & Hfr & Hle)]; [contradiction|].
    exists st', m'. split; [exact E1|]. split; auto. split; auto.
    eapply Rle_trans; [exact Hle|]. eapply Rle_trans; [apply (@measured_norm rt Hrtl)|].
    unfold attainable, norm2. rewrite Hrl, Hrtl. fold M.
    assert (Hrt2 : (Rsum M (fun i => nth i rt 0 * nth i rt 0) <= hi / lo * / 10 ^ 16 * Rsum M (fun i => b i * b i))%R).
    { pose proof (so_lo Hst) as Hlo.
      assert (Hhi0 : (0 < hi)%R) by (destruct (Hdr i0 Hi0) as [[H1 H2] _]; lra).
      apply Rle_trans with (hi * Rsum M (fun i => nth i rt 0 * nth i rt 0 / A i i))%R.
      - rewrite <- Rsum_scal. apply Rsum_le. intros i Hi. destruct (Hdr i Hi) as [[H1 H2] _].
        pose proof (Rle_0_sqr (nth i rt 0%R)) as Hq. unfold Rsqr in Hq. set (q := (nth i rt 0 * nth i rt 0)%R) in *.
        replace q with (A i i * (q / A i i))%R at 1 by (field; lra). apply Rmult_le_compat_r; auto.
        unfold Rdiv. apply Rmult_le_pos; auto. left. now apply Rinv_0_lt_compat.
      - apply Rle_trans with (hi * (/ 10 ^ 16 * (/ lo * Rsum M (fun i => b i * b i))))%R.
        + apply Rmult_le_compat_l; [lra|]. eapply Rle_trans; [exact Hres|]. rewrite Htol. apply Rmult_le_compat_l; [lra|].
          rewrite <- Rsum_scal. apply Rsum_le. intros i Hi. eapply Rle_trans; [now apply Hb2|]. unfold Rdiv. lra.
        + right. field. lra. }
    assert (Hhl : (0 <= hi / lo)%R).
    { destruct (Hdr i0 Hi0) as [[H1 H2] _]. pose proof (so_lo Hst) as Hlo. unfold Rdiv. apply Rmult_le_pos; [lra|].
      left. now apply Rinv_0_lt_compat. }
    assert (Hbb : (0 <= Rsum M (fun i => b i * b i))%R) by (apply Rsum_nonneg; intros; exact (Rle_0_sqr _)).
    apply sqrt_le_1_alt in Hrt2. rewrite sqrt_mult in Hrt2; [|apply Rmult_le_pos; [auto|lra]|auto].
    rewrite sqrt_mult in Hrt2 by (auto; lra).
    replace (sqrt (/ 10 ^ 16)) with (/ 10 ^ 8)%R in Hrt2.
    2:{ symmetry. replace (/ 10 ^ 16)%R with (Rsqr (/ 10 ^ 8)) by (unfold Rsqr; field). apply sqrt_Rsqr. lra. }
    change (Rsum M (fun i => nth i (q_residual st) 0 * nth i (q_residual st) 0)%R) with (Rsum M (fun i => b i * b i)%R).
    set (u := sqrt (Rsum M (fun i => b i * b i)%R)) in *. set (k := sqrt (hi / lo)) in *. lra.
  Qed.
  End Step.
End Env.
