(** C68, C69: quasistatic runs. *)
From Coq Require Import Reals Lra.
From Verif Require Import Base ListLemmas Loops LinModel LinSpec CrsProofs CgProofs CgSpd PatternProofs BcModel BcSpec BcProofs IntegratorModel IntegratorSpec QuasiModel QuasiSpec QuasiProofs QuasiProofs2 QuasiProofs3 QuasiProofs4 QuasiProofs5 QuasiProofs6.
Local Open Scope nat_scope.
Set Implicit Arguments.

(** C68: a quasistatic run never makes an invalid access; if it reports success, then every load
    step has been solved: d k, e k are displacement and element data after k steps, f k the nodal
    force, and the output consists of the initial record and one record for every load step whose
    output is wanted.  (The velocities v k in the records are not described.) *)
Theorem C68_load_steps_solved :
  forall (S : Type) (N : nat) (ph : qphysics S) (cfg : qconfig) (st : qstate S),
    q_ok N cfg st -> physics_ok N (mg_dim (q_mgr st)) cfg ph -> (0 <= qc_max_iter cfg)%Z ->
    exists r, q_integrate ph cfg st = Ok r /\
      forall fin, r = Done fin ->
        exists (d : nat -> view) (e : nat -> S) (f v : nat -> view),
          (forall n c, v_at (d 0) n c = v_at (k_disp (q_kin st)) n c) /\ e 0 = q_old st /\
          d (q_steps cfg) = k_disp (q_kin fin) /\ e (q_steps cfg) = q_old fin /\
          (forall k, k < q_steps cfg ->
             solved_step ph (q_mgr st) (q_ref st) (qc_gids cfg) N (qc_rel_tol cfg) (q_time_after cfg k) (q_time_after cfg (k + 1))
               (d k) (e k) (d (k + 1)) (v_at (f (k + 1))) (e (k + 1))) /\
          q_out fin =
            QWritten (qc_initial cfg) (d 0) (v 0) (q_int st) (q_new st) ::
            map (fun k => QWritten (q_time_after cfg (k + 1)) (d (k + 1)) (v (k + 1)) (f (k + 1)) (e (k + 1)))
              (filter (q_wanted cfg) (seq 0 (q_steps cfg))).
Proof.
  intros S N ph cfg st Q P Hmax. destruct (start_ok Q P) as (pat & s & E0 & HE & Hi & Ht & Ho & Hd & Hsh & Hout).
  unfold q_integrate. rewrite E0. cbn [obind].
  destruct (@load_steps_ok S ph cfg N _ _ pat HE (qo_scheme Q) Hmax (q_steps cfg) 0 s Hi) as (r & E1 & H1).
  { rewrite Ht. unfold q_time_after. simpl (INR 0). ring. }
  exists r. split; [exact E1|]. intros fin Hfin. destruct (H1 fin Hfin) as (d & e & f & v & D0 & E0' & D1 & E1' & Hk & Hq).
  simpl (0 + _) in *.
  exists d, e, f, (fun k => if k =? 0 then k_vel (q_kin s) else v k).
  split; [intros n c; rewrite D0; apply Hd|]. split; [now rewrite E0'|]. split; auto. split; auto. split.
  { intros k Hkk. apply Hk. lia. }
  rewrite Hq, Hout, D0. cbn [app Nat.eqb]. f_equal.
  rewrite (filter_ext_in (q_is_output cfg) (q_wanted cfg)).
  2:{ intros k Hin. apply in_seq in Hin. apply wanted_output. lia. }
  apply map_ext. intros k. replace (k + 1 =? 0) with false by (symmetry; apply Nat.eqb_neq; lia). reflexivity.
Qed.
Print Assumptions C68_load_steps_solved.

(** C69: on a linear problem whose stiffness is positive definite on the unknowns that are not
    held, a run with fewer than 1000 unknowns and at least two permitted iterations never divides
    by zero; and if it fails, then in some load step (all the steps before it having been solved)
    the tolerance is tighter than what one pass of the solver is certain to reach. *)
Theorem C69_linear_problems :
  forall (S : Type) (N : nat) (ph : qphysics S) (cfg : qconfig) (st : qstate S) f0 K lo hi,
    q_ok N cfg st -> physics_ok N (mg_dim (q_mgr st)) cfg ph ->
    linear_physics N (mg_dim (q_mgr st)) (qc_gids cfg) ph f0 K ->
    stiffness_ok N (q_mgr st) (qc_gids cfg) K lo hi ->
    N * mg_dim (q_mgr st) < 1000 -> (2 <= qc_max_iter cfg)%Z -> (0 <= qc_rel_tol cfg)%R ->
    (exists fin, q_integrate ph cfg st = Ok (Done fin)) \/
    q_integrate ph cfg st = Ok Failed /\
    exists m (d : nat -> view) (e : nat -> S) (f : nat -> nat -> nat -> R),
      m < q_steps cfg /\
      (forall n c, v_at (d 0) n c = v_at (k_disp (q_kin st)) n c) /\ e 0 = q_old st /\
      (forall k, k < m ->
         solved_step ph (q_mgr st) (q_ref st) (qc_gids cfg) N (qc_rel_tol cfg) (q_time_after cfg k) (q_time_after cfg (k + 1))
           (d k) (e k) (d (k + 1)) (f (k + 1)) (e (k + 1))) /\
      too_tight ph (q_mgr st) (q_ref st) (qc_gids cfg) N lo hi (qc_rel_tol cfg) (q_time_after cfg m) (q_time_after cfg (m + 1)) (d m) (e m).
Proof.
  intros S N ph cfg st f0 K lo hi Q P Hlin Hst Hsize Hmax Htol. destruct (start_ok Q P) as (pat & s & E0 & HE & Hi & Ht & Ho & Hd & Hsh & Hout).
  unfold q_integrate. rewrite E0. cbn [obind].
  destruct (@linear_load_steps S ph cfg N _ _ pat HE (qo_scheme Q) Hmax f0 K lo hi Hlin Hst Hsize Htol (q_steps cfg) 0 s Hi) as (r & E1 & H1).
  { rewrite Ht. unfold q_time_after. simpl (INR 0). ring. }
  unfold q_steps in *. destruct H1 as [[fin ->]|[-> (m & d & e & f & Hm & D0 & E0' & Hk & Hl)]]; [left; eauto|right; split; auto].
  exists m, d, e, f. simpl (0 + _) in *. split; auto. split; [intros n c; rewrite D0; apply Hd|]. split; [now rewrite E0'|]. split; auto.
  intros k Hkk. apply Hk. lia.
Qed.
Print Assumptions C69_linear_problems.

(** *** a concrete problem: two nodes (ids 1 and 0) in the plane, joined by one element; the
    x-component of node 0 is moved to 1; unit loads on all components; stiffness 2 on the
    diagonal and -1 between equal components. *)
Definition ex_mgr : manager :=
  Mgr [(1%Z, [0])] [BC PRESCRIBED_DISPLACEMENT 1 (-1) 0 (Magnitude 1)] 2 QUASISTATIC.
Definition ex_tangent : list (nat * nat * R) :=
  [(0, 0, 2%R); (1, 1, 2%R); (2, 2, 2%R); (3, 3, 2%R); (0, 2, (-1)%R); (2, 0, (-1)%R); (1, 3, (-1)%R); (3, 1, (-1)%R)].
Definition ex_K (i j : nat) : R := contributed ex_tangent i j.
Definition ex_gids := [1; 0].
Definition ex_phys : qphysics nat := QPhysics
  (fun old _ _ _ d => Ok (1 + old, fun n c => (1 - Rsum 2 (fun n' => Rsum 2 (fun c' =>
     ex_K (unknown 2 ex_gids n c) (unknown 2 ex_gids n' c') * v_at d n' c')))%R))
  (fun _ => Ok ex_tangent).
Definition ex_cfg (limit : Z) : qconfig := QConfig 1 0 false 0 1 1 1 (1 / 10) limit ex_gids [[0; 1]].
Definition ex_zero : view := View 2 2 (fun _ _ => 0%R).
Definition ex_st : qstate nat :=
  QState ex_mgr ex_zero (Kin ex_zero ex_zero []) ex_zero ex_zero ex_zero [] [] crs_new 0 0 0%R [].

Lemma ex_sets id : node_set ex_mgr id = [0] \/ node_set ex_mgr id = [].
Proof. unfold node_set. simpl. destruct (Z.eqb id 1); auto. Qed.
Example C68_ex_q_ok : forall limit, q_ok 2 (ex_cfg limit) ex_st.
Proof.
  intros limit. constructor; simpl; auto; try lia; try lra; try (split; reflexivity).
  - constructor; simpl; auto.
    + intros b [<-|[]]; simpl; lia.
    + intros id n. destruct (ex_sets id) as [->| ->]; simpl; intuition lia.
    + intros id. destruct (ex_sets id) as [->| ->]; repeat constructor; auto.
  - constructor; [simpl; intuition lia|]. constructor; [simpl; tauto|constructor].
  - unfold ex_gids. repeat (constructor; try lia).
  - intros n Hn. exists [0; 1]. split; [now left|]. simpl. lia.
Qed.
Example C68_ex_physics_ok : forall limit, physics_ok 2 2 (ex_cfg limit) ex_phys.
Proof.
  intros limit. constructor.
  - intros. eexists. reflexivity.
  - intros d _. exists ex_tangent. split; auto.
    assert (Hc : forall i j, i < 4 -> j < 4 -> coupled 2 (qc_gids (ex_cfg limit)) (qc_elems (ex_cfg limit)) i j).
    { assert (Ho : forall i, i < 4 -> exists n, In n [0; 1] /\ owns 2 ex_gids n i).
      { intros i Hi. assert (H : i = 0 \/ i = 1 \/ i = 2 \/ i = 3) by lia. destruct H as [->|[->|[->| ->]]].
        - exists 1. split; [simpl; auto|]. exists 0, 0. repeat split; auto.
        - exists 1. split; [simpl; auto|]. exists 0, 1. repeat split; auto.
        - exists 0. split; [simpl; auto|]. exists 1, 0. repeat split; auto.
        - exists 0. split; [simpl; auto|]. exists 1, 1. repeat split; auto. }
      intros i j Hi Hj. destruct (Ho i Hi) as (n & H1 & H2), (Ho j Hj) as (n' & H3 & H4).
      exists [0; 1], n, n'. simpl. split; [now left|]. auto. }
    unfold ex_tangent. repeat constructor; apply Hc; simpl; lia.
Qed.
Lemma ex_held n c : n < 2 -> c < 2 -> (held ex_mgr n c <-> n = 0 /\ c = 0).
Proof.
  intros Hn Hc. unfold held. split.
  - intros (b & [<-|[]] & _ & H). destruct n as [|[|n]]; try lia; destruct c as [|[|c]]; try lia; auto; discriminate H.
  - intros [-> ->]. eexists. split; [left; reflexivity|]. split; [now left|]. reflexivity.
Qed.
Example C69_ex_linear : linear_physics 2 2 ex_gids ex_phys (fun _ _ _ _ _ => 1%R) ex_K.
Proof.
  constructor.
  - intros old new tprev t d y f H _ n c _ _. injection H as _ <-. reflexivity.
  - intros d l H i j. injection H as <-. reflexivity.
Qed.
Ltac four i := let H := fresh in assert (H : i = 0 \/ i = 1 \/ i = 2 \/ i = 3) by (simpl in *; lia); destruct H as [->|[->|[->| ->]]].
Example C69_ex_stiffness : stiffness_ok 2 ex_mgr ex_gids ex_K 2 2.
Proof.
  constructor; simpl mg_dim; simpl (2 * 2).
  - intros i j Hi Hj. four i; four j; unfold ex_K, ex_tangent, contributed; simpl; lra.
  - intros x _ (i & Hi & Hx). unfold dot, mv, ex_K, ex_tangent, contributed. simpl.
    replace (0 < _)%R with (0 < Rsqr (x 0%nat) + Rsqr (x 1%nat) + Rsqr (x 2%nat) + Rsqr (x 3%nat)
       + Rsqr (x 0%nat - x 2%nat) + Rsqr (x 1%nat - x 3%nat))%R by (f_equal; unfold Rsqr; ring).
    pose proof (Rle_0_sqr (x 0)) as H0. pose proof (Rle_0_sqr (x 1)) as H1. pose proof (Rle_0_sqr (x 2)) as H2. pose proof (Rle_0_sqr (x 3)) as H3.
    pose proof (Rle_0_sqr (x 0%nat - x 2%nat)) as H4. pose proof (Rle_0_sqr (x 1%nat - x 3%nat)) as H5. apply Rlt_0_sqr in Hx.
    four i; lra.
  - lra.
  - intros i Hi _. four i; unfold ex_K, ex_tangent, contributed; simpl; lra.
  - intros i Hi. four i; unfold ex_K, ex_tangent, contributed; simpl; apply Rabs_le; lra.
Qed.

(** the imbalance at the beginning of the only load step of the example *)
Lemma ex_imbalance limit (d0 start : view) f0 r0 x y e0 :
  (forall n c, v_at d0 n c = 0%R) ->
  prescribed_motion ex_mgr ex_zero 2 (q_time_after (ex_cfg limit) 0) (q_time_after (ex_cfg limit) 1) d0 start ->
  qp_internal ex_phys e0 x (q_time_after (ex_cfg limit) 0) (q_time_after (ex_cfg limit) 1) start = Ok (y, f0) ->
  out_of_balance ex_mgr ex_gids 2 f0 r0 -> r0 = [-2; -1; 0; -1]%R.
Proof.
  intros Hd Hp Hf [Hlen Hr]. simpl in Hlen.
  assert (H00 : v_at start 0 0 = 1%R).
  { destruct (Hp 0 0) as (_ & H & _); simpl; auto. apply (H (BC PRESCRIBED_DISPLACEMENT 1 (-1) 0 (Magnitude 1))); auto.
    - exists [], []. repeat split; auto. intros b' [].
    - unfold q_time_after, q_step_length. simpl. lra. }
  assert (Hfree : forall n c, n < 2 -> c < 2 -> ~ (n = 0 /\ c = 0) -> v_at start n c = 0%R).
  { intros n c Hn Hc Hne. destruct (Hp n c Hn Hc) as (H & _). rewrite H; auto. now rewrite ex_held. }
  injection Hf as _ <-.
  destruct (Hr 1 0 0 eq_refl) as [_ R0]; [simpl; lia|]. destruct (Hr 1 1 0 eq_refl) as [_ R1]; [simpl; lia|].
  destruct (Hr 0 0 1 eq_refl) as [R2 _]; [simpl; lia|]. destruct (Hr 0 1 1 eq_refl) as [_ R3]; [simpl; lia|].
  rewrite ex_held in R0, R1, R2, R3 by lia. specialize (R0 ltac:(lia)). specialize (R1 ltac:(lia)). specialize (R2 ltac:(lia)). specialize (R3 ltac:(lia)).
  pose proof (Hfree 0 1 ltac:(lia) ltac:(lia) ltac:(lia)) as H01. pose proof (Hfree 1 0 ltac:(lia) ltac:(lia) ltac:(lia)) as H10.
  pose proof (Hfree 1 1 ltac:(lia) ltac:(lia) ltac:(lia)) as H11.
  unfold ex_K, ex_tangent, contributed in *. simpl in R0, R1, R2, R3. rewrite H00, H01, H10, H11 in *.
  destruct r0 as [|a [|b [|c [|d [|]]]]]; try discriminate Hlen. simpl in R0, R1, R2, R3. subst. repeat f_equal; ring.
Qed.
Lemma ex_measured : measured 2 [-2; -1; 0; -1]%R = (sqrt 5 + 40)%R.
Proof.
  unfold measured. simpl. f_equal; [f_equal; ring|]. rewrite !Rabs_left by lra. unfold Rmax. repeat destruct (Rle_dec _ _); lra.
Qed.

Example C69_ex_succeeds : exists fin, q_integrate ex_phys (ex_cfg 2) ex_st = Ok (Done fin).
Proof.
  destruct (@C69_linear_problems nat 2 ex_phys (ex_cfg 2) ex_st _ ex_K 2 2 (C68_ex_q_ok 2) (C68_ex_physics_ok 2) C69_ex_linear C69_ex_stiffness)
    as [H|(_ & m & d & e & f & Hm & D0 & E0 & _ & Hl)]; simpl; try lia; try lra; auto.
  exfalso. assert (m = 0) by (unfold q_steps in Hm; simpl in Hm; lia). subst m.
  destruct Hl as (start & f0 & r0 & x & y & Hp & Hf & Hr & Hlt). simpl (0 + 1) in *.
  rewrite (@ex_imbalance 2 (d 0) start f0 r0 x y (e 0) D0 Hp Hf Hr) in Hlt.
  rewrite ex_measured in Hlt. unfold attainable, norm2 in Hlt. simpl in Hlt.
  replace (2 / 2)%R with 1%R in Hlt by lra. rewrite sqrt_1 in Hlt. pose proof (sqrt_pos 5).
  match type of Hlt with context [sqrt ?u] => match u with 5%R => fail 1 | _ => replace u with 6%R in Hlt by ring end end.
  assert (sqrt 6 <= 3)%R. { rewrite <- (sqrt_square 3) by lra. apply sqrt_le_1_alt. lra. }
  lra.
Qed.

(** Refuted: "a run fails only if a load step could not be converged within the permitted number
    of iterations".  With a limit of zero every run fails, whatever the state it starts from; and
    the example above fails with a limit of one, although one iteration converges. *)
Theorem C68_limit_zero_refuted :
  forall (S : Type) (N : nat) (ph : qphysics S) (cfg : qconfig) (st : qstate S),
    q_ok N cfg st -> physics_ok N (mg_dim (q_mgr st)) cfg ph -> qc_max_iter cfg = 0%Z -> 0 < q_steps cfg ->
    q_integrate ph cfg st = Ok Failed.
Proof.
  intros S N ph cfg st Q P Hmax Hs. destruct (start_ok Q P) as (pat & s & E0 & HE & Hi & _).
  unfold q_integrate. rewrite E0. cbn [obind]. unfold q_steps in Hs. destruct (Z.to_nat (qc_load_steps cfg)) as [|k]; [lia|]. cbn [seq load_steps].
  enough (H : load_step ph cfg 0 s = Ok Failed) by (rewrite H; reflexivity).
  unfold load_step. set (t := (q_time s + q_user_step cfg)%R).
  assert (Hi' : q_inv0 N (q_mgr st) (q_ref st) pat (q_set_time t s)) by (destruct Hi; constructor; auto).
  destruct (kinematic_ok HE (qo_scheme Q) t (q_time s) Hi') as (s1 & E1 & Hi1 & Hp & _ & Ho1 & _). rewrite E1. cbn [obind].
  destruct (@evaluate_current_ok _ ph cfg N _ _ pat HE (q_time s) t (q_old s) (k_disp (q_kin s1)) s1 Hi1 Ho1)
    as (s2 & m0 & E2 & _).
  { intros n c _ _ _. reflexivity. }
  rewrite E2. cbn [obind fst snd]. rewrite Hmax. reflexivity.
Qed.
Print Assumptions C68_limit_zero_refuted.

Theorem C69_last_iteration_refuted :
  q_integrate ex_phys (ex_cfg 1) ex_st = Ok Failed /\ (exists fin, q_integrate ex_phys (ex_cfg 2) ex_st = Ok (Done fin)).
Proof.
  split; [|exact C69_ex_succeeds].
  pose proof (C68_ex_q_ok 1) as Q. pose proof (C68_ex_physics_ok 1) as P.
  destruct (start_ok Q P) as (pat & s & E0 & HE & Hi & Ht & _ & Hd & _).
  unfold q_integrate. rewrite E0. cbn [obind]. change (Z.to_nat (qc_load_steps (ex_cfg 1))) with 1. cbn [seq load_steps].
  enough (H : load_step ex_phys (ex_cfg 1) 0 s = Ok Failed) by (rewrite H; reflexivity).
  unfold load_step. set (t := (q_time s + q_user_step (ex_cfg 1))%R).
  assert (Hi' : q_inv0 2 (q_mgr ex_st) (q_ref ex_st) pat (q_set_time t s)) by (destruct Hi; constructor; auto).
  destruct (kinematic_ok HE (qo_scheme Q) t (q_time s) Hi') as (s1 & E1 & Hi1 & Hp & _ & Ho1 & _). rewrite E1. cbn [obind].
  destruct (@evaluate_current_ok _ ex_phys (ex_cfg 1) 2 _ _ pat HE (q_time s) t (q_old s) (k_disp (q_kin s1)) s1 Hi1 Ho1)
    as (s2 & m0 & E2 & Hset & _ & _ & _ & _ & _ & _ & Hint).
  { intros n c _ _ _. reflexivity. }
  rewrite E2. cbn [obind fst snd].
  assert (Hm : m0 = (sqrt 5 + 40)%R).
  { rewrite (se_meas Hset), <- ex_measured. f_equal.
    assert (Ht0 : q_time s = q_time_after (ex_cfg 1) 0) by (rewrite Ht; unfold q_time_after; simpl; ring).
    assert (Ht1 : t = q_time_after (ex_cfg 1) 1) by (unfold t; rewrite Ht; unfold q_time_after, q_step_length, q_user_step; simpl; ring).
    rewrite Ht0, Ht1 in Hp, Hint.
    exact (@ex_imbalance 1 _ _ _ _ _ _ _ Hd Hp Hint (se_oob Hset)). }
  pose proof (sqrt_pos 5). change (Z.to_nat (qc_max_iter (ex_cfg 1))) with 1. cbn [newton_loop].
  destruct (Rlt_dec (qc_rel_tol (ex_cfg 1) * m0) m0) as [_|Hno]; [|exfalso; apply Hno; simpl; lra].
  destruct (@linear_pass nat ex_phys (ex_cfg 1) 2 _ _ pat HE _ ex_K 2%R 2%R C69_ex_linear C69_ex_stiffness _ _ _ _ s2 m0 Hset)
    as (s3 & m3 & E3 & _); [lra|simpl; unfold cg_default_max; lia|].
  rewrite E3. reflexivity.
Qed.
Print Assumptions C69_last_iteration_refuted.

(** Refuted: "success means that every load step has been solved", without the condition that
    the iteration limit is not negative (the input reader accepts any integer). *)
Theorem C68_negative_limit_refuted :
  exists N (ph : qphysics nat) cfg st fin, q_ok N cfg st /\ physics_ok N (mg_dim (q_mgr st)) cfg ph /\ q_steps cfg = 1 /\
    q_integrate ph cfg st = Ok (Done fin) /\
    forall f1 e1, ~ solved_step ph (q_mgr st) (q_ref st) (qc_gids cfg) N (qc_rel_tol cfg) (q_time_after cfg 0) (q_time_after cfg 1)
      (k_disp (q_kin st)) (q_old st) (k_disp (q_kin fin)) f1 e1.
Proof.
  pose proof (C68_ex_q_ok (-1)) as Q. pose proof (C68_ex_physics_ok (-1)) as P.
  destruct (start_ok Q P) as (pat & s & E0 & HE & Hi & Ht & _ & Hd & _).
  set (t := (q_time s + q_user_step (ex_cfg (-1)))%R).
  assert (Hi' : q_inv0 2 (q_mgr ex_st) (q_ref ex_st) pat (q_set_time t s)) by (destruct Hi; constructor; auto).
  destruct (kinematic_ok HE (qo_scheme Q) t (q_time s) Hi') as (s1 & E1 & Hi1 & Hp & _ & Ho1 & _).
  destruct (@evaluate_current_ok _ ex_phys (ex_cfg (-1)) 2 _ _ pat HE (q_time s) t (q_old s) (k_disp (q_kin s1)) s1 Hi1 Ho1)
    as (s2 & m0 & E2 & Hset & _ & _ & _ & _ & Hk & _ & Hint).
  { intros n c _ _ _. reflexivity. }
  exists 2, ex_phys, (ex_cfg (-1)), ex_st, (q_update_states (q_write s2)). split; auto. split; auto. split; auto. split.
  - unfold q_integrate. rewrite E0. cbn [obind]. change (Z.to_nat (qc_load_steps (ex_cfg (-1)))) with 1. cbn [seq load_steps].
    enough (H : load_step ex_phys (ex_cfg (-1)) 0 s = Ok (Done (q_update_states (q_write s2)))) by (rewrite H; reflexivity).
    unfold load_step. fold t. rewrite E1. cbn [obind]. rewrite E2. cbn [obind fst snd]. reflexivity.
  - intros f1 e1 (start & f0 & r0 & r1 & Hp' & Hh & (x & y & Hf0) & Hr0 & (x1 & y1 & Hf1) & Hr1 & Hle & _).
    assert (Ht0 : q_time s = q_time_after (ex_cfg (-1)) 0) by (rewrite Ht; unfold q_time_after; simpl; ring).
    assert (Ht1 : t = q_time_after (ex_cfg (-1)) 1) by (unfold t; rewrite Ht; unfold q_time_after, q_step_length, q_user_step; simpl; ring).
    rewrite Ht0, Ht1 in Hp, Hint.
    assert (R0 : r0 = [-2; -1; 0; -1]%R) by (exact (@ex_imbalance (-1) (k_disp (q_kin ex_st)) start f0 r0 x y _ (fun _ _ => eq_refl) Hp' Hf0 Hr0)).
    assert (R1 : r1 = [-2; -1; 0; -1]%R).
    { change (k_disp (q_kin (q_update_states (q_write s2)))) with (k_disp (q_kin s2)) in Hf1. rewrite Hk in Hf1.
      eapply (@ex_imbalance (-1) (k_disp (q_kin s)) (k_disp (q_kin s1)) f1 r1 x1 y1); eauto. }
    rewrite R0, R1, ex_measured in Hle. simpl in Hle. pose proof (sqrt_pos 5). lra.
Qed.
Print Assumptions C68_negative_limit_refuted.

(** Refuted: "of several prescribed velocities on one component the last one listed counts".  The
    velocity is that of the last one, but the displacement moves by the sum. *)
Theorem C68_overlapping_velocities_refuted :
  exists mg ref s mg' s', bc_input_ok mg 1 /\ mg_scheme mg = QUASISTATIC /\ shaped 1 2 ref /\ shaped 1 2 (k_disp s) /\ shaped 1 2 (k_vel s) /\
    apply_kinematic mg 1 0 ref s = Ok (mg', s') /\ v_at (k_disp s) 0 0 = 0%R /\
    v_at (k_vel s') 0 0 = 5%R /\ v_at (k_disp s') 0 0 = 8%R.
Proof.
  exists (Mgr [(1%Z, [0])] [BC PRESCRIBED_VELOCITY 1 (-1) 0 (Magnitude 3); BC PRESCRIBED_VELOCITY 1 (-1) 0 (Magnitude 5)] 2 QUASISTATIC),
    (View 1 2 (fun _ _ => 0%R)), (Kin (View 1 2 (fun _ _ => 0%R)) (View 1 2 (fun _ _ => 0%R)) []).
  eexists. eexists. split.
  { constructor; simpl; auto.
    - intros b [<-|[<-|[]]]; simpl; lia.
    - intros id n. unfold node_set. simpl. destruct (Z.eqb id 1); simpl; intuition lia.
    - intros id. unfold node_set. simpl. destruct (Z.eqb id 1); repeat constructor; auto. }
  split; auto. split; [split; reflexivity|]. split; [split; reflexivity|]. split; [split; reflexivity|].
  split; [reflexivity|]. split; [reflexivity|]. split; [reflexivity|]. cbn. ring.
Qed.
Print Assumptions C68_overlapping_velocities_refuted.
