(** C70-C72: the device version of the model data (nimble_kokkos::ModelData). *)
From Coq Require Import Reals Lra Sorted Permutation.
From Verif Require Import Base Strings ListLemmas DataModel DataProofs Loops TensorModel TensorSpec ElementModel ElementSpec BlockModel BlockProofs PropElement.
From Verif Require Import KokkosModel KokkosSpec KokkosSpec2 KokkosSpec3 KokkosProofs KokkosProofs7 KokkosProofs8 KokkosProofs9 KokkosProofs18 KokkosProofs19 KokkosProofs20.
Set Implicit Arguments.
Local Open Scope nat_scope.
Local Open Scope list_scope.
Local Notation length := List.length.
Local Ltac idx8 k := destruct k as [|[|[|[|[|[|[|[|k]]]]]]]]; try (exfalso; lia).

(** C70: the set-up of an explicit simulation followed by any calls, under any schedules (of which
    nothing is assumed for loops with races), succeeds exactly when the plain sequential program
    over whole arrays does, and shows the same displacements, velocities, forces, masses,
    deformation gradients and stresses. *)
Theorem C70_same_results : forall same keep dbl_max reduce scheds out dim N coords mesh ms ops,
  (forall n, valid_sched (scheds n)) -> (forall x, length (reduce x) = length x) ->
  dim = 2 \/ dim = 3 -> hex_mesh N mesh -> work_arrays_apart keep mesh -> by_id ms mesh -> Forall proper ops ->
  (forall m p, plain_run same reduce dim N coords ms ops = Ok (m, p) ->
     exists d, device_run same keep dbl_max reduce scheds out dim N coords mesh ops = Ok d /\ shows reduce N d m p /\
       kd_dt d = serial_time_step dbl_max (nodal_coordinates dim N coords) (repeat 0%R (N * 3)) ms) /\
  (forall d, device_run same keep dbl_max reduce scheds out dim N coords mesh ops = Ok d ->
     exists m p, plain_run same reduce dim N coords ms ops = Ok (m, p)).
Proof. exact history. Qed.
Print Assumptions C70_same_results.

(** every mesh with distinct block ids has an order by ids *)
Fixpoint put_by_id (b : mblock) (l : list mblock) : list mblock :=
  match l with [] => [b] | c :: l' => if mb_id b <? mb_id c then b :: l else c :: put_by_id b l' end.
Lemma put_perm b l : Permutation (put_by_id b l) (b :: l).
Proof. induction l as [|c l IH]; simpl; auto. destruct (_ <? _); auto. rewrite IH. apply perm_swap. Qed.
Lemma put_sorted b l : StronglySorted lt (map mb_id l) -> ~ In (mb_id b) (map mb_id l) -> StronglySorted lt (map mb_id (put_by_id b l)).
Proof.
  induction l as [|c l IH]; intros H Hn; simpl; [repeat constructor|]. simpl in H. inversion_clear H as [|? ? H1 H2]. simpl in Hn.
  destruct (Nat.ltb_spec (mb_id b) (mb_id c)) as [L|L]; simpl.
  - constructor; [now constructor|]. constructor; auto. eapply Forall_impl; [|exact H2]. simpl. intros; lia.
  - constructor; [apply IH; tauto|]. apply Forall_forall. intros x Hx. rewrite (Permutation_map mb_id (put_perm b l)) in Hx. simpl in Hx.
    destruct Hx as [<-|Hx]; [|rewrite Forall_forall in H2; auto]. assert (mb_id c <> mb_id b) by tauto. lia.
Qed.
Lemma order_exists mesh : NoDup (map mb_id mesh) -> exists ms, by_id ms mesh.
Proof.
  induction mesh as [|b l IH]; intros H; [exists []; split; constructor|]. simpl in H. inversion_clear H as [|? ? H1 H2].
  destruct (IH H2) as (ms & P & S). exists (put_by_id b ms). split; [rewrite put_perm; auto|]. apply put_sorted; auto.
  now rewrite (Permutation_map mb_id P).
Qed.

(** C70: two executions of the same calls, whatever their schedules and whatever the version of
    resize, either both fail or show the same. *)
Theorem C70_any_schedule : forall same keep keep' dbl_max reduce scheds scheds' out dim N coords mesh ops d,
  (forall n, valid_sched (scheds n)) -> (forall n, valid_sched (scheds' n)) -> (forall x, length (reduce x) = length x) ->
  dim = 2 \/ dim = 3 -> hex_mesh N mesh -> work_arrays_apart keep mesh -> work_arrays_apart keep' mesh -> Forall proper ops ->
  device_run same keep dbl_max reduce scheds out dim N coords mesh ops = Ok d ->
  exists d', device_run same keep' dbl_max reduce scheds' out dim N coords mesh ops = Ok d' /\
    host_read d' (f_disp (kd_ids d')) = host_read d (f_disp (kd_ids d)) /\ host_read d' (f_vel (kd_ids d')) = host_read d (f_vel (kd_ids d)) /\
    host_read d' (f_force (kd_ids d')) = host_read d (f_force (kd_ids d)) /\ host_scalar d' (f_mass (kd_ids d')) = host_scalar d (f_mass (kd_ids d)) /\
    device_points d' STEP_N = device_points d STEP_N /\ device_points d' STEP_NP1 = device_points d STEP_NP1 /\ kd_dt d' = kd_dt d.
Proof.
  intros same keep keep' dbl_max reduce scheds scheds' out dim N coords mesh ops d Hs Hs' Hr Hd Hm Hk Hk' Hp E.
  destruct (@order_exists mesh (hm_ids Hm)) as (ms & Hb).
  destruct (@C70_same_results same keep dbl_max reduce scheds out dim N coords mesh ms ops Hs Hr Hd Hm Hk Hb Hp) as [A B].
  destruct (@C70_same_results same keep' dbl_max reduce scheds' out dim N coords mesh ms ops Hs' Hr Hd Hm Hk' Hb Hp) as [A' _].
  destruct (B d E) as (m & p & Ep). destruct (A m p Ep) as (d1 & E1 & [S1 S2 S3 S4 S5 S6] & T1). rewrite E in E1. injection E1 as <-.
  destruct (A' m p Ep) as (d' & E' & [S1' S2' S3' S4' S5' S6'] & T1'). exists d'. split; [exact E'|].
  rewrite S1, S2, S3, S4, S5, S6, T1, S1', S2', S3', S4', S5', S6', T1'. auto 8.
Qed.
Print Assumptions C70_any_schedule.

Definition nobody (x : list R) : list R := x.
Lemma plain_same reduce N ref mesh ops : forall p p', p_du p = p_hu p -> ofold (plain_step true reduce N ref mesh) ops p = Ok p' -> p_du p' = p_hu p'.
Proof.
  induction ops as [|o ops IH]; intros p p' H E; cbn [ofold] in E; [injection E as <-; auto|].
  destruct (plain_step true reduce N ref mesh p o) as [p1| | |] eqn:E1; try discriminate. cbn [obind] in E. apply (IH p1 p'); auto.
  destruct o; unfold plain_step in E1; cbv zeta iota in E1.
  - destruct (node <? N); [|discriminate]. injection E1 as <-. reflexivity.
  - destruct (node <? N); [|discriminate]. injection E1 as <-. exact H.
  - injection E1 as <-. exact H.
  - injection E1 as <-. cbn [p_du p_hu]. destruct (p_kept p); auto.
  - injection E1 as <-. exact H.
  - destruct (serial_force _ _ _ _ _) as [f| | |]; try discriminate. cbn [obind] in E1. destruct (omapM _ _) as [l| | |]; try discriminate. cbn [obind] in E1. injection E1 as <-. exact H.
  - injection E1 as <-. exact H.
Qed.
Lemma arr_of_map (f : arr) n k : k < n -> arr_of (map f (seq 0 n)) k = f k.
Proof. intros H. unfold arr_of. apply nth_error_nth. now apply nth_map_seq. Qed.
Lemma hex_sorted N ms mesh : hex_mesh N mesh -> by_id ms mesh -> forall b, In b ms -> hex_block N b.
Proof. intros H [P _] b Hb. apply (hm_hex H). eapply Permutation_in; eauto. Qed.
(** C70: in a serial run with shared memory, the internal force just computed has no resultant and
    no moment about the origin, whatever the materials and the history. *)
Theorem C70_equilibrium : forall keep dbl_max scheds out dim N coords mesh ops t0 t1 d,
  (forall n, valid_sched (scheds n)) -> dim = 2 \/ dim = 3 -> hex_mesh N mesh -> work_arrays_apart keep mesh -> Forall proper ops ->
  device_run true keep dbl_max nobody scheds out dim N coords mesh (ops ++ [KForce t0 t1]) = Ok d ->
  exists f u, host_read d (f_force (kd_ids d)) = Ok f /\ host_read d (f_disp (kd_ids d)) = Ok u /\
    let x k := (arr_of (nodal_coordinates dim N coords) k + arr_of u k)%R in
    (forall i, i < 3 -> Rsum N (fun n => arr_of f (3 * n + i)) = 0%R) /\
    (forall i j, i < 3 -> j < 3 -> Rsum N (fun n => x (3 * n + i)%nat * arr_of f (3 * n + j)%nat - x (3 * n + j)%nat * arr_of f (3 * n + i)%nat)%R = 0%R).
Proof.
  intros keep dbl_max scheds out dim N coords mesh ops t0 t1 d Hs Hd Hm Hk Hp E.
  destruct (@order_exists mesh (hm_ids Hm)) as (ms & Hb).
  assert (Hp' : Forall proper (ops ++ [KForce t0 t1])) by (apply Forall_app; split; [exact Hp|repeat constructor]).
  destruct (@C70_same_results true keep dbl_max nobody scheds out dim N coords mesh ms _ Hs (fun _ => eq_refl) Hd Hm Hk Hb Hp') as [A B].
  destruct (B d E) as (m & p & Ep). destruct (A m p Ep) as (d1 & E1 & S & _). rewrite E in E1. injection E1 as <-.
  exists (p_f p), (p_hu p). split; [exact (sh_force S)|]. split; [exact (sh_disp S)|]. unfold plain_run in Ep.
  destruct (serial_mass _ ms) as [m0| | |]; try discriminate. cbn [obind] in Ep. rewrite ofold_app in Ep.
  destruct (ofold _ ops _) as [p1| | |] eqn:E1; try discriminate. cbn [obind ofold] in Ep. 
  apply plain_same in E1; [|reflexivity]. unfold plain_step in Ep.
  destruct (serial_force t0 t1 _ (p_du p1) _) as [f| | |] eqn:Ef; try discriminate. cbn [obind] in Ep.
  destruct (omapM _ _) as [l| | |]; try discriminate. cbn [obind] in Ep. injection Ep as _ <-. cbn [p_f p_hu]. unfold nobody, device_coordinates in *.
  assert (Hx : forall y, In y (combine ms (p_old p1)) -> hex_block N (fst y)) by (intros [b y] Hy; apply in_combine_l in Hy; exact (hex_sorted Hm Hb _ Hy)).
  destruct (@force_balance (nodal_coordinates dim N coords) (p_du p1) t0 t1 N (combine ms (p_old p1)) zeros f Hx Ef) as [F M].
  rewrite E1 in M. split.
  - intros i Hi. transitivity (Rsum N (fun n => f (3 * n + i))); [apply Rsum_ext; intros n Hn; apply arr_of_map; lia|]. rewrite (F i Hi). now apply Rsum_zero.
  - intros i j Hi Hj. cbv zeta. etransitivity; [|etransitivity; [apply (M i j Hi Hj)|]].
    + apply Rsum_ext. intros n Hn. now rewrite !arr_of_map by lia.
    + apply Rsum_zero. intros n Hn. unfold zeros. ring.
Qed.
Print Assumptions C70_equilibrium.
(** C70: moving on to the next step makes the values of the last evaluation the old ones and changes
    nothing else that can be seen. *)
Theorem C70_next_step : forall same keep dbl_max reduce scheds out dim N coords mesh ops d,
  (forall n, valid_sched (scheds n)) -> (forall x, length (reduce x) = length x) ->
  dim = 2 \/ dim = 3 -> hex_mesh N mesh -> work_arrays_apart keep mesh -> Forall proper ops ->
  device_run same keep dbl_max reduce scheds out dim N coords mesh ops = Ok d ->
  exists d', device_run same keep dbl_max reduce scheds out dim N coords mesh (ops ++ [KUpdate]) = Ok d' /\
    device_points d' STEP_N = device_points d STEP_NP1 /\ device_points d' STEP_NP1 = device_points d STEP_NP1 /\
    host_read d' (f_disp (kd_ids d')) = host_read d (f_disp (kd_ids d)) /\ host_read d' (f_vel (kd_ids d')) = host_read d (f_vel (kd_ids d)) /\
    host_read d' (f_force (kd_ids d')) = host_read d (f_force (kd_ids d)) /\ host_scalar d' (f_mass (kd_ids d')) = host_scalar d (f_mass (kd_ids d)) /\ kd_dt d' = kd_dt d.
Proof.
  intros same keep dbl_max reduce scheds out dim N coords mesh ops d Hs Hr Hd Hm Hk Hp E.
  destruct (@order_exists mesh (hm_ids Hm)) as (ms & Hb).
  assert (Hp' : Forall proper (ops ++ [KUpdate])) by (apply Forall_app; split; [exact Hp|repeat constructor]).
  destruct (@C70_same_results same keep dbl_max reduce scheds out dim N coords mesh ms ops Hs Hr Hd Hm Hk Hb Hp) as [A B].
  destruct (@C70_same_results same keep dbl_max reduce scheds out dim N coords mesh ms _ Hs Hr Hd Hm Hk Hb Hp') as [A' _].
  destruct (B d E) as (m & p & Ep). destruct (A m p Ep) as (d1 & E1 & [S1 S2 S3 S4 S5 S6] & T1). rewrite E in E1. injection E1 as <-.
  unfold plain_run in Ep. destruct (serial_mass _ ms) as [m0| | |] eqn:Em; try discriminate. cbn [obind] in Ep.
  destruct (ofold _ ops _) as [p1| | |] eqn:Eo; try discriminate. cbn [obind] in Ep. injection Ep as -> ->.
  destruct (A' m (Plain (p_kept p) (p_hu p) (p_du p) (p_hv p) (p_dv p) (p_f p) (p_new p) (p_new p))) as (d' & E' & [S1' S2' S3' S4' S5' S6'] & T1').
  { unfold plain_run. rewrite Em. cbn [obind]. rewrite ofold_app, Eo. reflexivity. }
  exists d'. split; [exact E'|]. rewrite S1, S2, S3, S4, S6, T1, S1', S2', S3', S4', S5', S6', T1'. auto 8.
Qed.
Print Assumptions C70_next_step.

(** C71: with shared memory and well-shaped elements the set-up succeeds; the lumped masses sum to
    density times volume over all blocks, and every node of an element gets a positive mass; the
    critical time step is a lower bound of those of the blocks and equal to one of them (or to
    dbl_max). *)
Lemma time_step_least ref disp mesh : forall dt0, let dt := fold_left (fun dt b => lower (block_critical_time_step dt0 (km_bulk (mb_mat b)) (km_density (mb_mat b)) (arr_of ref) (arr_of disp) (mb_num_elem b) (conn_of (mb_conn b)) zeros) dt) mesh in
  forall x, (dt x <= x)%R /\ (forall b, In b mesh -> (dt x <= block_critical_time_step dt0 (km_bulk (mb_mat b)) (km_density (mb_mat b)) (arr_of ref) (arr_of disp) (mb_num_elem b) (conn_of (mb_conn b)) zeros)%R) /\
    (dt x = x \/ exists b, In b mesh /\ dt x = block_critical_time_step dt0 (km_bulk (mb_mat b)) (km_density (mb_mat b)) (arr_of ref) (arr_of disp) (mb_num_elem b) (conn_of (mb_conn b)) zeros).
Proof.
  intros dt0. cbv zeta. induction mesh as [|b mesh IH]; intros x; cbn [fold_left]; [split; [lra|]; split; [intros b []|auto]|].
  match goal with |- context [lower ?a x] => set (y := a) end. destruct (IH (lower y x)) as (A & B & C).
  assert (L : (lower y x <= x)%R /\ (lower y x <= y)%R /\ (lower y x = x \/ lower y x = y)) by (unfold lower; destruct (Rlt_dec y x); repeat split; auto; lra).
  destruct L as (L1 & L2 & L3). split; [lra|]. split.
  - intros c [<-|Hc]; [fold y; lra|auto].
  - destruct C as [C|(c & Hc & C)]; [|right; exists c; auto using in_cons]. rewrite C. destruct L3 as [->| ->]; [now left|right]. exists b. auto using in_eq.
Qed.
Lemma total_mass_perm x l l' : Permutation l l' -> total_mass x l = total_mass x l'.
Proof. unfold total_mass. induction 1; simpl; lra. Qed.
Theorem C71_masses : forall keep dbl_max scheds out dim N coords mesh,
  (forall n, valid_sched (scheds n)) -> dim = 2 \/ dim = 3 -> hex_mesh N mesh -> work_arrays_apart keep mesh ->
  let x := nodal_coordinates dim N coords in
  (shaped mesh (arr_of x) <-> exists d, device_run true keep dbl_max nobody scheds out dim N coords mesh [] = Ok d) /\
  forall d, device_run true keep dbl_max nobody scheds out dim N coords mesh [] = Ok d ->
    (exists m, host_scalar d (f_mass (kd_ids d)) = Ok m /\ length m = N /\ Rsum N (arr_of m) = total_mass (arr_of x) mesh /\
      ((forall b, In b mesh -> 0 < km_density (mb_mat b))%R -> forall b e n, In b mesh -> e < mb_num_elem b -> n < 8 -> (0 < arr_of m (nth (e * 8 + n) (mb_conn b) 0%nat))%R)) /\
    let block_dt b := block_critical_time_step dbl_max (km_bulk (mb_mat b)) (km_density (mb_mat b)) (arr_of x) (arr_of (repeat 0%R (N * 3))) (mb_num_elem b) (conn_of (mb_conn b)) zeros in
    (forall b, In b mesh -> kd_dt d <= block_dt b)%R /\ (kd_dt d = dbl_max \/ exists b, In b mesh /\ kd_dt d = block_dt b).
Proof.
  intros keep dbl_max scheds out dim N coords mesh Hs Hd Hm Hk x. destruct (@order_exists mesh (hm_ids Hm)) as (ms & Hb). pose proof (proj1 Hb) as P.
  assert (Sh : shaped ms (arr_of x) <-> shaped mesh (arr_of x)).
  { split; intros H b e Hi; apply H; eapply Permutation_in; try exact Hi; auto. now apply Permutation_sym. }
  destruct (@C70_same_results true keep dbl_max nobody scheds out dim N coords mesh ms [] Hs (fun _ => eq_refl) Hd Hm Hk Hb (Forall_nil _)) as [A B].
  assert (Run : plain_run true nobody dim N coords ms [] = do m <- serial_mass x ms; Ok (m, plain_start N ms)) by reflexivity.
  split.
  - split.
    + intros H. destruct (@mass_fine N x ms zeros (hex_sorted Hm Hb) (proj2 Sh H)) as (l & El & _). destruct (A l (plain_start N ms)) as (d & E & _); [|eauto].
      rewrite Run. unfold serial_mass. now rewrite El.
    + intros (d & E). destruct (B d E) as (m & p & Ep). rewrite Run in Ep. destruct (serial_mass x ms) as [m0| | |] eqn:Em; try discriminate. apply Sh. eapply mass_needs_shape. exact Em.
  - intros d E. destruct (B d E) as (m & p & Ep). destruct (A m p Ep) as (d1 & E1 & S & T). rewrite E in E1. injection E1 as <-.
    rewrite Run in Ep. destruct (serial_mass x ms) as [m0| | |] eqn:Em; try discriminate. cbn [obind] in Ep. injection Ep as -> <-. split.
    + destruct (@mass_fine N x ms zeros (hex_sorted Hm Hb) (@mass_needs_shape _ _ _ _ Em)) as (l & El & Tot & Pos). unfold serial_mass in Em. rewrite Em in El. injection El as <-.
      exists (map m (seq 0 N)). split; [exact (sh_mass S)|]. split; [now rewrite map_length, seq_length|]. split.
      * transitivity (Rsum N m); [apply Rsum_ext; intros k Hkk; now apply arr_of_map|]. rewrite Tot, (total_mass_perm _ P). rewrite Rsum_zero by reflexivity. ring.
      * intros Hpos b e n Hbm He Hn. rewrite arr_of_map by (apply (hm_hex Hm b Hbm); nia).
        apply Pos; auto; [intros c Hc; apply Hpos; eapply Permutation_in; eauto|]. eapply Permutation_in; [apply Permutation_sym; exact P|exact Hbm].
    + cbv zeta. rewrite T. unfold serial_time_step. destruct (@time_step_least x (repeat 0%R (N * 3)) ms dbl_max dbl_max) as (_ & L1 & L2). split.
      * intros b Hbm. apply L1. eapply Permutation_in; [apply Permutation_sym; exact P|exact Hbm].
      * destruct L2 as [L2|(b & Hi & L2)]; [now left|right]. exists b. split; [eapply Permutation_in; eauto|exact L2].
Qed.
Print Assumptions C71_masses.

(** C70, refuted corner: when host and device have separate memories, the reference coordinates are
    never copied to the device, and no mesh with an element gets through the set-up. *)
Theorem C70_separate_memory_refuted : forall keep dbl_max reduce scheds out dim N coords mesh ops,
  (forall n, valid_sched (scheds n)) -> (forall x, length (reduce x) = length x) ->
  dim = 2 \/ dim = 3 -> hex_mesh N mesh -> work_arrays_apart keep mesh -> Forall proper ops ->
  (exists b, In b mesh /\ 0 < mb_num_elem b) ->
  forall d, device_run false keep dbl_max reduce scheds out dim N coords mesh ops <> Ok d.
Proof.
  intros keep dbl_max reduce scheds out dim N coords mesh ops Hs Hr Hd Hm Hk Hp (b & Hb & He) d E.
  destruct (@order_exists mesh (hm_ids Hm)) as (ms & Ho).
  destruct (@C70_same_results false keep dbl_max reduce scheds out dim N coords mesh ms ops Hs Hr Hd Hm Hk Ho Hp) as [_ B].
  destruct (B d E) as (m & p & Ep). unfold plain_run in Ep. destruct (serial_mass _ ms) as [m0| | |] eqn:Em; try discriminate.
  assert (Hb' : In b ms) by (eapply Permutation_in; [apply Permutation_sym; exact (proj1 Ho)|exact Hb]).
  pose proof (@mass_needs_shape _ _ _ _ Em b 0 Hb' He) as W. unfold device_coordinates in W.
  assert (Z : forall n i, (n < 8)%nat -> (i < 3)%nat -> corners b (arr_of (repeat 0%R (N * 3))) 0 n i = 0%R).
  { intros n i _ _. unfold corners, enodes, arr_of. destruct (Nat.lt_ge_cases (3 * conn_of (mb_conn b) (0 * 8 + n) + i) (N * 3)) as [L|L].
    - apply nth_repeat. - apply nth_overflow. now rewrite repeat_length. }
  apply (proj2 (proj2 C27_cube)). exact (@shaped_ext _ (fun _ _ => 0%R) Z W).
Qed.
Print Assumptions C70_separate_memory_refuted.

(** C72: any sequence of acceptable allocations succeeds; two of them return the same id exactly
    when their labels are the same; the id of a label can be looked up; every field that was not
    replaced by a later allocation for the same place and label is found under its id on the host
    and on the device, with its size and its initial contents, and no two of them (nor the two steps
    of one) share memory; host and device views are the same memory exactly when the spaces are. *)
Theorem C72_allocations : forall same l, Forall acceptable l ->
  exists s ids, allocate_all same l = Ok (s, ids) /\ length ids = length l /\
    (forall i j a b id id', nth_error l i = Some a -> nth_error l j = Some b -> nth_error ids i = Some id -> nth_error ids j = Some id' -> (id = id' <-> al_label a = al_label b)) /\
    (forall i a id, nth_error l i = Some a -> nth_error ids i = Some id -> get_field_id (fst s) (al_label a) = Ok id) /\
    exists vh vd : nat -> step_t -> view,
      (forall i a id st, nth_error l i = Some a -> nth_error ids i = Some id -> latest l i -> exists k, kind_for (al_home a) (al_len a) = Some k /\
         host_view (fst s) (al_home a) k id st = Ok (vh i st) /\ device_view (fst s) (al_home a) k id st = Ok (vd i st) /\
         v_extent (vh i st) = al_n a /\ v_extent (vd i st) = al_n a /\
         nth_error (snd s) (v_id (vh i st)) = Some (contents a) /\ nth_error (snd s) (v_id (vd i st)) = Some (contents a) /\
         (v_id (vh i st) = v_id (vd i st) <-> same = true)) /\
      (forall i j st st', i < length l -> j < length l -> latest l i -> latest l j -> different l i st j st' ->
         v_id (vh i st) <> v_id (vh j st') /\ v_id (vh i st) <> v_id (vd j st') /\ v_id (vd i st) <> v_id (vd j st')).
Proof.
  intros same l H. destruct (all_ok same H) as (s & ids & E & I). exists s, ids. split; [exact E|]. split; [exact (in_len I)|].
  assert (Lb : forall i a id, nth_error l i = Some a -> nth_error ids i = Some id -> assoc chars_eqb (al_label a) (tb_labels (fst s)) = Some id).
  { intros i a id Ha Hid. destruct (in_label I i Ha) as (id' & E1 & E2). rewrite Hid in E1. now injection E1 as ->. }
  assert (Inj : forall i j a b id id', nth_error l i = Some a -> nth_error l j = Some b -> nth_error ids i = Some id -> nth_error ids j = Some id' -> (id = id' <-> al_label a = al_label b)).
  { intros i j a b id id' Ha Hb Hi Hj. pose proof (Lb i a id Ha Hi) as E1. pose proof (Lb j b id' Hb Hj) as E2. split.
    - intros <-. destruct (chars_eqb (al_label a) (al_label b)) eqn:Ec; [now apply chars_eqb_eq|]. exfalso.
      apply (label_ne (in_good I) E1 E2); auto. intros En. rewrite En, (proj2 (chars_eqb_eq _ _) eq_refl) in Ec. discriminate.
    - intros En. rewrite En in E1. congruence. }
  split; [exact Inj|]. split.
  { intros i a id Ha Hid. unfold get_field_id. now rewrite (Lb i a id Ha Hid). }
  assert (V : forall i st, exists vh vd, forall a id, nth_error l i = Some a -> nth_error ids i = Some id -> latest l i ->
    exists k, kind_for (al_home a) (al_len a) = Some k /\ look (fst s) (key_of (al_home a) id st) = Some (KF k vh, KF k vd) /\
         host_view (fst s) (al_home a) k id st = Ok vh /\ device_view (fst s) (al_home a) k id st = Ok vd /\ v_extent vh = al_n a /\ v_extent vd = al_n a /\
         nth_error (snd s) (v_id vh) = Some (contents a) /\ nth_error (snd s) (v_id vd) = Some (contents a)).
  { intros i st. destruct (nth_error l i) as [a|] eqn:Ha; [|exists (View 0 0), (View 0 0); discriminate].
    destruct (nth_error ids i) as [id|] eqn:Hid; [|exists (View 0 0), (View 0 0); discriminate].
    assert (D : latest l i \/ ~ latest l i).
    { assert (Dh : forall p q : home, {p = q} + {p <> q}) by (decide equality; apply Nat.eq_dec).
      destruct (existsb (fun j => (i <? j) && match nth_error l j with Some b => (if Dh (al_home b) (al_home a) then true else false) && chars_eqb (al_label b) (al_label a) | None => false end) (seq 0 (length l))) eqn:Ex.
      - right. intros Hl. apply existsb_exists in Ex. destruct Ex as (j & _ & Hj). apply andb_prop in Hj. destruct Hj as [Hj1 Hj2]. apply Nat.ltb_lt in Hj1.
        destruct (nth_error l j) as [b|] eqn:Hb; [|discriminate]. apply andb_prop in Hj2. destruct Hj2 as [Hj2 Hj3]. destruct (Dh _ _) as [Ep|]; [|discriminate].
        apply chars_eqb_eq in Hj3. exact (Hl j a b Hj1 Ha Hb (conj Ep Hj3)).
      - left. intros j a' b Hij Ha' Hb [E1 E2]. rewrite Ha in Ha'. injection Ha' as <-.
        assert (X : existsb (fun j => (i <? j) && match nth_error l j with Some b => (if Dh (al_home b) (al_home a) then true else false) && chars_eqb (al_label b) (al_label a) | None => false end) (seq 0 (length l)) = true).
        { apply existsb_exists. exists j. split; [apply in_seq; split; [lia|]; simpl; apply nth_error_Some; congruence|]. rewrite (proj2 (Nat.ltb_lt _ _) Hij), Hb. destruct (Dh _ _); [|contradiction]. simpl. now apply chars_eqb_eq. }
        congruence. }
    destruct D as [D|D]; [|exists (View 0 0), (View 0 0); intros; contradiction].
    destruct (in_latest I st Ha Hid D) as (k & Hk & Hh). destruct (@views_of s (al_home a) id st k (al_n a) _ _ Hh) as (vh & vd & X). exists vh, vd. intros a' id' Ha' Hid' _.
    injection Ha' as <-. injection Hid' as <-. exists k. split; [exact Hk|exact X]. }
  assert (Ch : exists vh vd : nat -> step_t -> view, forall i st a id, i < length l -> nth_error l i = Some a -> nth_error ids i = Some id -> latest l i ->
    exists k, kind_for (al_home a) (al_len a) = Some k /\ look (fst s) (key_of (al_home a) id st) = Some (KF k (vh i st), KF k (vd i st)) /\
         host_view (fst s) (al_home a) k id st = Ok (vh i st) /\ device_view (fst s) (al_home a) k id st = Ok (vd i st) /\ v_extent (vh i st) = al_n a /\ v_extent (vd i st) = al_n a /\
         nth_error (snd s) (v_id (vh i st)) = Some (contents a) /\ nth_error (snd s) (v_id (vd i st)) = Some (contents a)).
  { clear - V. generalize (length l) as n. induction n as [|n (vh & vd & IH)].
    - exists (fun _ _ => View 0 0), (fun _ _ => View 0 0). intros; lia.
    - destruct (V n STEP_N) as (h1 & d1 & V1). destruct (V n STEP_NP1) as (h2 & d2 & V2).
      exists (fun i st => if i =? n then match st with STEP_N => h1 | STEP_NP1 => h2 end else vh i st), (fun i st => if i =? n then match st with STEP_N => d1 | STEP_NP1 => d2 end else vd i st).
      intros i st a id Hi Ha Hid Hl. destruct (Nat.eqb_spec i n) as [->|Hne]; [destruct st; auto|]. apply IH; auto. lia. }
  destruct Ch as (vh & vd & Ch). exists vh, vd. split.
  - intros i a id st Ha Hid Hl. assert (Hi : i < length l) by (apply nth_error_Some; congruence).
    destruct (Ch i st a id Hi Ha Hid Hl) as (k & Hk & Lk & X1 & X2 & X3 & X4 & X5 & X6). exists k. do 7 (split; [assumption|]).
    destruct (g_pair (in_good I) _ Lk) as (_ & _ & _ & _ & Q). unfold vid in Q. simpl in Q. destruct same; [injection Q as ->; tauto|]. split; [intros; contradiction|discriminate].
  - intros i j st st' Hi Hj Hli Hlj Hd.
    destruct (nth_error l i) as [a|] eqn:Ha; [|apply nth_error_None in Ha; lia]. destruct (nth_error l j) as [b|] eqn:Hb; [|apply nth_error_None in Hb; lia].
    pose proof (in_len I) as L. destruct (nth_error ids i) as [id|] eqn:Hid; [|apply nth_error_None in Hid; lia]. destruct (nth_error ids j) as [id'|] eqn:Hid'; [|apply nth_error_None in Hid'; lia].
    destruct (Ch i st a id Hi Ha Hid Hli) as (k & _ & Lk & _). destruct (Ch j st' b id' Hj Hb Hid' Hlj) as (k' & _ & Lk' & _).
    assert (Hne : key_of (al_home a) id st <> key_of (al_home b) id' st').
    { intros Ek. pose proof (@key_of_inj _ _ _ _ _ _ Ek) as [Ep Ei]. subst id'. pose proof (proj1 (Inj i j a b id id Ha Hb Hid Hid') eq_refl) as El.
      destruct Hd as [Hd|(Hst & a0 & bk & Ha0 & Hh)].
      - destruct (Nat.lt_total i j) as [Lt|[Lt|Lt]]; [|contradiction|]; [apply (Hli j a b Lt Ha Hb)|apply (Hlj i b a Lt Hb Ha)]; auto.
      - rewrite Ha in Ha0. injection Ha0 as <-. rewrite <- Ep, Hh in Ek. simpl in Ek. injection Ek as Ek. contradiction. }
    pose proof (@g_apart _ _ (in_good I) _ _ _ _ Lk Lk' Hne) as Ap. unfold apart in Ap. cbn [fst snd] in Ap. unfold vid in Ap.
    split; [|split]; [apply (Ap (KF k (vh i st)) (KF k' (vh j st')))|apply (Ap (KF k (vh i st)) (KF k' (vd j st')))|apply (Ap (KF k (vd i st)) (KF k' (vd j st')))]; simpl; auto.
Qed.
Print Assumptions C72_allocations.
(** a case: an element field and a field at integration points under one label, replaced once *)
Example C72_used :
  let l := [Alloc AtNodes VECTOR (lit "displacement") 12 []; Alloc (AtPoints 3) FULL_TENSOR (lit "F") 2 [1; 1; 1; 0; 0; 0; 0; 0; 0]%R;
            Alloc (OnElements 3) FULL_TENSOR (lit "F") 2 []; Alloc (AtPoints 3) FULL_TENSOR (lit "F") 4 []] in
  Forall acceptable l /\ latest l 0 /\ ~ latest l 1 /\ latest l 2 /\ latest l 3.
Proof.
  intros l. split; [|split; [|split; [|split]]].
  - repeat apply Forall_cons; try apply Forall_nil; (split; [simpl; discriminate|]); try (left; reflexivity). right. split; [eexists; reflexivity|simpl; lia].
  - intros [|[|[|[|j]]]] a b Hj; simpl; intros [= <-] Hb; try lia; try (injection Hb as <-); simpl; try (intros [? ?]; discriminate). destruct j; discriminate.
  - intros H. apply (H 3 (Alloc (AtPoints 3) FULL_TENSOR (lit "F") 2 [1; 1; 1; 0; 0; 0; 0; 0; 0]%R) (Alloc (AtPoints 3) FULL_TENSOR (lit "F") 4 [])); auto.
  - intros [|[|[|[|j]]]] a b Hj; simpl; intros [= <-] Hb; try lia; try (injection Hb as <-); simpl; try (intros [? ?]; discriminate). destruct j; discriminate.
  - intros [|[|[|[|j]]]] a b Hj; simpl; intros [= <-] Hb; try lia. destruct j; discriminate.
Qed.

(** A case for C70 and C71: two cubes sharing a face, in two blocks whose ids are not in order. *)
Definition steady (rho : R) : kmat := KMat rho 1%R 0 (fun _ _ _ _ _ => Ok (fun k => INR k)).
Definition low_block : mblock := MBlock 7 1 8 [0; 1; 2; 3; 4; 5; 6; 7] (steady 3).
Definition high_block : mblock := MBlock 4 1 8 [4; 5; 6; 7; 8; 9; 10; 11] (steady 5).
Definition two_coords (n c : nat) : R := two_ref (3 * n + c).
Definition some_calls : list kop := [KKeepViews; KPushDisp; KForce 0 1; KUpdate; KWriteVel 3 1 2; KPushVel; KForce 1 2].
Lemma two_mesh : hex_mesh 12 [low_block; high_block] /\ by_id [high_block; low_block] [low_block; high_block] /\ work_arrays_apart false [low_block; high_block].
Proof.
  split; [|split].
  - constructor; simpl.
    + repeat constructor; simpl; intuition discriminate.
    + intros b [<-|[<-|[]]]; (split; [reflexivity|]; split; [reflexivity|]); simpl; intros k Hk; idx8 k; simpl; lia.
    + intros b [<-|[<-|[]]]; reflexivity.
  - split; [apply perm_swap|]. repeat constructor.
  - now left.
Qed.
Lemma two_nodal k : k < 36 -> arr_of (nodal_coordinates 3 12 two_coords) k = two_ref k.
Proof.
  intros H. unfold nodal_coordinates. rewrite arr_of_map by lia. replace (k mod 3 <? 3) with true by (symmetry; apply Nat.ltb_lt; apply Nat.mod_upper_bound; lia).
  unfold two_coords. f_equal. symmetry. apply Nat.div_mod. lia.
Qed.
Lemma two_blocks_shaped : shaped [high_block; low_block] (arr_of (nodal_coordinates 3 12 two_coords)).
Proof.
  assert (X : forall e b, (forall n, n < 8 -> nth n (mb_conn b) 0 = two_conn (e * 8 + n) /\ nth n (mb_conn b) 0 < 12) -> e < 2 -> well_shaped (corners b (arr_of (nodal_coordinates 3 12 two_coords)) 0)).
  { intros e b Hc He. refine (@shaped_ext _ _ _ (two_shaped He)). intros n i Hn Hi. destruct (Hc n Hn) as [Hc1 Hc2]. unfold corners, enodes, conn_of. simpl (0 * 8 + n).
    rewrite two_nodal by lia. now rewrite Hc1. }
  intros b e [<-|[<-|[]]] He; assert (e = 0) as -> by (simpl in He; lia); [apply (X 1)|apply (X 0)]; try lia; intros n Hn; idx8 n; split; try reflexivity; simpl; lia.
Qed.
Example C70_used : exists m p, plain_run true nobody 3 12 two_coords [high_block; low_block] some_calls = Ok (m, p) /\ Forall proper some_calls.
Proof.
  destruct two_mesh as (Hm & Hb & _). unfold plain_run, device_coordinates.
  destruct (@mass_fine 12 (nodal_coordinates 3 12 two_coords) [high_block; low_block] zeros (hex_sorted Hm Hb) two_blocks_shaped) as (m & Em & _).
  unfold serial_mass. rewrite Em. cbn [obind]. exists m.
  set (X := nodal_coordinates 3 12 two_coords). set (ms := [high_block; low_block]).
  assert (Fine : forall y, In y (combine ms (map undeformed ms)) -> fine X (repeat 0%R 36) (fst y)).
  { intros [b o] Hy. apply in_combine_l in Hy. cbn [fst]. split.
    - destruct Hy as [<-|[<-|[]]]; intros ? ? ? ? ?; eexists; reflexivity.
    - intros e He. pose proof (@two_blocks_shaped b e Hy He) as W. split; [exact W|]. refine (@shaped_ext _ _ _ W). intros n i Hn Hi. unfold corners, enodes.
      set (q := 3 * _ + i). replace (arr_of (repeat 0%R 36) q) with 0%R; [fold X; ring|]. unfold arr_of. symmetry. destruct (Nat.lt_ge_cases q 36); [apply nth_repeat|apply nth_overflow; now rewrite repeat_length]. }
  assert (Fine' : forall (new : list (list R * list R)) y, In y (combine ms new) -> fine X (repeat 0%R 36) (fst y)).
  { intros new [b o] Hy. apply in_combine_l in Hy. cbn [fst]. apply (Fine (b, undeformed b)). destruct Hy as [<-|[<-|[]]]; simpl; auto. }
  assert (Force : forall a b p, p_du p = repeat 0%R 36 -> exists f new, plain_step true nobody 12 X ms p (KForce a b) = Ok (Plain (p_kept p) (p_hu p) (p_du p) (p_hv p) (p_dv p) f (p_old p) new)).
  { intros a b p Hp. unfold plain_step, serial_force. rewrite Hp. destruct (@force_fine X (repeat 0%R 36) a b (combine ms (p_old p)) zeros (Fine' (p_old p))) as (f & Ef). rewrite Ef. cbn [obind].
    destruct (@all_points_fine X (repeat 0%R 36) a b (combine ms (p_old p)) (Fine' (p_old p))) as (new & En). rewrite En. cbn [obind]. eauto. }
  assert (K : forall o ops p p', plain_step true nobody 12 X ms p o = Ok p' -> (exists r, ofold (plain_step true nobody 12 X ms) ops p' = Ok r) -> exists r, ofold (plain_step true nobody 12 X ms) (o :: ops) p = Ok r).
  { intros o ops p p' E [r H]. exists r. cbn [ofold]. now rewrite E. }
  assert (R : forall p, p_du p = repeat 0%R 36 -> p_hu p = repeat 0%R 36 -> exists r, ofold (plain_step true nobody 12 X ms) some_calls p = Ok r).
  { intros [kept hu du hv dv f o n]. cbn [p_du p_hu]. intros -> ->. unfold some_calls. clear Em m.
    refine (K KKeepViews _ _ (Plain true (repeat 0%R 36) (repeat 0%R 36) hv dv f o n) _ _); [reflexivity|].
    refine (K KPushDisp _ _ (Plain true (repeat 0%R 36) (repeat 0%R 36) hv dv f o n) _ _); [reflexivity|].
    destruct (Force 0%R 1%R (Plain true (repeat 0%R 36) (repeat 0%R 36) hv dv f o n) eq_refl) as (f1 & n1 & E1). refine (K _ _ _ _ E1 _). cbn [p_kept p_hu p_du p_hv p_dv p_f p_old p_new].
    refine (K KUpdate _ _ (Plain true (repeat 0%R 36) (repeat 0%R 36) hv dv f1 n1 n1) _ _); [reflexivity|].
    refine (K (KWriteVel 3 1 2) _ _ (Plain true (repeat 0%R 36) (repeat 0%R 36) (list_set hv 10 2%R) (list_set hv 10 2%R) f1 n1 n1) _ _); [reflexivity|].
    refine (K KPushVel _ _ (Plain true (repeat 0%R 36) (repeat 0%R 36) (list_set hv 10 2%R) (list_set hv 10 2%R) f1 n1 n1) _ _); [reflexivity|].
    destruct (Force 1%R 2%R (Plain true (repeat 0%R 36) (repeat 0%R 36) (list_set hv 10 2%R) (list_set hv 10 2%R) f1 n1 n1) eq_refl) as (f2 & n2 & E2). refine (K _ _ _ _ E2 _).
    eexists. reflexivity. }
  destruct (R (plain_start 12 ms) eq_refl eq_refl) as [r Er]. rewrite Er. exists r. split; [reflexivity|]. repeat constructor.
Qed.
Example C70_used_device : forall scheds, (forall n, valid_sched (scheds n)) ->
  exists d, device_run true false 1 nobody scheds [] 3 12 two_coords [low_block; high_block] some_calls = Ok d.
Proof.
  intros scheds Hs. destruct C70_used as (m & p & E & Hp). destruct two_mesh as (Hm & Hb & Ha).
  destruct (@C70_same_results true false 1%R nobody scheds [] 3 12 two_coords _ _ some_calls Hs (fun _ => eq_refl) (or_intror eq_refl) Hm Ha Hb Hp) as [A _].
  destruct (A m p E) as (d & Ed & _). eauto.
Qed.
(** there are such schedules: one iteration after the other *)
Example C70_serial_schedule : valid_sched (fun _ its => List.concat its).
Proof.
  intros k its _. induction its as [|l its IH]; [apply il_done; constructor|]. cbn [List.concat].
  induction l as [|a l IHl]; [|exact (@il_step _ [] a l its _ IHl)]. cbn [app].
  assert (Sk : forall (ls : list (list act)) s, Interleave ls s -> Interleave ([] :: ls) s).
  { induction 1 as [ls H|ls1 a l ls2 s H IH']; [apply il_done; constructor; auto|]. exact (@il_step _ ([] :: ls1) a l ls2 s IH'). }
  now apply Sk.
Qed.

(** C70, refuted corner: a material with state variables cannot be used on the device: no run gets
    past an evaluation of the force, and moving on to the next step is undefined behaviour. *)
Definition with_state (stress : R -> R -> list R -> list R -> list R -> outcome arr) : mblock := MBlock 7 1 8 [0; 1; 2; 3; 4; 5; 6; 7] (KMat 1 1 1 stress).
Definition set_up_of (same keep : bool) (coords : nat -> nat -> R) (mesh : list mblock) : outcome kdata :=
  do d <- initialize same (lit "explicit") 3 8 coords; initialize_blocks keep (lit "explicit") [] mesh d.
Lemma state_set_up same keep coords stress : exists d, set_up_of same keep coords [with_state stress] = Ok d /\
  state_views (kd_tables d) (kd_ids d) 7 = UB /\ kd_blocks d = [(7, KBlock (with_state stress) [])] /\ update_states d = UB.
Proof.
  assert (X : match set_up_of same keep coords [with_state stress] with Ok d => state_views (kd_tables d) (kd_ids d) 7 = UB /\ kd_blocks d = [(7, KBlock (with_state stress) [])] /\ update_states d = UB | _ => False end).
  { destruct same, keep; vm_compute; auto. }
  destruct (set_up_of same keep coords [with_state stress]) as [d| | |]; [|contradiction..]. exists d. auto.
Qed.
Lemma mass_keeps sched keep dbl_max reduce d d' b : kd_blocks d = [(7, KBlock b [])] -> compute_lumped_mass_data sched keep dbl_max reduce d = Ok d' ->
  kd_tables d' = kd_tables d /\ kd_ids d' = kd_ids d /\ exists conn, kd_blocks d' = [(7, KBlock b conn)].
Proof.
  intros Hb E. unfold compute_lumped_mass_data in E. cbv zeta in E.
  do 5 (match type of E with obind ?x _ = _ => destruct x eqn:?; cbn [obind] in E; try discriminate end).
  cbn [kd_blocks] in E. rewrite Hb in E.
  match type of E with obind (ofold ?f ?n ?x) _ = _ => replace (ofold f n x) with (do z <- f x (0, (7, KBlock b [])); Ok z) in E by reflexivity end.
  rewrite KokkosProofs5.obind_assoc in E. match type of E with obind ?x _ = _ => destruct x as [d2| | |] eqn:E2; cbn [obind] in E; try discriminate end.
  do 2 (match type of E with obind ?x _ = _ => destruct x eqn:?; cbn [obind] in E; try discriminate end).
  injection E as <-. unfold with_heap. cbn [kd_tables kd_ids kd_blocks].
  unfold mass_block in E2. cbn [kb_mesh kd_tables kd_ids kd_blocks kd_gref kd_heap] in E2. cbv zeta in E2.
  repeat (match type of E2 with obind ?x _ = _ => destruct x eqn:?; cbn [obind] in E2; try discriminate end).
  injection E2 as <-. cbn [kd_tables kd_ids kd_blocks]. split; [reflexivity|]. split; [reflexivity|]. eexists. reflexivity.
Qed.
Theorem C70_state_variables_refuted : forall same keep coords stress,
  (forall d, set_up_of same keep coords [with_state stress] = Ok d -> update_states d = UB) /\
  (forall dbl_max reduce scheds t0 t1 d, device_run same keep dbl_max reduce scheds [] 3 8 coords [with_state stress] [KForce t0 t1] <> Ok d).
Proof.
  intros same keep coords stress. destruct (state_set_up same keep coords stress) as (d0 & E0 & V & B & U). split.
  - intros d E. rewrite E0 in E. injection E as <-. exact U.
  - intros dbl_max reduce scheds t0 t1 d E. unfold device_run in E.
    assert (E0' : forall K : kdata -> outcome kdata, obind (initialize same (lit "explicit") 3 8 coords) (fun d => obind (initialize_blocks keep (lit "explicit") [] [with_state stress] d) K) = K d0).
    { intros K. rewrite <- KokkosProofs5.obind_assoc. exact (f_equal (fun o => obind o K) E0). }
    rewrite E0' in E. destruct (compute_lumped_mass_data _ _ _ _ d0) as [d1| | |] eqn:E1; try discriminate. cbn [obind] in E.
    destruct (@mass_keeps _ _ _ _ _ _ _ B E1) as (T & I & conn & B1). unfold calls in E. cbn [length seq combine ofold fst snd call] in E.
    destruct (compute_internal_force _ _ _ _ _ d1) as [d2| | |] eqn:E2; try discriminate. clear E. unfold compute_internal_force in E2.
    repeat match type of E2 with obind ?x _ = _ => destruct x eqn:?; cbn [obind] in E2; try discriminate end.
    match goal with H : ofold (stress_block _ _ _ _) _ _ = Ok _ |- _ => rename H into S end. rewrite B1 in S. cbn [numbered length seq combine ofold] in S.
    unfold stress_block in S. repeat match type of S with obind (obind ?x _) _ = _ => destruct x eqn:?; cbn [obind] in S; try discriminate end.
    match goal with H : (if _ then _ else _) = Ok _ |- _ => rename H into Q end. rewrite T, I, V in Q. discriminate.
Qed.
Print Assumptions C70_state_variables_refuted.
(** C70, refuted corner: with a resize that keeps allocations of the right size, two blocks of one
    element each share their work arrays, so that the second block's coordinates and displacements
    replace the first one's before its forces are computed. *)
Definition one_element (id : nat) (conn : list nat) : mblock := MBlock id 1 8 conn (steady 1).
Theorem C70_shared_work_arrays_refuted : forall same coords conn conn',
  exists d, set_up_of same true coords [one_element 1 conn; one_element 2 conn'] = Ok d /\
    nth_error (kd_gref d) 0 = nth_error (kd_gref d) 1 /\ nth_error (kd_gdisp d) 0 = nth_error (kd_gdisp d) 1 /\ nth_error (kd_gforce d) 0 = nth_error (kd_gforce d) 1 /\ length (kd_gref d) = 2.
Proof.
  intros same coords conn conn'.
  assert (X : match set_up_of same true coords [one_element 1 conn; one_element 2 conn'] with Ok d => nth_error (kd_gref d) 0 = nth_error (kd_gref d) 1 /\ nth_error (kd_gdisp d) 0 = nth_error (kd_gdisp d) 1 /\ nth_error (kd_gforce d) 0 = nth_error (kd_gforce d) 1 /\ length (kd_gref d) = 2 | _ => False end).
  { destruct same; vm_compute; auto. }
  destruct (set_up_of same true coords _) as [d| | |]; [|contradiction..]. exists d. auto.
Qed.
Print Assumptions C70_shared_work_arrays_refuted.
