(** Property theorems C32 (explicit time integration), C58 (conservation and stability of the
    explicit scheme) and C59 (prescribed motion in explicit runs).
    Model: IntegratorModel.v, BcModel.v; vocabulary: IntegratorSpec.v, BcSpec.v. *)
From Verif Require Import Base ListLemmas Loops BcModel BcSpec BcProofs IntegratorModel IntegratorSpec IntegratorProofs IntegratorProofs2 IntegratorProofs3.
From Coq Require Import Reals Lra.
Local Open Scope nat_scope.
Set Implicit Arguments.

(** C32: on rank 0 a final time before the initial time is refused; otherwise, if the force
    computations never fail, the run completes. *)
Theorem C32_completes :
  forall S (ph : physics S) cfg N st, start_ok N cfg st ->
    (rc_rank cfg = 0 -> (rc_initial cfg <= rc_final cfg)%R) ->
    (forall old new t t' d, exists r, ph_internal ph old new t t' d = Ok r) ->
    (forall g, ph_contact ph = Some g -> forall k d, exists r, g k d = Ok r) ->
    exists s, integrate ph cfg N st = Ok s.
Proof.
  intros S ph cfg N st H0 Hr Hi Hc. destruct (start_cases H0) as (s0 & Hs & E). unfold integrate. rewrite E.
  replace ((rc_rank cfg =? 0) && (if Rlt_dec (rc_final cfg) (rc_initial cfg) then true else false)) with false.
  2: { symmetry. destruct (Nat.eqb_spec (rc_rank cfg) 0) as [Hz|]; auto. simpl. specialize (Hr Hz).
    destruct (Rlt_dec (rc_final cfg) (rc_initial cfg)); auto. lra. }
  cbn [obind].
  destruct (@oloop_ind _ (fun _ s => good N (i_mgr st) (i_ref st) s) 0 (Z.to_nat (rc_load_steps cfg)) (explicit_step ph cfg N) s0)
    as (s & Es & _); [lia|apply Hs| |now exists s].
  intros k s _ G.
  destruct (Hi (i_old s) (i_new s) (i_time s) (i_time s + user_step cfg)%R (axv N (k_disp (i_kin s)) (user_step cfg)
        (bcv N (i_mgr st) (i_ref st) (user_step cfg) (i_time s + user_step cfg) (k_disp (i_kin s)) (axv N (k_vel (i_kin s)) (user_step cfg / 2) (i_acc s)))))
    as ([new f] & Ef).
  assert (Hfc : exists fc, match ph_contact ph, fc with
    | Some g, Some fc => g (k + 1) (axv N (k_disp (i_kin s)) (user_step cfg)
        (bcv N (i_mgr st) (i_ref st) (user_step cfg) (i_time s + user_step cfg) (k_disp (i_kin s)) (axv N (k_vel (i_kin s)) (user_step cfg / 2) (i_acc s)))) = Ok fc
    | None, None => True | _, _ => False end).
  { destruct (ph_contact ph) as [g|] eqn:Eg; [|now exists None]. 
    match goal with |- exists _, match _ with Some _ => g ?a ?b = _ | None => _ end => destruct (Hc g eq_refl a b) as (r & Er) end.
    now exists (Some r). }
  destruct Hfc as (fc & Hfc).
  destruct (@step_ok S ph cfg N (i_mgr st) (i_ref st) (so_bc H0) (so_dim H0) (so_scheme H0) (so_ref H0) (so_mass H0) k s new f fc G Ef Hfc) as (s' & E' & Hs').
  exists s'. split; auto. apply Hs'.
Qed.
Print Assumptions C32_completes.

Theorem C32_rejects_reversed_times :
  forall S (ph : physics S) cfg N st, rc_rank cfg = 0 -> (rc_final cfg < rc_initial cfg)%R -> integrate ph cfg N st = Throw.
Proof.
  intros S ph cfg N st Hr Hlt. unfold integrate, explicit_start. rewrite Hr. simpl.
  destruct (Rlt_dec (rc_final cfg) (rc_initial cfg)); [reflexivity|contradiction].
Qed.
Print Assumptions C32_rejects_reversed_times.

(** The schedule: a run makes the requested number of equal steps, ends at the final time, and
    writes the initial state and then the state after each requested step, at exactly those
    times. *)
Theorem C32_schedule :
  forall S (ph : physics S) cfg N st s, start_ok N cfg st -> integrate ph cfg N st = Ok s ->
    map w_time (i_out s) =
      rc_initial cfg :: map (fun k => time_after cfg (k + 1)) (filter (wanted cfg) (seq 0 (steps cfg))) /\
    ((0 < rc_load_steps cfg)%Z -> i_time s = rc_final cfg /\
       (rc_frequency cfg <> 0%Z -> last (map w_time (i_out s)) 0%R = rc_final cfg)) /\
    (rc_frequency cfg = 0%Z -> length (i_out s) = 1).
Proof.
  intros S ph cfg N st s H0 E. destruct (integrate_traj ph H0 E) as (_ & tr & Hs & Tn & T).
  assert (Ht : forall k, k <= steps cfg -> i_time (tr k) = time_after cfg k).
  { intros k Hk. rewrite (traj_time (so_dim H0) (so_mass H0) T Hk), (sd_time Hs). reflexivity. }
  assert (Hm : map w_time (i_out s) =
      rc_initial cfg :: map (fun k => time_after cfg (k + 1)) (filter (wanted cfg) (seq 0 (steps cfg)))).
  { rewrite <- Tn, (out_list H0 Hs T). simpl. rewrite (sd_time Hs). f_equal. rewrite map_map. apply map_ext_in.
    intros k Hk. apply filter_In in Hk. destruct Hk as [Hk _]. apply in_seq in Hk. simpl. apply Ht. lia. }
  assert (Hend : (0 < rc_load_steps cfg)%Z -> time_after cfg (steps cfg) = rc_final cfg).
  { intros Hp. unfold time_after, step_length, steps. rewrite INR_IZR_INZ, Z2Nat.id by lia. field.
    apply not_0_IZR. lia. }
  split; auto. split.
  - intros Hp. split; [rewrite <- Tn, Ht, Hend; auto|]. intros Hf. rewrite Hm.
    assert (Hn : exists m, steps cfg = m + 1). { exists (steps cfg - 1). unfold steps. lia. }
    destruct Hn as (m & Hm'). rewrite Hm', seq_app, filter_app, map_app. simpl seq.
    assert (Hw : wanted cfg m = true).
    { unfold wanted. apply Z.eqb_neq in Hf. rewrite Hf, Hm', Nat.eqb_refl. now rewrite orb_true_r. }
    simpl filter. rewrite Hw. simpl map. rewrite app_comm_cons, last_last. rewrite <- Hm'. auto.
  - intros Hf. apply (f_equal (@length _)) in Hm. rewrite map_length in Hm. rewrite Hm. simpl. f_equal. rewrite map_length.
    replace (filter (wanted cfg) (seq 0 (steps cfg))) with (@nil nat); auto.
    generalize (seq 0 (steps cfg)). induction l as [|a l IH]; simpl; auto. unfold wanted at 1. rewrite Hf. simpl. auto.
Qed.
Print Assumptions C32_schedule.

(** The first record holds the given displacement; where nothing is prescribed its velocity is
    the initial velocity condition (the last one naming the entry). *)
Theorem C32_initial_record :
  forall S (ph : physics S) cfg N st s w, start_ok N cfg st -> integrate ph cfg N st = Ok s ->
    nth_error (i_out s) 0 = Some w ->
    w_disp w = k_disp (i_kin st) /\
    forall n c, free (i_mgr st) n c ->
      ((forall b, In b (mg_bcs (i_mgr st)) -> bc_kind b = INITIAL_VELOCITY -> covers (i_mgr st) b n c = false) ->
         v_at (w_vel w) n c = v_at (k_vel (i_kin st)) n c) /\
      (forall l1 b l2, mg_bcs (i_mgr st) = l1 ++ b :: l2 -> bc_kind b = INITIAL_VELOCITY -> covers (i_mgr st) b n c = true ->
         (forall b', In b' l2 -> bc_kind b' = INITIAL_VELOCITY -> covers (i_mgr st) b' n c = false) ->
         v_at (w_vel w) n c = value_at (i_mgr st) (i_ref st) 0%R n b).
Proof.
  intros S ph cfg N st s w H0 E Hw. destruct (integrate_traj ph H0 E) as (_ & tr & Hs & Tn & T).
  rewrite <- Tn, (out_list H0 Hs T) in Hw. injection Hw as <-. split; [apply (sd_disp Hs)|].
  intros n c Hf. simpl. destruct (sd_vel Hs) as (v & -> & Hv). rewrite bcv_free by auto. rewrite Hv.
  assert (Hidle : forall l x, (forall b, In b l -> bc_kind b = INITIAL_VELOCITY -> covers (i_mgr st) b n c = false) ->
     fold_left (init_effect (i_mgr st) (i_ref st) n c) l x = x).
  { induction l as [|b l IH]; intros x Hl; simpl; auto. rewrite IH by (intros; apply Hl; auto; now right).
    unfold init_effect. destruct (covers (i_mgr st) b n c) eqn:Ec; auto. destruct (bc_kind b) eqn:Ek; auto.
    rewrite (Hl b) in Ec; [discriminate|now left|auto]. }
  split.
  - intros Hb. now apply Hidle.
  - intros l1 b l2 -> Hk Hc Hl2. rewrite fold_left_app. simpl. rewrite Hidle by auto. unfold init_effect. now rewrite Hc, Hk.
Qed.
Print Assumptions C32_initial_record.

(** The equation of motion: with output after every step, in three consecutive records an entry
    without prescribed motion satisfies mass times second difference of the displacement = step
    length squared times force, the velocity is the central difference, the acceleration is
    force over mass; the first step moves with the initial velocity. *)
Theorem C32_equation_of_motion :
  forall S (ph : physics S) cfg N st s, start_ok N cfg st -> writes_all cfg -> integrate ph cfg N st = Ok s ->
    let h := step_length cfg in
    forall n c, n < N -> c < 3 -> free (i_mgr st) n c -> mass_of cfg n <> 0%R ->
    (forall k w0 w1 w2, nth_error (i_out s) k = Some w0 -> nth_error (i_out s) (k + 1) = Some w1 ->
       nth_error (i_out s) (k + 2) = Some w2 ->
       (mass_of cfg n * (v_at (w_disp w2) n c - 2 * v_at (w_disp w1) n c + v_at (w_disp w0) n c) =
          h * h * total_force ph w1 n c)%R /\
       (2 * h * v_at (w_vel w1) n c = v_at (w_disp w2) n c - v_at (w_disp w0) n c)%R /\
       (mass_of cfg n * v_at (w_acc w1) n c = total_force ph w1 n c)%R) /\
    (forall w0 w1, nth_error (i_out s) 0 = Some w0 -> nth_error (i_out s) 1 = Some w1 ->
       v_at (w_disp w1) n c = (v_at (w_disp w0) n c + h * v_at (w_vel w0) n c)%R).
Proof.
  intros S ph cfg N st s H0 Hw E h n c Hn Hc Hf Hm. destruct (integrate_traj ph H0 E) as (_ & tr & Hs & Tn & T). subst s.
  split.
  - intros k w0 w1 w2 E0 E1 E2. apply (out_nth H0 _ Hw Hs T) in E0, E1, E2.
    destruct E0 as [K0 ->], E1 as [K1 ->], E2 as [K2 ->].
    pose proof (@step_free S ph cfg N st k (tr k) _ n c (tr_step T (k := k) ltac:(lia)) Hf Hn Hc) as (A1 & A2 & A3).
    pose proof (@step_free S ph cfg N st (k + 1) (tr (k + 1)) _ n c (tr_step T (k := k + 1) ltac:(lia)) Hf Hn Hc) as (B1 & B2 & B3).
    replace (k + 1 + 1) with (k + 2) in * by lia. fold h in A1, A2, B1, B2.
    unfold written_of, total_force. cbn [w_disp w_vel w_acc w_int w_ext w_con].
    unfold acc_entry in A3.
    set (F := (v_at (i_int (tr (k + 1)%nat)) n c + v_at (i_ext (tr (k + 1)%nat)) n c +
         match ph_contact ph with Some _ => v_at (i_con (tr (k + 1)%nat)) n c | None => 0 end)%R) in *.
    rewrite B1, A2, A1, A3. split; [|split]; field; auto.
  - intros w0 w1 E0 E1. apply (out_nth H0 _ Hw Hs T) in E0, E1. destruct E0 as [K0 ->], E1 as [K1 ->].
    pose proof (@step_free S ph cfg N st 0 (tr 0) _ n c (tr_step T (k := 0) ltac:(lia)) Hf Hn Hc) as (A1 & A2 & A3).
    simpl in A1. simpl. rewrite A1. destruct (sd_rest Hs) as (-> & _). rewrite (so_acc0 H0). fold h. ring.
Qed.
Print Assumptions C32_equation_of_motion.

(** The forces in the records are the ones the material and contact models give for the recorded
    displacement and times, the element state being handed from step to step: the state left by
    one step is the old state of the next. *)
Theorem C32_forces_of_records :
  forall S (ph : physics S) cfg N st s, start_ok N cfg st -> writes_all cfg -> integrate ph cfg N st = Ok s ->
    exists state other : nat -> S, state 0 = i_old st /\
    forall k w w', nth_error (i_out s) k = Some w -> nth_error (i_out s) (k + 1) = Some w' ->
      (exists f, ph_internal ph (state k) (other k) (w_time w) (w_time w') (w_disp w') = Ok (state (k + 1), f) /\
         forall n c, v_at (w_int w') n c = f n c) /\
      (forall n c, v_at (w_ext w') n c = 0%R) /\
      (forall g, ph_contact ph = Some g -> exists f, g (k + 1) (w_disp w') = Ok f /\ forall n c, v_at (w_con w') n c = f n c).
Proof.
  intros S ph cfg N st s H0 Hw E. destruct (integrate_traj ph H0 E) as (_ & tr & Hs & Tn & T). subst s.
  exists (fun k => i_old (tr k)), (fun k => i_new (tr k)). split; [apply (sd_rest Hs)|].
  intros k w w' E0 E1. apply (out_nth H0 _ Hw Hs T) in E0, E1. destruct E0 as [K0 ->], E1 as [K1 ->].
  pose proof (tr_step T (k := k) ltac:(lia)) as Es. cbn [written_of w_disp w_time w_int w_ext w_con].
  destruct (se_int Es) as (f & Ef & Ei). rewrite (se_time Es). split; [|split].
  - exists f. split; auto. intros. now rewrite Ei.
  - intros. now rewrite (se_ext Es).
  - intros g Eg. pose proof (se_con Es) as Ec. rewrite Eg in Ec. destruct Ec as (fc & Efc & ->). exists fc. auto.
Qed.
Print Assumptions C32_forces_of_records.

(** Asking for less output changes nothing else: the records are the selected ones of the run
    that writes every step. *)
Theorem C32_output_frequency :
  forall S (ph : physics S) cfg N st s, start_ok N cfg st -> integrate ph cfg N st = Ok s ->
    exists s1 record, integrate ph (every_step cfg) N st = Ok s1 /\
      i_out s1 = map record (seq 0 (steps cfg + 1)) /\
      i_out s = record 0 :: map (fun k => record (k + 1)) (filter (wanted cfg) (seq 0 (steps cfg))).
Proof.
  intros S ph cfg N st s H0 E. destruct (start_cases H0) as (s0 & Hs & Es). unfold integrate in *. rewrite Es in E.
  change (explicit_start (every_step cfg) st) with (explicit_start cfg st). rewrite Es.
  destruct (_ && _); [discriminate|]. cbn [obind] in *. change (rc_load_steps (every_step cfg)) with (rc_load_steps cfg).
  destruct (@rel_run S ph cfg N (i_mgr st) (i_ref st) (so_bc H0) (so_dim H0) (so_scheme H0) (so_ref H0) (so_mass H0) s0 s _ (sd_good Hs) (sd_out Hs) E)
    as (s1 & l & E1 & O1 & O).
  exists s1, l. split; auto. split; auto. rewrite O. f_equal. f_equal. apply filter_ext_in. intros k Hk. apply in_seq in Hk.
  apply is_output_wanted. unfold steps in *. lia.
Qed.
Print Assumptions C32_output_frequency.

(** C58: conservation of momentum.  If nothing is prescribed and the forces of every record sum
    to zero, every record has the same momentum and the centre of mass moves uniformly. *)
Theorem C58_momentum :
  forall S (ph : physics S) cfg N st s, start_ok N cfg st -> writes_all cfg -> integrate ph cfg N st = Ok s ->
    forall c, c < 3 -> (forall n, n < N -> free (i_mgr st) n c /\ mass_of cfg n <> 0%R) ->
    (forall k w, nth_error (i_out s) (k + 1) = Some w -> Rsum N (fun n => total_force ph w n c) = 0%R) ->
    forall k w0 w, nth_error (i_out s) 0 = Some w0 -> nth_error (i_out s) k = Some w ->
      momentum cfg N w c = momentum cfg N w0 c /\
      mass_centre cfg N w c = (mass_centre cfg N w0 c + INR k * step_length cfg * momentum cfg N w0 c)%R.
Proof.
  intros S ph cfg N st s H0 Hw E c Hc Hn Hsum. destruct (integrate_traj ph H0 E) as (_ & tr & Hs & Tn & T). subst s.
  set (h := step_length cfg).
  (* momentum and force resultant along the trajectory *)
  set (P := fun k => Rsum N (fun n => mass_of cfg n * v_at (k_vel (i_kin (tr k))) n c)%R).
  set (A := fun k => Rsum N (fun n => mass_of cfg n * v_at (i_acc (tr k)) n c)%R).
  set (C := fun k => Rsum N (fun n => mass_of cfg n * v_at (k_disp (i_kin (tr k))) n c)%R).
  assert (HA : forall k, k <= steps cfg -> A k = 0%R).
  { intros [|k] Hk.
    - apply Rsum_zero. intros n _. destruct (sd_rest Hs) as (-> & _). rewrite (so_acc0 H0). ring.
    - rewrite <- Nat.add_1_r. unfold A.
      transitivity (Rsum N (fun n => total_force ph (written_of (tr (k + 1))) n c)).
      + apply Rsum_ext. intros n Hn'. destruct (Hn n Hn') as [Hf Hm].
        destruct (@step_free S ph cfg N st k (tr k) _ n c (tr_step T (k := k) ltac:(lia)) Hf Hn' Hc) as (_ & _ & ->).
        unfold acc_entry, total_force, written_of. cbn [w_int w_ext w_con]. field. auto.
      + apply (Hsum k). rewrite (out_all H0 Hw Hs T), nth_error_map.
        rewrite (nth_error_nth' _ 0) by (rewrite seq_length; lia). rewrite seq_nth by lia. reflexivity. }
  assert (HPC : forall k, k < steps cfg -> P (k + 1) = (P k + h / 2 * A k + h / 2 * A (k + 1)%nat)%R /\
                 C (k + 1) = (C k + h * (P k + h / 2 * A k))%R).
  { intros k Hk. unfold P, C, A. rewrite <- !Rsum_scal, <- !Rsum_plus, <- !Rsum_scal, <- !Rsum_plus. split; apply Rsum_ext; intros n Hn'; destruct (Hn n Hn') as [Hf Hm];
      destruct (@step_free S ph cfg N st k (tr k) _ n c (tr_step T (k := k) ltac:(lia)) Hf Hn' Hc) as (E1 & E2 & _).
    - rewrite E2. unfold h. ring.
    - rewrite E1. unfold h. ring. }
  assert (G : forall k, k <= steps cfg -> P k = P 0 /\ C k = (C 0%nat + INR k * h * P 0%nat)%R).
  { induction k as [|k IH]; intros Hk; [split; auto; simpl; ring|].
    destruct (IH ltac:(lia)) as [IP IC]. destruct (HPC k ltac:(lia)) as [SP SC]. rewrite (HA k), (HA (k + 1)%nat) in * by lia.
    rewrite <- Nat.add_1_r, SP, SC, IP, IC, plus_INR. simpl. split; ring. }
  intros k w0 w E0 E1. apply (out_nth H0 _ Hw Hs T) in E0, E1. destruct E0 as [K0 ->], E1 as [K1 ->].
  apply (G k K1).
Qed.
Print Assumptions C58_momentum.

(** Conservation of angular momentum, if the forces have no resulting moment either. *)
Theorem C58_angular_momentum :
  forall S (ph : physics S) cfg N st s, start_ok N cfg st -> writes_all cfg -> integrate ph cfg N st = Ok s ->
    forall i j, i < 3 -> j < 3 ->
    (forall n, n < N -> free (i_mgr st) n i /\ free (i_mgr st) n j /\ mass_of cfg n <> 0%R) ->
    (forall k w, nth_error (i_out s) (k + 1) = Some w -> moment_of N (i_ref st) w (total_force ph w) i j = 0%R) ->
    forall k w0 w, nth_error (i_out s) 0 = Some w0 -> nth_error (i_out s) k = Some w ->
      angular_momentum cfg N (i_ref st) w i j = angular_momentum cfg N (i_ref st) w0 i j.
Proof.
  intros S ph cfg N st s H0 Hw E i j Hi Hj Hn Hsum. destruct (integrate_traj ph H0 E) as (_ & tr & Hs & Tn & T). subst s.
  set (h := step_length cfg). set (W := fun k => written_of (tr k)).
  set (L := fun k => angular_momentum cfg N (i_ref st) (W k) i j).
  set (Q := fun k => moment_of N (i_ref st) (W k) (fun n c => mass_of cfg n * v_at (i_acc (tr k)) n c)%R i j).
  assert (HQ : forall k, k <= steps cfg -> Q k = 0%R).
  { intros [|k] Hk.
    - apply Rsum_zero. intros n _. destruct (sd_rest Hs) as (-> & _). rewrite !(so_acc0 H0). ring.
    - rewrite <- Nat.add_1_r. rewrite <- (Hsum k (W (k + 1))).
      2: { rewrite (out_all H0 Hw Hs T), nth_error_map.
        rewrite (nth_error_nth' _ 0) by (rewrite seq_length; lia). rewrite seq_nth by lia. reflexivity. }
      apply Rsum_ext. intros n Hn'. destruct (Hn n Hn') as (Hf & Hf' & Hm).
      destruct (@step_free S ph cfg N st k (tr k) _ n i (tr_step T (k := k) ltac:(lia)) Hf Hn' Hi) as (_ & _ & ->).
      destruct (@step_free S ph cfg N st k (tr k) _ n j (tr_step T (k := k) ltac:(lia)) Hf' Hn' Hj) as (_ & _ & ->).
      unfold acc_entry, total_force, W, written_of. cbn [w_int w_ext w_con]. field. auto. }
  assert (HL : forall k, k < steps cfg -> L (k + 1) = (L k + h / 2 * Q k + h / 2 * Q (k + 1)%nat)%R).
  { intros k Hk. unfold L, Q, angular_momentum, moment_of. rewrite <- !Rsum_scal, <- !Rsum_plus. apply Rsum_ext.
    intros n Hn'. destruct (Hn n Hn') as (Hf & Hf' & Hm).
    destruct (@step_free S ph cfg N st k (tr k) _ n i (tr_step T (k := k) ltac:(lia)) Hf Hn' Hi) as (E1 & E2 & _).
    destruct (@step_free S ph cfg N st k (tr k) _ n j (tr_step T (k := k) ltac:(lia)) Hf' Hn' Hj) as (E3 & E4 & _).
    unfold W, written_of. cbn [w_disp w_vel]. rewrite E1, E2, E3, E4. unfold h. field. }
  assert (G : forall k, k <= steps cfg -> L k = L 0).
  { induction k as [|k IH]; intros Hk; auto. rewrite <- Nat.add_1_r, HL, HQ, HQ, IH by lia. ring. }
  intros k w0 w E0 E1. apply (out_nth H0 _ Hw Hs T) in E0, E1. destruct E0 as [K0 ->], E1 as [K1 ->].
  apply (G k K1).
Qed.
Print Assumptions C58_angular_momentum.

(** Energy: for a linear symmetric force law the discrete energy of consecutive records never
    changes, whatever the number of steps. *)
Theorem C58_energy :
  forall S (ph : physics S) cfg N st s K, start_ok N cfg st -> writes_all cfg -> integrate ph cfg N st = Ok s ->
    (forall n c n' c', n < N -> c < 3 -> n' < N -> c' < 3 -> K n c n' c' = K n' c' n c) ->
    step_length cfg <> 0%R ->
    (forall n c, n < N -> c < 3 -> free (i_mgr st) n c /\ mass_of cfg n <> 0%R) ->
    (forall k w n c, n < N -> c < 3 -> nth_error (i_out s) (k + 1) = Some w ->
       total_force ph w n c = (- stiffness_times N K (v_at (w_disp w)) n c)%R) ->
    forall k w0 w1 w w', nth_error (i_out s) 0 = Some w0 -> nth_error (i_out s) 1 = Some w1 ->
      nth_error (i_out s) k = Some w -> nth_error (i_out s) (k + 1) = Some w' ->
      energy2 cfg N K w w' = energy2 cfg N K w0 w1.
Proof.
  intros S ph cfg N st s K H0 Hw E Ks Hh Hn Hlin k w0 w1 w w' E0 E1.
  revert w w'. induction k as [|k IH]; intros w w' Ek Ek'.
  - change (0 + 1) with 1 in Ek'. assert (w = w0) by congruence. assert (w' = w1) by congruence. now subst.
  - replace (Datatypes.S k) with (k + 1) in Ek by lia. replace (Datatypes.S k + 1) with (k + 2) in Ek' by lia.
    assert (Ep : exists v, nth_error (i_out s) k = Some v).
    { destruct (nth_error (i_out s) k) eqn:Ev; [eauto|]. apply nth_error_None in Ev.
      assert (nth_error (i_out s) (k + 1) = None) by (apply nth_error_None; lia). congruence. }
    destruct Ep as (v & Ev). rewrite <- (IH v w Ev Ek). unfold energy2.
    set (h := step_length cfg) in *. set (d0 := v_at (w_disp v)). set (d1 := v_at (w_disp w)). set (d2 := v_at (w_disp w')).
    assert (Hmm : (mass_form cfg N (step_velocity cfg w w') - mass_form cfg N (step_velocity cfg v w) =
        - (quadratic N K d2 d1 - quadratic N K d0 d1))%R).
    { unfold mass_form, quadratic. rewrite <- !nodal_minus.
      transitivity (nodal_sum N (fun n c => (-1) * (d2 n c * stiffness_times N K d1 n c - d0 n c * stiffness_times N K d1 n c))%R).
      2: { rewrite nodal_scal. ring. }
      apply nodal_ext. intros n c Hn' Hc. destruct (Hn n c Hn' Hc) as [Hf Hm].
      destruct (@C32_equation_of_motion S ph cfg N st s H0 Hw E n c Hn' Hc Hf Hm) as [Eq _].
      destruct (Eq k v w w' Ev Ek Ek') as (E2 & _). rewrite (Hlin k w n c Hn' Hc Ek) in E2.
      unfold step_velocity. fold h d0 d1 d2 in E2 |- *.
      assert (Es : stiffness_times N K d1 n c = (- (mass_of cfg n * (d2 n c - 2 * d1 n c + d0 n c)) / (h * h))%R).
      { rewrite E2. field. auto. }
      rewrite Es. field. auto. }
    rewrite (@quad_sym N K Ks d1 d0). lra.
Qed.
Print Assumptions C58_energy.

(** Stability: if moreover the stiffness is positive semidefinite and the step stays below the
    critical one by a factor (theta < 1 in h^2/4 a.Ka <= theta a.Ma), then the velocities of all
    steps of arbitrarily long runs stay within a bound fixed by the first step. *)
Theorem C58_stability :
  forall S (ph : physics S) cfg N st s K theta, start_ok N cfg st -> writes_all cfg -> integrate ph cfg N st = Ok s ->
    (forall n c n' c', n < N -> c < 3 -> n' < N -> c' < 3 -> K n c n' c' = K n' c' n c) ->
    step_length cfg <> 0%R ->
    (forall n c, n < N -> c < 3 -> free (i_mgr st) n c /\ (0 < mass_of cfg n)%R) ->
    (forall k w n c, n < N -> c < 3 -> nth_error (i_out s) (k + 1) = Some w ->
       total_force ph w n c = (- stiffness_times N K (v_at (w_disp w)) n c)%R) ->
    (forall a, 0 <= quadratic N K a a)%R ->
    (theta < 1)%R -> (forall a, step_length cfg * step_length cfg / 4 * quadratic N K a a <= theta * mass_form cfg N a)%R ->
    forall k w0 w1 w w', nth_error (i_out s) 0 = Some w0 -> nth_error (i_out s) 1 = Some w1 ->
      nth_error (i_out s) k = Some w -> nth_error (i_out s) (k + 1) = Some w' ->
      (mass_form cfg N (step_velocity cfg w w') <= energy2 cfg N K w0 w1 / (1 - theta))%R /\
      (quadratic N K (fun n c => (v_at (w_disp w) n c + v_at (w_disp w') n c) / 2)%R
                     (fun n c => (v_at (w_disp w) n c + v_at (w_disp w') n c) / 2)%R <= energy2 cfg N K w0 w1)%R.
Proof.
  intros S ph cfg N st s K theta H0 Hw E Ks Hh Hn Hlin Hpsd Hth Hcr k w0 w1 w w' E0 E1 Ek Ek'.
  pose proof (@C58_energy S ph cfg N st s K H0 Hw E Ks Hh (fun n c Hn' Hc => conj (proj1 (Hn n c Hn' Hc)) (Rgt_not_eq _ _ (proj2 (Hn n c Hn' Hc)))) Hlin k w0 w1 w w' E0 E1 Ek Ek') as He.
  set (h := step_length cfg) in *. set (d0 := v_at (w_disp w)) in *. set (d1 := v_at (w_disp w')) in *.
  rewrite <- He. clear He. unfold energy2. fold d0 d1.
  set (v := step_velocity cfg w w'). set (m := fun n c => ((d0 n c + d1 n c) / 2)%R).
  assert (Ev : forall n c, d1 n c = (m n c + (h / 2) * v n c)%R).
  { intros n c. unfold m, v, step_velocity. fold d0 d1 h. field. auto. }
  assert (Ev' : forall n c, d0 n c = (m n c + (- (h / 2)) * v n c)%R).
  { intros n c. unfold m, v, step_velocity. fold d0 d1 h. field. auto. }
  assert (Eq : quadratic N K d1 d0 = (quadratic N K m m - h * h / 4 * quadratic N K v v)%R).
  { transitivity (quadratic N K (fun n c => m n c + (h / 2) * v n c)%R (fun n c => m n c + (- (h / 2)) * v n c)%R).
    - unfold quadratic, stiffness_times. apply nodal_ext. intros n c _ _. rewrite <- Ev. f_equal.
      apply nodal_ext. intros; now rewrite <- Ev'.
    - rewrite quad_lin_l, !(@quad_lin_r N K Ks). rewrite (@quad_sym N K Ks v m). field. }
  rewrite Eq. specialize (Hcr v). pose proof (Hpsd m) as Hm. pose proof (Hpsd v) as Hv.
  set (M := mass_form cfg N v) in *. set (q := quadratic N K v v) in *. set (Q := quadratic N K m m) in *.
  assert (Hhq : (0 <= h * h / 4 * q)%R).
  { apply Rmult_le_pos; auto. pose proof (Rle_0_sqr h) as Hsq. unfold Rsqr in Hsq. lra. }
  assert (HM : (0 <= M)%R).
  { apply nodal_nonneg. intros n c Hn' Hc. destruct (Hn n c Hn' Hc) as [_ Hpos]. apply Rmult_le_pos; [lra|].
    apply Rle_0_sqr. }
  split.
  - apply (Rmult_le_reg_r (1 - theta)); [lra|]. unfold Rdiv. rewrite Rmult_assoc, Rinv_l by lra. lra.
  - assert (h * h / 4 * q <= M)%R; [nra|lra].
Qed.
Print Assumptions C58_stability.

(** C59: prescribed motion.  With output after every step and a positive step length: an entry
    whose last kinematic condition prescribes the displacement has exactly the prescribed value
    in every record after the first; one whose last condition prescribes the velocity has exactly
    that velocity, and its displacement advances by it. *)
Theorem C59_prescribed_motion :
  forall S (ph : physics S) cfg N st s, start_ok N cfg st -> writes_all cfg -> (0 < step_length cfg)%R ->
    integrate ph cfg N st = Ok s ->
    forall k w w', nth_error (i_out s) k = Some w -> nth_error (i_out s) (k + 1) = Some w' ->
    forall n c b, last_driver (i_mgr st) n c b ->
      let x := value_at (i_mgr st) (i_ref st) (time_after cfg (k + 1)) n b in
      match bc_kind b with
      | PRESCRIBED_DISPLACEMENT => v_at (w_disp w') n c = x
      | PRESCRIBED_VELOCITY => v_at (w_vel w') n c = x /\ v_at (w_disp w') n c = (v_at (w_disp w) n c + step_length cfg * x)%R
      | _ => True
      end.
Proof.
  intros S ph cfg N st s H0 Hw Hh E k w w' E0 E1 n c b Hb x. destruct (integrate_traj ph H0 E) as (_ & tr & Hs & Tn & T). subst s.
  apply (out_nth H0 _ Hw Hs T) in E0, E1. destruct E0 as [K0 ->], E1 as [K1 ->].
  pose proof (tr_step T (k := k) ltac:(lia)) as Es. cbn [written_of w_disp w_vel].
  assert (Ht : (i_time (tr k) + user_step cfg)%R = time_after cfg (k + 1)).
  { rewrite <- (se_time Es), (traj_time (so_dim H0) (so_mass H0) T K1), (sd_time Hs). reflexivity. }
  assert (Ho : is_output cfg k = true) by (rewrite is_output_wanted by lia; now apply all_wanted).
  change (user_step cfg) with (step_length cfg) in Ht.
  destruct (bc_kind b) eqn:Ek; auto.
  - split.
    + rewrite (se_vel Es), Ho. change (user_step cfg) with (step_length cfg). rewrite Ht. now apply bcv_velocity.
    + rewrite (se_disp Es). change (user_step cfg) with (step_length cfg). rewrite Ht. unfold axv at 1. cbn [v_at].
      now rewrite (@bcv_velocity _ _ _ _ _ _ _ _ _ b).
  - rewrite (se_disp Es). change (user_step cfg) with (step_length cfg). rewrite Ht. unfold axv at 1. cbn [v_at].
    rewrite (@bcv_displacement _ _ _ _ _ _ _ _ _ b) by (auto; apply (so_scheme H0)). fold x. field. lra.
Qed.
Print Assumptions C59_prescribed_motion.

(** Refuted: the velocity reported for a prescribed displacement is always zero in the records
    after the first, however fast the node moves (the boundary conditions are applied once more
    after the displacement has reached its new value). *)
Theorem C59_reported_velocity_refuted :
  forall S (ph : physics S) cfg N st s, start_ok N cfg st -> writes_all cfg -> (0 < step_length cfg)%R ->
    integrate ph cfg N st = Ok s ->
    forall k w w', nth_error (i_out s) k = Some w -> nth_error (i_out s) (k + 1) = Some w' ->
    forall n c b, last_driver (i_mgr st) n c b -> bc_kind b = PRESCRIBED_DISPLACEMENT -> v_at (w_vel w') n c = 0%R.
Proof.
  intros S ph cfg N st s H0 Hw Hh E k w w' E0 E1 n c b Hb Ek.
  pose proof (@C59_prescribed_motion S ph cfg N st s H0 Hw Hh E k w w' E0 E1 n c b Hb) as Hd. rewrite Ek in Hd. cbv zeta in Hd.
  destruct (integrate_traj ph H0 E) as (_ & tr & Hs & Tn & T). subst s.
  apply (out_nth H0 _ Hw Hs T) in E0, E1. destruct E0 as [K0 ->], E1 as [K1 ->].
  pose proof (tr_step T (k := k) ltac:(lia)) as Es. cbn [written_of w_disp w_vel] in *.
  assert (Ht : (i_time (tr k) + user_step cfg)%R = time_after cfg (k + 1)).
  { rewrite <- (se_time Es), (traj_time (so_dim H0) (so_mass H0) T K1), (sd_time Hs). reflexivity. }
  assert (Ho : is_output cfg k = true) by (rewrite is_output_wanted by lia; now apply all_wanted).
  change (user_step cfg) with (step_length cfg) in Ht.
  rewrite (se_vel Es), Ho. change (user_step cfg) with (step_length cfg). rewrite Ht.
  rewrite (@bcv_displacement _ _ _ _ _ _ _ _ _ b) by (auto; apply (so_scheme H0)). rewrite Hd. unfold Rdiv, Rminus. rewrite Rplus_opp_r. ring.
Qed.
Print Assumptions C59_reported_velocity_refuted.

(** A concrete run meeting the hypotheses: two nodes, a spring between their x components, node 1
    moved in y by a prescribed displacement, node 0 in z by a prescribed velocity. *)
Definition ex_view (f : nat -> nat -> R) : view := View 2 3 f.
Definition ex_zero : view := ex_view (fun _ _ => 0%R).
Definition ex_spring (n c n' c' : nat) : R := if (c =? 0) && (c' =? 0) then (if n =? n' then 1 else -1)%R else 0%R.
Definition ex_phys : physics unit :=
  Physics (fun _ _ _ _ d => Ok (tt, fun n c => (- stiffness_times 2 ex_spring (v_at d) n c)%R)) None.
Definition ex_cfg : run_config := Config 0 0 1 4 1 [1; 2]%R.
Definition ex_start : istate unit := IState
  (Mgr [(1%Z, [0]); (2%Z, [1])]
     [BC PRESCRIBED_DISPLACEMENT 2 (-1) 1 (Expression (fun x y z t => t)); BC PRESCRIBED_VELOCITY 1 (-1) 2 (Magnitude 3);
      BC INITIAL_VELOCITY 1 (-1) 0 (Magnitude 5)] 3 EXPLICIT)
  ex_zero (Kin ex_zero ex_zero []) ex_zero ex_zero ex_zero ex_zero tt tt 0%R [].
Example C32_ex_start : start_ok 2 ex_cfg ex_start.
Proof.
  split; try (split; reflexivity); try reflexivity.
  split; simpl; auto.
  - intros b [<-|[<-|[<-|[]]]]; simpl; lia.
  - intros id n. unfold node_set. simpl. destruct (Z.eqb id 1); [simpl; intuition lia|].
    destruct (Z.eqb id 2); simpl; intuition lia.
  - intros id. unfold node_set. simpl. destruct (Z.eqb id 1).
    + repeat constructor; simpl; intuition lia.
    + destruct (Z.eqb id 2); repeat constructor; simpl; auto.
Qed.
Example C32_ex_runs : exists s, integrate ex_phys ex_cfg 2 ex_start = Ok s.
Proof.
  apply (C32_completes ex_phys C32_ex_start).
  - intros _. simpl. lra.
  - intros. eexists. reflexivity.
  - discriminate.
Qed.
Example C32_ex_free : free (i_mgr ex_start) 0 0 /\ free (i_mgr ex_start) 1 0.
Proof. split; intros b [<-|[<-|[<-|[]]]] [H|H]; discriminate H || reflexivity. Qed.
Example C59_ex_driver : last_driver (i_mgr ex_start) 1 1 (BC PRESCRIBED_DISPLACEMENT 2 (-1) 1 (Expression (fun x y z t => t))).
Proof.
  exists []. eexists. split; [reflexivity|]. split; [reflexivity|]. intros b [<-|[<-|[]]] _; reflexivity.
Qed.
(** ... and for the energy statements: the spring alone is symmetric, positive semidefinite, and
    a step of 1/4 is below critical with theta = 1/4. *)
Definition ex_free_start : istate unit := IState
  (Mgr [(1%Z, [0])] [BC INITIAL_VELOCITY 1 (-1) 0 (Magnitude 5)] 3 EXPLICIT)
  ex_zero (Kin ex_zero ex_zero []) ex_zero ex_zero ex_zero ex_zero tt tt 0%R [].
Example C58_ex : start_ok 2 ex_cfg ex_free_start /\
  (forall n c n' c', ex_spring n c n' c' = ex_spring n' c' n c) /\
  (forall n c, n < 2 -> c < 3 -> free (i_mgr ex_free_start) n c /\ (0 < mass_of ex_cfg n)%R) /\
  (forall a, (0 <= quadratic 2 ex_spring a a)%R) /\
  (forall a, (step_length ex_cfg * step_length ex_cfg / 4 * quadratic 2 ex_spring a a <= 1 / 4 * mass_form ex_cfg 2 a)%R).
Proof.
  assert (Hq : forall a, quadratic 2 ex_spring a a = ((a 0%nat 0%nat - a 1%nat 0%nat) * (a 0%nat 0%nat - a 1%nat 0%nat))%R).
  { intros a. unfold quadratic, stiffness_times, nodal_sum. cbn [Rsum]. unfold ex_spring. simpl. ring. }
  split; [|split; [|split; [|split]]].
  - split; try (split; reflexivity); try reflexivity.
    split; simpl; auto.
    + intros b [<-|[]]; simpl; lia.
    + intros id n. unfold node_set. simpl. destruct (Z.eqb id 1); simpl; intuition lia.
    + intros id. unfold node_set. simpl. destruct (Z.eqb id 1); repeat constructor; simpl; auto.
  - intros n c n' c'. unfold ex_spring. rewrite (andb_comm (c =? 0)), (Nat.eqb_sym n n'). reflexivity.
  - intros n c Hn Hc. split.
    + intros b [<-|[]] [H|H]; discriminate H.
    + destruct n as [|[|n]]; unfold mass_of; simpl; lra || lia.
  - intros a. rewrite Hq. apply Rle_0_sqr.
  - intros a. rewrite Hq. unfold mass_form, nodal_sum, mass_of, step_length. cbn [Rsum nth ex_cfg rc_mass rc_final rc_initial rc_load_steps].
    set (x := a 0%nat 0%nat). set (y := a 1%nat 0%nat).
    pose proof (Rle_0_sqr x). pose proof (Rle_0_sqr y). pose proof (Rle_0_sqr (x + y)).
    pose proof (Rle_0_sqr (a 0%nat 1%nat)). pose proof (Rle_0_sqr (a 0%nat 2%nat)). pose proof (Rle_0_sqr (a 1%nat 1%nat)). pose proof (Rle_0_sqr (a 1%nat 2%nat)).
    unfold Rsqr in *. lra.
Qed.
