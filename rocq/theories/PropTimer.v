(** C43: timers. *)
From Coq Require Import Reals Lra.
From Verif Require Import Base ListLemmas Strings TimerModel TimerSpec.
Set Implicit Arguments.
Local Open Scope R_scope.
Local Open Scope list_scope.

Lemma pow9 : 10 ^ 9 = 1000000000.
Proof. lra. Qed.
Lemma stop_total now k : k_total (keeper_stop now k) = k_total k + interval (k_start k) now.
Proof.
  unfold keeper_stop, interval, seconds. cbn [k_total]. rewrite pow9. destruct (Z.ltb_spec (k_start k) now).
  - rewrite Z.max_r by lia. reflexivity.
  - rewrite Z.max_l by lia. lra.
Qed.
Lemma interval_nonneg a b : 0 <= interval a b.
Proof. unfold interval. rewrite pow9. apply Rmult_le_pos; [apply IZR_le; lia|]. lra. Qed.

Lemma entry_set t n k m : entry (set_entry t n k) m = if list_eq_dec ascii_dec n m then k else entry t m.
Proof.
  unfold entry. induction t as [|(n' & k') t IH]; cbn [set_entry assoc].
  - unfold chars_eqb. destruct (list_eq_dec ascii_dec m n), (list_eq_dec ascii_dec n m); congruence.
  - unfold chars_eqb in *. destruct (list_eq_dec ascii_dec n n') as [->|Hn]; cbn [assoc].
    + destruct (list_eq_dec ascii_dec m n'), (list_eq_dec ascii_dec n' m); congruence.
    + destruct (list_eq_dec ascii_dec m n') as [->|Hm]; [destruct (list_eq_dec ascii_dec n n'); congruence|auto].
Qed.
Lemma known_set t n k m : assoc chars_eqb m (set_entry t n k) = None <-> m <> n /\ assoc chars_eqb m t = None.
Proof.
  unfold chars_eqb. induction t as [|(n' & k') t IH]; cbn [set_entry assoc].
  - destruct (list_eq_dec ascii_dec m n); intuition discriminate.
  - unfold chars_eqb. destruct (list_eq_dec ascii_dec n n') as [->|Hn]; cbn [assoc].
    + destruct (list_eq_dec ascii_dec m n'); intuition discriminate.
    + destruct (list_eq_dec ascii_dec m n') as [->|Hm]; intuition discriminate.
Qed.

(** The keeper of a name after a history of its starts and stops *)
Definition step (k : keeper) (e : bool * Z) : keeper := if fst e then keeper_start (snd e) k else keeper_stop (snd e) k.
Lemma run_entry cs : forall t m, entry (fold_left timer_call cs t) m = fold_left step (history m cs) (entry t m).
Proof.
  induction cs as [|c cs IH]; intros t m; [reflexivity|]. cbn [fold_left]. rewrite IH. unfold history. cbn [flat_map].
  rewrite fold_left_app. f_equal. unfold seen_by, timer_call, timer_stop_report, timer_start, timer_stop.
  destruct c as [n now|n now|n now]; cbn [fst]; rewrite entry_set; destruct (list_eq_dec ascii_dec n m) as [->|]; reflexivity.
Qed.
Lemma run_known cs : forall t m, assoc chars_eqb m (fold_left timer_call cs t) = None <-> history m cs = [] /\ assoc chars_eqb m t = None.
Proof.
  induction cs as [|c cs IH]; intros t m; [cbn; tauto|]. cbn [fold_left]. rewrite IH. unfold history. cbn [flat_map].
  unfold timer_call, timer_stop_report, timer_start, timer_stop, seen_by.
  destruct c as [n now|n now|n now]; cbn [fst]; rewrite known_set; destruct (list_eq_dec ascii_dec n m) as [->|Hn]; cbn [app];
    (split; [intros (H1 & H2 & H3); (now destruct H2) || auto|intros (H1 & H2); try discriminate; auto]).
Qed.
Lemma elapsed_entry t m r : timer_elapsed t m = Ok r <-> assoc chars_eqb m t <> None /\ r = k_total (entry t m).
Proof.
  unfold timer_elapsed, entry. destruct (assoc chars_eqb m t); split; intros H; try discriminate.
  - injection H as <-. split; congruence.
  - destruct H as [_ ->]. reflexivity.
  - now destruct H.
Qed.
Lemma step_pairs ivs : forall k, k_total (fold_left step (paired ivs) k) = k_total k + total ivs.
Proof.
  induction ivs as [|(a & b) ivs IH]; intros k; cbn [paired flat_map total fold_right app]; [cbn; lra|].
  fold (paired ivs) (total ivs). cbn [fold_left]. rewrite IH. unfold step at 1. cbn [fst snd]. rewrite stop_total.
  cbn. lra.
Qed.
Lemma step_mono h : forall k, k_total k <= k_total (fold_left step h k).
Proof.
  induction h as [|(s & t) h IH]; intros k; cbn [fold_left]; [lra|].
  eapply Rle_trans; [|apply IH]. unfold step. cbn. destruct s; [cbn; lra|].
  rewrite stop_total. pose proof (interval_nonneg (k_start k) t). lra.
Qed.

(** The accumulated time of a name is the sum of its closed intervals, whatever is done with other
    names in between and whether or not the name is running at the end. *)
Theorem C43_elapsed :
  forall cs name ivs tail, history name cs = paired ivs ++ tail -> (tail = [] \/ exists a, tail = [(true, a)]) ->
    history name cs <> [] -> timer_elapsed (timer_run cs) name = Ok (total ivs).
Proof.
  intros cs name ivs tail H Ht Hne. apply elapsed_entry. unfold timer_run. split.
  - intros E. apply run_known in E. now destruct E.
  - rewrite run_entry, H, fold_left_app.
    transitivity (k_total (fold_left step (paired ivs) (entry [] name))).
    + rewrite step_pairs. cbn. lra.
    + destruct Ht as [->|(a & ->)]; reflexivity.
Qed.
Print Assumptions C43_elapsed.
(** A name that was never used has no time: asking throws. *)
Theorem C43_unknown_name :
  forall cs name, timer_elapsed (timer_run cs) name = Throw <-> history name cs = [].
Proof.
  intros cs name. unfold timer_elapsed, timer_run. pose proof (run_known cs [] name) as H.
  destruct (assoc chars_eqb name (fold_left timer_call cs [])) as [k|].
  - split; [discriminate|]. intros E. destruct H as [_ H]. now discriminate H.
  - split; auto. intros _. now apply H.
Qed.
Print Assumptions C43_unknown_name.
(** Accumulated time never decreases, in any history, and calls on other names do not change it. *)
Theorem C43_monotone :
  forall cs cs' name v v', timer_elapsed (timer_run cs) name = Ok v -> timer_elapsed (timer_run (cs ++ cs')) name = Ok v' ->
    v <= v' /\ (history name cs' = [] -> v = v').
Proof.
  intros cs cs' name v v' H H'. apply elapsed_entry in H. apply elapsed_entry in H'. destruct H as [_ ->], H' as [_ ->].
  unfold timer_run. rewrite fold_left_app, run_entry with (cs := cs'). split; [apply step_mono|]. now intros ->.
Qed.
Print Assumptions C43_monotone.
(** StopReport returns exactly the interval it closes and adds exactly that. *)
Theorem C43_stop_report :
  forall cs name before a now, history name cs = before ++ [(true, a)] ->
    snd (timer_stop_report now name (timer_run cs)) = interval a now /\
    (forall v, timer_elapsed (timer_run cs) name = Ok v ->
       timer_elapsed (timer_run (cs ++ [CStopReport name now])) name = Ok (v + interval a now)).
Proof.
  intros cs name before a now H.
  assert (E : k_start (entry (timer_run cs) name) = a).
  { unfold timer_run. rewrite run_entry, H, fold_left_app. reflexivity. }
  split.
  - unfold timer_stop_report, timer_stop. cbn [snd]. rewrite entry_set. destruct (list_eq_dec ascii_dec name name); [|congruence].
    rewrite stop_total, E. lra.
  - intros v Hv. apply elapsed_entry in Hv. destruct Hv as [_ ->]. apply elapsed_entry. unfold timer_run. split.
    + intros E'. apply run_known in E'. destruct E' as [E' _]. unfold history in E'. rewrite flat_map_app in E'.
      apply app_eq_nil in E' as [E' _]. fold (history name cs) in E'. rewrite H in E'. now destruct before.
    + rewrite fold_left_app. cbn [fold_left timer_call]. unfold timer_stop_report, timer_stop. cbn [fst].
      rewrite entry_set. destruct (list_eq_dec ascii_dec name name); [|congruence]. rewrite stop_total. fold (timer_run cs). now rewrite E.
Qed.
Print Assumptions C43_stop_report.
(** Outside start/stop pairs the sum is not that of the closed intervals: a second stop counts the
    interval again, and a stop without a start counts the time since the epoch. *)
Theorem C43_double_stop_refuted :
  let x := lit "x" in
  timer_elapsed (timer_run [CStart x 0; CStop x 1000000000; CStop x 2000000000]) x = Ok 3 /\
  timer_elapsed (timer_run [CStop x 5000000000]) x = Ok 5.
Proof.
  cbv zeta. split; apply elapsed_entry; (split; [vm_compute; discriminate|]); unfold timer_run; rewrite run_entry;
    cbn [history flat_map seen_by app fold_left]; destruct (list_eq_dec ascii_dec (lit "x") (lit "x")); try congruence;
    cbn [app fold_left step fst snd]; rewrite !stop_total; unfold interval; cbn; lra.
Qed.
Print Assumptions C43_double_stop_refuted.

(** ** Profiled regions *)
Lemma region_ind2 (P : region -> Prop) : (forall n a inner b, Forall P inner -> P (Region n a inner b)) -> forall r, P r.
Proof.
  intros H. fix IH 1. intros [n a inner b]. apply H. induction inner as [|r inner IHi]; constructor; auto.
Qed.
Lemma profiler_run_app p cs cs' : profiler_run p (cs ++ cs') =
  do r <- profiler_run p cs; do r' <- profiler_run (fst r) cs'; Ok (fst r', snd r ++ snd r').
Proof.
  revert p; induction cs as [|c cs IH]; intros p; cbn [profiler_run app].
  - cbn [obind fst snd]. destruct (profiler_run p cs') as [(q & l)| | |]; reflexivity.
  - destruct (profiler_call p c) as [(q & l)| | |]; cbn [obind]; auto. cbn [fst snd]. rewrite IH.
    destruct (profiler_run q cs) as [(q' & l')| | |]; cbn [obind]; auto. cbn [fst snd].
    destruct (profiler_run q' cs') as [(q'' & l'')| | |]; cbn [obind]; auto. cbn [fst snd]. now rewrite app_assoc.
Qed.
Lemma regions_run rs : Forall (fun r => no_recursion r -> forall p, exists p', profiler_run p (trace r) = Ok (p', times r) /\ p_stack p' = p_stack p /\
    forall m, ~ In m (names_in r) -> entry (p_timer p') m = entry (p_timer p) m) rs ->
  fold_right (fun r' P => no_recursion r' /\ P) True rs -> forall p, exists p', profiler_run p (flat_map trace rs) = Ok (p', flat_map times rs) /\
    p_stack p' = p_stack p /\ forall m, (forall r, In r rs -> ~ In m (names_in r)) -> entry (p_timer p') m = entry (p_timer p) m.
Proof.
  induction 1 as [|r rs Hr Hrs IH]; intros Hn p; cbn [flat_map fold_right] in *.
  - exists p. split; [reflexivity|]. split; auto.
  - destruct Hn as [Hn1 Hn2]. destruct (Hr Hn1 p) as (p1 & E1 & S1 & K1). destruct (IH Hn2 p1) as (p2 & E2 & S2 & K2).
    exists p2. rewrite profiler_run_app, E1. cbn [obind fst snd]. rewrite E2. cbn [obind fst snd]. split; auto. split; [congruence|].
    intros m Hm. rewrite K2, K1; auto; intros; apply Hm; [now left|now right].
Qed.
(** Every exit reports the time since the matching entry, for every nest of regions in which no
    region contains another one of the same name; the stack is restored. *)
Theorem C43_regions :
  forall r, no_recursion r -> forall p, exists p', profiler_run p (trace r) = Ok (p', times r) /\ p_stack p' = p_stack p.
Proof.
  assert (G : forall r, no_recursion r -> forall p, exists p', profiler_run p (trace r) = Ok (p', times r) /\ p_stack p' = p_stack p /\
    forall m, ~ In m (names_in r) -> entry (p_timer p') m = entry (p_timer p) m).
  { induction r as [n a inner b IH] using region_ind2. intros [Hn Hr] p. cbn [trace times names_in].
    cbn [profiler_run profiler_call obind fst snd app].
    destruct (regions_run IH Hr (Profiler (n :: p_stack p) (timer_start a n (p_timer p)))) as (p1 & E & Hs & K).
    rewrite profiler_run_app, E. cbn [obind fst snd profiler_run profiler_call]. rewrite Hs. cbn [p_stack obind fst snd].
    assert (En : snd (timer_stop_report b n (p_timer p1)) = interval a b).
    { unfold timer_stop_report, timer_stop. cbn [snd]. rewrite entry_set. destruct (list_eq_dec ascii_dec n n); [|congruence].
      rewrite stop_total, (K n) by auto. cbn [p_timer]. unfold timer_start. rewrite entry_set.
      destruct (list_eq_dec ascii_dec n n); [|congruence]. cbn. lra. }
    rewrite En. eexists. split; [reflexivity|]. split; [reflexivity|]. cbn [p_timer p_stack].
    intros m Hm. cbn [In] in Hm. unfold timer_stop_report, timer_stop. cbn [fst]. rewrite entry_set.
    destruct (list_eq_dec ascii_dec n m); [exfalso; apply Hm; now left|].
    rewrite K.
    - cbn [p_timer]. unfold timer_start. rewrite entry_set. now destruct (list_eq_dec ascii_dec n m).
    - intros r' Hr' Hin. apply Hm. right. apply in_flat_map. eauto. }
  intros r Hr p. destruct (G r Hr p) as (p' & H1 & H2 & _). eauto.
Qed.
Print Assumptions C43_regions.

(** A region inside another one of the same name makes the outer one report a wrong time (here 3 s
    instead of 4 s); built with Kokkos, any inner region does (2 s instead of 4 s). *)
Theorem C43_recursion_refuted :
  let r := Region (lit "x") 0 [Region (lit "x") 1000000000 [] 2000000000] 4000000000 in
  exists p', profiler_run (Profiler [] []) (trace r) = Ok (p', [1; 3]) /\ times r = [1; 4].
Proof.
  cbv zeta. eexists. split.
  - cbn. unfold timer_stop_report, timer_stop, timer_start, keeper_stop, keeper_start, seconds. cbn. f_equal. f_equal.
    f_equal; [lra|]. f_equal. lra.
  - cbn. unfold interval. cbn. f_equal; [lra|]. f_equal. lra.
Qed.
Print Assumptions C43_recursion_refuted.
Theorem C43_kokkos_nesting_refuted :
  let r := Region (lit "x") 0 [Region (lit "y") 2000000000 [] 3000000000] 4000000000 in
  exists p', kprofiler_run (KProfiler [] 0) (trace r) = Ok (p', [1; 2]) /\ times r = [1; 4] /\ no_recursion r.
Proof.
  cbv zeta. eexists. split; [|split].
  - cbn. unfold seconds. cbn. f_equal. f_equal. f_equal; [lra|]. f_equal. lra.
  - cbn. unfold interval. cbn. f_equal; [lra|]. f_equal. lra.
  - cbn. split; [|tauto]. intros r' [<-|[]]. cbn. intros [H|[]]. discriminate.
Qed.
Print Assumptions C43_kokkos_nesting_refuted.
(** With Kokkos, regions that do not nest are timed correctly (for a clock that does not go back). *)
Theorem C43_kokkos_flat :
  forall n a b p, (a <= b)%Z -> exists p', kprofiler_run p (trace (Region n a [] b)) = Ok (p', times (Region n a [] b)) /\ kp_stack p' = kp_stack p.
Proof.
  intros n a b p H. exists (KProfiler (kp_stack p) a). split; [|reflexivity]. cbn. unfold interval, seconds. rewrite pow9, Z.max_r by lia. reflexivity.
Qed.
Print Assumptions C43_kokkos_flat.
Example C43_used :
  let cs := [CStart (lit "a") 5; CStart (lit "b") 6; CStop (lit "a") 9; CStopReport (lit "b") 11; CStart (lit "a") 12] in
  history (lit "a") cs = paired [(5, 9)]%Z ++ [(true, 12%Z)] /\ history (lit "b") cs = paired [(6, 11)]%Z.
Proof. split; reflexivity. Qed.
