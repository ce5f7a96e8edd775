(** Output manager: the loops over the elements. *)
From Coq Require Import Reals Lra Permutation FunctionalExtensionality.
From Verif Require Import Base Strings ListLemmas DataModel Loops TensorModel TensorSpec ElementModel ElementSpec ElementProofs ElementProofs2 ElementProofs3 ElementProofs4 ElementProofs5 BlockModel BlockProofs
  KokkosModel KokkosProofs KokkosSpec KokkosProofs2 KokkosProofs3 KokkosOutModel KokkosOutSpec.
Set Implicit Arguments.
Local Open Scope nat_scope.
Local Open Scope list_scope.
Local Notation length := List.length.

Lemma impl_average r u nq qs o : volume_average_impl r u nq qs o = compute_volume_average (fun k => r k + u k)%R nq qs o.
Proof.
  unfold compute_volume_average, volume_average_impl.
  replace (fun n i : nat => (r (3 * n + i)%nat + u (3 * n + i)%nat + 0)%R) with (fun n i : nat => (r (3 * n + i)%nat + u (3 * n + i)%nat)%R)
    by (apply functional_extensionality; intros; apply functional_extensionality; intros; lra). reflexivity.
Qed.
Lemma jac_same x y q : (forall n i, n < 8 -> i < 3 -> x n i = y n i) -> mdet (jac x q) = mdet (jac y q).
Proof.
  intros H. assert (E : forall i j, i < 3 -> jac x q i j = jac y q i j) by (intros i j Hi; unfold jac; apply Rsum_ext; intros n Hn; now rewrite H).
  unfold mdet. rewrite !E by lia. reflexivity.
Qed.
Definition vol_data (n : nat) (x u : list R) : list R := map (fun e => element_volume (corners_of x u e)) (seq 0 n).
Definition mean_data (n w : nat) (x u s : list R) : list R := map (fun j => mean_of w (j mod w) x u s (j / w)) (seq 0 (n * w)).
Definition point_data (n w p : nat) (s : list R) : list R := map (fun j => nth (j / w * (8 * w) + (w * p + j mod w)) s 0%R) (seq 0 (n * w)).
Definition elem_coords (x u : list R) (e : nat) : arr := fun k => (arr_of (slice x (e * 24) 24) k + arr_of (slice u (e * 24) 24) k)%R.
Lemma coords_corners x u e n i : n < 8 -> i < 3 -> nodes (elem_coords x u e) n i = corners_of x u e n i.
Proof. intros Hn Hi. unfold nodes, elem_coords, corners_of. rewrite !arr_of_slice. destruct (Nat.ltb_spec (3 * n + i) 24); [reflexivity|lia]. Qed.
Lemma coords_shaped x u e : well_shaped (nodes (elem_coords x u e)) <-> well_shaped (corners_of x u e).
Proof.
  split; intros W q Hq; [rewrite <- (@jac_same (nodes (elem_coords x u e)) (corners_of x u e))|rewrite (@jac_same (nodes (elem_coords x u e)) (corners_of x u e))]; try (now apply W); intros; now apply coords_corners.
Qed.
Lemma average_inv x u e nq qs o r : compute_volume_average (elem_coords x u e) nq qs o = Ok r -> well_shaped (corners_of x u e) /\
  fst r = element_volume (corners_of x u e) /\ forall c, c < nq -> snd r c = (Rsum 8 (fun q => qs (nq * q + c)%nat * mdet (jac (corners_of x u e) q)) / element_volume (corners_of x u e))%R.
Proof.
  intros E. assert (W : well_shaped (nodes (elem_coords x u e))).
  { destruct (shaped_dec (nodes (elem_coords x u e))) as [W|(q & Hq & Hd)]; auto. exfalso. assert (Hn : ~ well_shaped (nodes (elem_coords x u e))) by (intros W; specialize (W q Hq); lra). rewrite (@average_abort (elem_coords x u e) nq qs o Hn) in E. discriminate. }
  split; [now apply coords_shaped|]. destruct (@average_ok (elem_coords x u e) nq qs o W) as (vol & out & E' & Hv & Ho & _). rewrite E' in E. injection E as <-. cbn [fst snd].
  assert (Ev : vol = element_volume (corners_of x u e)) by (rewrite Hv; unfold element_volume; apply Rsum_ext; intros q Hq; apply jac_same; intros; now apply coords_corners).
  split; auto. intros c Hc. rewrite Ho by assumption. rewrite <- Ev. apply (f_equal (fun z => z / vol)%R). apply Rsum_ext. intros q Hq. apply (f_equal (fun z => qs (nq * q + c)%nat * z)%R). apply jac_same. intros; now apply coords_corners.
Qed.
Section Loops.
  Variables (sched : scheduler) (k : list nat) (h : heap) (gref gdisp : view) (x u : list R) (n : nat).
  Hypothesis Hs : valid_sched sched.
  Hypothesis Hx : nth_error h (v_id gref) = Some x.
  Hypothesis Hu : nth_error h (v_id gdisp) = Some u.
  Hypothesis Lx : length x = n * 24.
  Hypothesis Lu : length u = n * 24.
  Lemma range_reads e : e < n -> omapM (rd h) (range gref (e * 24) 24 ++ range gdisp (e * 24) 24) = Ok (slice x (e * 24) 24 ++ slice u (e * 24) 24).
  Proof. intros He. rewrite omapM_app, (@read_range h gref x (e * 24) 24 Hx ltac:(nia)), (@read_range h gdisp u (e * 24) 24 Hu ltac:(nia)). reflexivity. Qed.
  Lemma volume_loop_both vol d : nth_error h (v_id vol) = Some d -> length d = n -> v_id gref <> v_id vol -> v_id gdisp <> v_id vol ->
    (forall h', parallel_for sched k (volume_loop gref gdisp vol n) h = Ok h' -> (forall e, e < n -> well_shaped (corners_of x u e)) /\ h' = list_set h (v_id vol) (vol_data n x u)) /\
    ((forall e, e < n -> well_shaped (corners_of x u e)) -> exists h', parallel_for sched k (volume_loop gref gdisp vol n) h = Ok h').
  Proof.
    intros Hd Ld N1 N2.
    pose (its := fun e c => Act (v_id vol, e * 1 + c) false (range gref (e * 24) 24 ++ range gdisp (e * 24) 24)
      (fun vs => do r <- volume_average_impl (arr_of (firstn 24 vs)) (arr_of (skipn 24 vs)) 0 zeros zeros; Ok (fst r))).
    assert (El : volume_loop gref gdisp vol n = map (fun e => map (its e) (seq 0 1)) (seq 0 n)).
    { unfold volume_loop. apply map_ext. intros e. cbn [seq map]. unfold its. now rewrite Nat.mul_1_r, Nat.add_0_r. }
    rewrite El.
    pose (res := fun e => do r <- compute_volume_average (elem_coords x u e) 0 zeros zeros; Ok (fun _ : nat => fst r)).
    assert (HR : forall e c r, In r (a_reads (its e c)) -> fst r <> v_id vol).
    { intros e c r. unfold its. cbn [a_reads]. intros H. apply in_app_or in H. destruct H as [H|H]; apply range_id in H; congruence. }
    assert (HV : forall e c, e < n -> c < 1 -> value h (its e c) = do o <- res e; Ok (o c)).
    { intros e c He Hc. unfold value, its. cbn [a_reads a_val]. rewrite (range_reads He). cbn [obind].
      rewrite (@firstn_app_len _ (slice x (e * 24) 24) _ _ (slice_length x (e * 24) 24)), (@skipn_app_len _ (slice x (e * 24) 24) _ _ (slice_length x (e * 24) 24)), impl_average. unfold res. fold (elem_coords x u e).
      destruct (compute_volume_average _ _ _ _); reflexivity. }
    assert (Ld' : length d = n * 1) by lia.
    split.
    - intros h' E. pose proof (@elementwise_inv n 1 its res (v_id vol) ltac:(lia) (fun _ _ => eq_refl) (fun _ _ => eq_refl) HR sched k h d h' Hs Hd Ld' HV E) as HO.
      rewrite (@elementwise_ok n 1 its res (v_id vol) ltac:(lia) (fun _ _ => eq_refl) (fun _ _ => eq_refl) HR sched k h d Hs Hd Ld' HV HO) in E.
      assert (HA : forall e, e < n -> well_shaped (corners_of x u e) /\ forall c, val (res e) c = element_volume (corners_of x u e)).
      { intros e He. destruct (HO e) as [o Ho]; [lia|]. rewrite Ho. cbn [val]. unfold res in Ho.
        destruct (compute_volume_average (elem_coords x u e) 0 zeros zeros) as [r| | |] eqn:Er; try discriminate. cbn [obind] in Ho. assert (Eo : o = fun _ => fst r) by congruence. rewrite Eo.
        destruct (@average_inv _ _ _ _ _ _ _ Er) as (A1 & A2 & _). auto. }
      split; [intros e He; now apply HA|].
      assert (E' : h' = list_set h (v_id vol) (map (fun j => val (res (j / 1)) (j mod 1)) (seq 0 (n * 1)))) by congruence. rewrite E'. f_equal. rewrite Nat.mul_1_r. unfold vol_data. apply map_ext_in.
      intros e He. apply in_seq in He. rewrite Nat.div_1_r. apply HA. lia.
    - intros HW. eexists. apply (@elementwise_ok n 1 its res (v_id vol) ltac:(lia) (fun _ _ => eq_refl) (fun _ _ => eq_refl) HR sched k h d Hs Hd Ld' HV).
      intros e He. apply HW, coords_shaped in He. destruct (@average_ok (elem_coords x u e) 0 zeros zeros He) as (vol' & out & E' & _). unfold res. rewrite E'. eexists. reflexivity.
  Qed.
  Section Tensors.
    Variables (w : nat) (points : view) (s : list R).
    Hypothesis Hw : 0 < w.
    Hypothesis Hp : nth_error h (v_id points) = Some s.
    Hypothesis Ls : length s = n * (8 * w).
    Lemma average_loop_both ave d : nth_error h (v_id ave) = Some d -> length d = n * w -> v_id gref <> v_id ave -> v_id gdisp <> v_id ave -> v_id points <> v_id ave ->
      (forall h', parallel_for sched k (average_loop w gref gdisp points ave n) h = Ok h' -> (forall e, e < n -> well_shaped (corners_of x u e)) /\ h' = list_set h (v_id ave) (mean_data n w x u s)) /\
      ((forall e, e < n -> well_shaped (corners_of x u e)) -> exists h', parallel_for sched k (average_loop w gref gdisp points ave n) h = Ok h').
    Proof.
      intros Hd Ld N1 N2 N3.
      pose (its := fun e c => Act (v_id ave, e * w + c) false
        (range gref (e * 24) 24 ++ range gdisp (e * 24) 24 ++ range points (e * (8 * w)) (8 * w))
        (fun vs => do r <- volume_average_impl (arr_of (firstn 24 vs)) (arr_of (firstn 24 (skipn 24 vs))) w (arr_of (skipn 48 vs)) zeros; Ok (snd r c))).
      assert (El : average_loop w gref gdisp points ave n = map (fun e => map (its e) (seq 0 w)) (seq 0 n)) by reflexivity.
      rewrite El.
      pose (res := fun e => do r <- compute_volume_average (elem_coords x u e) w (arr_of (slice s (e * (8 * w)) (8 * w))) zeros; Ok (snd r)).
      assert (HR : forall e c r, In r (a_reads (its e c)) -> fst r <> v_id ave).
      { intros e c r. unfold its. cbn [a_reads]. intros H. apply in_app_or in H. destruct H as [H|H]; [apply range_id in H; congruence|]. apply in_app_or in H. destruct H as [H|H]; apply range_id in H; congruence. }
      assert (HV : forall e c, e < n -> c < w -> value h (its e c) = do o <- res e; Ok (o c)).
      { intros e c He Hc. unfold value, its. cbn [a_reads a_val]. rewrite app_assoc, omapM_app, (range_reads He). cbn [obind]. rewrite (@read_range h points s (e * (8 * w)) (8 * w) Hp ltac:(nia)). cbn [obind].
        rewrite <- app_assoc. rewrite (@firstn_app_len _ (slice x (e * 24) 24) _ _ (slice_length x (e * 24) 24)), (@skipn_app_len _ (slice x (e * 24) 24) _ _ (slice_length x (e * 24) 24)), (@firstn_app_len _ (slice u (e * 24) 24) _ _ (slice_length u (e * 24) 24)).
        change 48 with (24 + 24). rewrite app_assoc.
        assert (L48 : length (slice x (e * 24) 24 ++ slice u (e * 24) 24) = 24 + 24) by (now rewrite app_length, !slice_length).
        rewrite (@skipn_app_len _ _ _ _ L48), impl_average. unfold res. fold (elem_coords x u e). destruct (compute_volume_average _ _ _ _); reflexivity. }
      split.
      - intros h' E. pose proof (@elementwise_inv n w its res (v_id ave) Hw (fun _ _ => eq_refl) (fun _ _ => eq_refl) HR sched k h d h' Hs Hd Ld HV E) as HO.
        rewrite (@elementwise_ok n w its res (v_id ave) Hw (fun _ _ => eq_refl) (fun _ _ => eq_refl) HR sched k h d Hs Hd Ld HV HO) in E.
        assert (HA : forall e, e < n -> well_shaped (corners_of x u e) /\ forall c, c < w -> val (res e) c = mean_of w c x u s e).
        { intros e He. destruct (HO e He) as [o Ho]. rewrite Ho. cbn [val]. unfold res in Ho.
          destruct (compute_volume_average (elem_coords x u e) w (arr_of (slice s (e * (8 * w)) (8 * w))) zeros) as [r| | |] eqn:Er; try discriminate. cbn [obind] in Ho. assert (Eo : o = snd r) by congruence. rewrite Eo.
          destruct (@average_inv _ _ _ _ _ _ _ Er) as (A1 & _ & A3). split; auto. intros c Hc.
          rewrite (A3 c Hc). unfold mean_of. apply (f_equal (fun z => z / element_volume (corners_of x u e))%R). apply Rsum_ext. intros q Hq. apply (f_equal (fun z => z * mdet (jac (corners_of x u e) q))%R). rewrite arr_of_slice.
          destruct (Nat.ltb_spec (w * q + c) (8 * w)); [reflexivity|nia]. }
        split; [intros e He; now apply HA|].
        assert (E' : h' = list_set h (v_id ave) (map (fun j => val (res (j / w)) (j mod w)) (seq 0 (n * w)))) by congruence. rewrite E'. f_equal. unfold mean_data. apply map_ext_in.
        intros j Hj. apply in_seq in Hj. assert (He : j / w < n) by (apply Nat.div_lt_upper_bound; nia). assert (Hc : j mod w < w) by (apply Nat.mod_upper_bound; lia). now apply HA.
      - intros HW. eexists. apply (@elementwise_ok n w its res (v_id ave) Hw (fun _ _ => eq_refl) (fun _ _ => eq_refl) HR sched k h d Hs Hd Ld HV).
        intros e He. apply HW, coords_shaped in He. destruct (@average_ok (elem_coords x u e) w (arr_of (slice s (e * (8 * w)) (8 * w))) zeros He) as (vol' & out & E' & _). unfold res. rewrite E'. eexists. reflexivity.
    Qed.
    Lemma extract_ok point single d h' : nth_error h (v_id single) = Some d -> length d = n * w -> v_id points <> v_id single ->
      extract sched k w point points single n h = Ok h' -> (n = 0 \/ (0 <= point < 8)%Z) /\ h' = list_set h (v_id single) (point_data n w (Z.to_nat point) s).
    Proof.
      intros Hd Ld N3 E. unfold extract in E. destruct ((0 <=? point) && (point <? 8))%Z eqn:Ep.
      - apply andb_true_iff in Ep. destruct Ep as [P1 P2]. apply Z.leb_le in P1. apply Z.ltb_lt in P2. split; [right; lia|].
        set (p := Z.to_nat point) in *. assert (Pp : p < 8) by lia.
        pose (its := fun e c => Act (v_id single, e * w + c) false [(v_id points, e * (8 * w) + p * w + c)] one).
        pose (res := fun e => Ok (fun c => nth (e * (8 * w) + (w * p + c)) s 0%R)).
        assert (HR : forall e c r, In r (a_reads (its e c)) -> fst r <> v_id single) by (intros e c r [<-|[]]; exact N3).
        assert (HV : forall e c, e < n -> c < w -> value h (its e c) = do o <- res e; Ok (o c)).
        { intros e c He Hc. unfold value, its. cbn [a_reads a_val omapM]. rewrite (@rd_ok h (v_id points) s (e * (8 * w) + p * w + c) Hp ltac:(nia)). cbn [obind one res]. do 2 f_equal. lia. }
        assert (HO : forall e, e < n -> okv (res e)) by (intros e _; eexists; reflexivity).
        change (extract_loop w p points single n) with (map (fun e => map (its e) (seq 0 w)) (seq 0 n)) in E.
        rewrite (@elementwise_ok n w its res (v_id single) Hw (fun _ _ => eq_refl) (fun _ _ => eq_refl) HR sched k h d Hs Hd Ld HV HO) in E.
        assert (E' : h' = list_set h (v_id single) (map (fun j => val (res (j / w)) (j mod w)) (seq 0 (n * w)))) by congruence. exact E'.
      - destruct (Nat.eqb_spec n 0) as [->|]; [|discriminate]. split; auto. assert (h' = h) as -> by congruence. symmetry. apply list_set_self.
        unfold point_data. cbn [Nat.mul seq map] in *. destruct d; [exact Hd|discriminate].
    Qed.
    Lemma extract_runs point single d : nth_error h (v_id single) = Some d -> length d = n * w -> v_id points <> v_id single -> (n = 0 \/ (0 <= point < 8)%Z) ->
      exists h', extract sched k w point points single n h = Ok h'.
    Proof.
      intros Hd Ld N3 Hr. unfold extract. destruct ((0 <=? point) && (point <? 8))%Z eqn:Ep.
      - apply andb_true_iff in Ep. destruct Ep as [P1 P2]. apply Z.leb_le in P1. apply Z.ltb_lt in P2.
        set (p := Z.to_nat point) in *. assert (Pp : p < 8) by lia.
        pose (its := fun e c => Act (v_id single, e * w + c) false [(v_id points, e * (8 * w) + p * w + c)] one).
        pose (res := fun e => Ok (fun c => nth (e * (8 * w) + (w * p + c)) s 0%R)).
        assert (HR : forall e c r, In r (a_reads (its e c)) -> fst r <> v_id single) by (intros e c r [<-|[]]; exact N3).
        assert (HV : forall e c, e < n -> c < w -> value h (its e c) = do o <- res e; Ok (o c)).
        { intros e c He Hc. unfold value, its. cbn [a_reads a_val omapM]. rewrite (@rd_ok h (v_id points) s (e * (8 * w) + p * w + c) Hp ltac:(nia)). cbn [obind one res]. do 2 f_equal. lia. }
        assert (HO : forall e, e < n -> okv (res e)) by (intros e _; eexists; reflexivity).
        change (extract_loop w p points single n) with (map (fun e => map (its e) (seq 0 w)) (seq 0 n)). eexists.
        exact (@elementwise_ok n w its res (v_id single) Hw (fun _ _ => eq_refl) (fun _ _ => eq_refl) HR sched k h d Hs Hd Ld HV HO).
      - destruct (Nat.eqb_spec n 0) as [->|Hn]; [eauto|]. exfalso. destruct Hr as [Hr|[H1 H2]]; [contradiction|]. apply Z.leb_le in H1. apply Z.ltb_lt in H2. rewrite H1, H2 in Ep. discriminate.
    Qed.
  End Tensors.
End Loops.
