(** A history of calls against the plain program. *)
From Coq Require Import Reals Lra Sorted Permutation FunctionalExtensionality.
From Verif Require Import Base Strings ListLemmas DataModel DataProofs Loops ElemDataProofs4 TensorModel TensorSpec ElementModel ElementSpec ElementProofs BlockModel BlockProofs KokkosModel KokkosProofs KokkosSpec KokkosSpec2 KokkosProofs2 KokkosProofs3 KokkosProofs4 KokkosProofs5 KokkosProofs6 KokkosProofs7 KokkosProofs8 KokkosProofs9 KokkosProofs10 KokkosProofs11 KokkosProofs12 KokkosProofs13 KokkosProofs14 KokkosProofs15 KokkosProofs16.
Set Implicit Arguments.
Local Open Scope nat_scope.
Local Open Scope list_scope.
Local Notation length := List.length.

Lemma seq_shift' a n : seq a n = map (fun k => a + k) (seq 0 n).
Proof.
  induction n as [|n IH]; [reflexivity|]. rewrite seq_S, IH, (seq_S n 0), map_app. reflexivity.
Qed.
Lemma concat_rows (g : nat -> nat -> R) m n : List.concat (map (fun e => map (g e) (seq 0 m)) (seq 0 n)) = map (fun j => g (j / m) (j mod m)) (seq 0 (n * m)).
Proof.
  induction n as [|n IH]; [reflexivity|]. rewrite seq_S, map_app, concat_app, IH. cbn [map List.concat Nat.add]. rewrite app_nil_r.
  replace (S n * m) with (n * m + m) by lia. rewrite (seq_app (n * m) m 0), map_app. f_equal. cbn [Nat.add]. rewrite (seq_shift' (n * m)), map_map.
  apply map_ext_in. intros k Hk. apply in_seq in Hk. destruct (@pairdiv m n k ltac:(lia)) as [-> ->]. reflexivity.
Qed.
Lemma combine_index {A} (mesh : list mblock) (f : nat -> A) : combine mesh (map f (seq 0 (length mesh))) = map (fun i => (nblock mesh i, f i)) (seq 0 (length mesh)).
Proof.
  unfold nblock. revert f. induction mesh as [|b l IH]; intros f; [reflexivity|]. cbn [length seq map combine nth]. f_equal.
  rewrite <- !seq_shift, !map_map. cbn [nth]. apply (IH (fun i => f (S i))).
Qed.
Lemma map_index {A} (mesh : list mblock) (f : mblock -> A) : map f mesh = map (fun i => f (nblock mesh i)) (seq 0 (length mesh)).
Proof.
  unfold nblock. induction mesh as [|b l IH]; [reflexivity|]. cbn [length seq map nth]. f_equal. rewrite <- seq_shift, map_map. exact IH.
Qed.
Lemma points_eq mesh t0 t1 ref disp oldF oldS i : all_ok mesh t0 t1 ref disp oldF oldS i ->
  serial_points t0 t1 ref disp (nblock mesh i) (oldF i, oldS i) =
  Ok (new_gradients (mb_num_elem (nblock mesh i)) (mb_conn (nblock mesh i)) ref disp,
      new_stress (mb_num_elem (nblock mesh i)) (mb_mat (nblock mesh i)) t0 t1 (oldF i) (new_gradients (mb_num_elem (nblock mesh i)) (mb_conn (nblock mesh i)) ref disp) (oldS i)).
Proof.
  intros H. set (n := mb_num_elem (nblock mesh i)). set (c := mb_conn (nblock mesh i)). set (newF := new_gradients n c ref disp). set (newS := new_stress n (mb_mat (nblock mesh i)) t0 t1 (oldF i) newF (oldS i)).
  unfold serial_points. cbn [fst snd]. fold n c.
  rewrite (@omapM_ok nat (arr * arr) _ (fun e => (val (elem_gradients c ref disp e), arr_of (slice newS (e * 48) 48)))).
  - cbn [obind]. rewrite !map_map. cbn [fst snd]. f_equal. f_equal.
    + exact (concat_rows (fun e k => val (elem_gradients c ref disp e) k) 72 n).
    + etransitivity; [exact (concat_rows (fun e k => arr_of (slice newS (e * 48) 48) k) 48 n)|]. symmetry. apply list_of_map; [unfold newS; now rewrite new_stress_len|].
      intros j Hj. rewrite arr_of_slice. pose proof (Nat.mod_upper_bound j 48 ltac:(lia)). rewrite (proj2 (Nat.ltb_lt _ _) H0).
      assert (Ej : j / 48 * 48 + j mod 48 = j) by (pose proof (Nat.div_mod j 48 ltac:(lia)); lia). rewrite Ej. rewrite (nth_error_nth' newS 0%R); [reflexivity|]. unfold newS. rewrite new_stress_len. exact Hj.
  - intros e He. apply in_seq in He. destruct (H e) as (H1 & H2 & H3); [unfold n in He; lia|].
    etransitivity; [exact (f_equal (fun o => obind o (fun F => obind (stress_of (mb_mat (nblock mesh i)) t0 t1 (oldF i) (oldS i) e F) (fun S => Ok (F, S)))) (@val_ok _ H1))|]. cbn [obind].
    assert (E1 := @stress_of_val n c (mb_mat (nblock mesh i)) t0 t1 ref disp (oldF i) (oldS i) e ltac:(unfold n in *; lia) H1).
    assert (E2 := @stress_values n c (mb_mat (nblock mesh i)) t0 t1 ref disp (oldF i) (oldS i) e ltac:(unfold n in *; lia) H2).
    exact (f_equal (fun o => obind o (fun S => Ok (val (elem_gradients c ref disp e), S))) (eq_trans E1 E2)).
Qed.

(** * The simulation *)
Record sim (same : bool) (N : nat) (mesh : list mblock) (W : place -> view) (ref mass : list R) (dt : R) (d : kdata) (p : plain) : Prop := {
  s_wired : wired same N mesh W d;
  s_sized : psized N mesh W (kd_heap d);
  s_blocks : kd_blocks d = conns mesh;
  s_dt : kd_dt d = dt;
  s_kd : kd_disp d = if p_kept p then Some (W (Pl true FDisp), W (Pl false FDisp)) else None;
  s_kv : kd_vel d = if p_kept p then Some (W (Pl true FVel), W (Pl false FVel)) else None;
  s_ref : mem W (kd_heap d) (Pl false FRef) = ref;
  s_mass : mem W (kd_heap d) (Pl true FMass) = mass;
  s_hu : mem W (kd_heap d) (Pl true FDisp) = p_hu p;
  s_du : mem W (kd_heap d) (Pl false FDisp) = p_du p;
  s_hv : mem W (kd_heap d) (Pl true FVel) = p_hv p;
  s_dv : mem W (kd_heap d) (Pl false FVel) = p_dv p;
  s_f : mem W (kd_heap d) (Pl true FForce) = p_f p;
  s_old : p_old p = map (fun k => (mem W (kd_heap d) (Pl false (FF STEP_N k)), mem W (kd_heap d) (Pl false (FS STEP_N k)))) (seq 0 (length mesh));
  s_new : p_new p = map (fun k => (mem W (kd_heap d) (Pl false (FF STEP_NP1 k)), mem W (kd_heap d) (Pl false (FS STEP_NP1 k)))) (seq 0 (length mesh))
}.
Section Sim.
  Variables (same : bool) (reduce : list R -> list R) (N : nat) (mesh : list mblock) (W : place -> view) (ref mass : list R) (dt : R).
  Hypothesis Hred : forall x, length (reduce x) = length x.
  Hypothesis Gb : forall k, k < length mesh -> good_block N (nblock mesh k).
  Hypothesis Hn : forall k, k < length mesh -> km_states (mb_mat (nblock mesh k)) = 0.
  (** a change of one field *)
  Lemma put_other d0 h c f y b g : wired same N mesh W d0 -> psized N mesh W h -> vfield mesh f -> vfield mesh g -> g <> f ->
    mem W (list_set h (v_id (W (Pl c f))) y) (Pl b g) = mem W h (Pl b g).
  Proof.
    intros Wd Hsz Vf Vg Hne. rewrite (mem_put (Pl c f) y (Pl b g) Hsz Vf Vg). destruct (Nat.eqb_spec (v_id (W (Pl b g))) (v_id (W (Pl c f)))) as [E|E]; [|reflexivity].
    apply (w_inj Wd (Pl b g) (Pl c f) Vg Vf) in E. simpl in E. congruence.
  Qed.
  Lemma put_this d0 h c f y b : wired same N mesh W d0 -> psized N mesh W h -> vfield mesh f ->
    mem W (list_set h (v_id (W (Pl c f))) y) (Pl b f) = if Bool.eqb b c || same then y else mem W h (Pl b f).
  Proof.
    intros Wd Hsz Vf. rewrite (mem_put (Pl c f) y (Pl b f) Hsz Vf Vf). destruct (Bool.eqb_spec b c) as [->|Hb]; [now rewrite Nat.eqb_refl|]. cbn [orb].
    destruct (Nat.eqb_spec (v_id (W (Pl b f))) (v_id (W (Pl c f)))) as [E|E].
    - apply (w_inj Wd (Pl b f) (Pl c f) Vf Vf) in E. simpl in E. destruct same; [reflexivity|]. rewrite !andb_true_r in E. congruence.
    - destruct same; [|reflexivity]. exfalso. apply E. pose proof (w_same Wd f eq_refl Vf) as Q. destruct b, c; congruence.
  Qed.
  Lemma wired_heap d h : wired same N mesh W d -> wired same N mesh W (with_heap d h).
  Proof. intros H. eapply wired_eq; [..|exact H]; reflexivity. Qed.
  Lemma write_sim d p i c x : sim same N mesh W ref mass dt d p -> c < 3 ->
    (forall p', plain_step same reduce N ref mesh p (KWriteDisp i c x) = Ok p' -> exists d', host_write d (f_disp (kd_ids d)) i c x = Ok d' /\ sim same N mesh W ref mass dt d' p') /\
    (forall d', host_write d (f_disp (kd_ids d)) i c x = Ok d' -> exists p', plain_step same reduce N ref mesh p (KWriteDisp i c x) = Ok p').
  Proof.
    intros S Hc. destruct (host_views (s_wired S)) as (V1 & _). pose proof (s_wired S) as Wd. pose proof (s_sized S) as Hsz. destruct (mem_at (Pl true FDisp) Hsz I) as [A B]. simpl in B.
    unfold host_write. rewrite V1. cbn [obind plain_step]. assert (Rd : rd (kd_heap d) (v_id (W (Pl true FDisp)), i * 3 + c) = match nth_error (mem W (kd_heap d) (Pl true FDisp)) (i * 3 + c) with Some a => Ok a | None => UB end) by (unfold rd, vget; cbn [fst snd]; now rewrite A). rewrite Rd.
    destruct (Nat.ltb_spec i N) as [Hi|Hi].
    - destruct (nth_error (mem W (kd_heap d) (Pl true FDisp)) (i * 3 + c)) as [r|] eqn:E; [|apply nth_error_None in E; nia]. cbn [obind].
      split; [|intros; eexists; reflexivity]. intros p' [= <-]. eexists. split; [reflexivity|]. unfold wr. cbn [fst snd]. rewrite A.
      assert (P : psized N mesh W (list_set (kd_heap d) (v_id (W (Pl true FDisp))) (list_set (mem W (kd_heap d) (Pl true FDisp)) (i * 3 + c) x))) by (apply (psized_put (Pl true FDisp)); [exact Hsz|exact I|rewrite list_set_length; exact B]).
      destruct S. constructor; cbn [p_kept p_hu p_du p_hv p_dv p_f p_old p_new]; auto; try (now apply wired_heap); unfold with_heap; cbn [kd_heap];
        try (rewrite (@put_other d) by (simpl; auto; discriminate); assumption); try (rewrite (@put_this d) by (simpl; auto); cbn [Bool.eqb orb]; rewrite ?s_hu0; auto; destruct same; auto).
      + rewrite s_old0. apply map_ext_in. intros k Hk. apply in_seq in Hk. rewrite !(@put_other d) by (simpl; auto; try discriminate; lia). reflexivity.
      + rewrite s_new0. apply map_ext_in. intros k Hk. apply in_seq in Hk. rewrite !(@put_other d) by (simpl; auto; try discriminate; lia). reflexivity.
    - destruct (nth_error (mem W (kd_heap d) (Pl true FDisp)) (i * 3 + c)) as [r|] eqn:E; [exfalso; apply nth_some_lt in E; lia|]. cbn [obind].
      split; intros ? H; discriminate H.
  Qed.
  Lemma write_vel_sim d p i c x : sim same N mesh W ref mass dt d p -> c < 3 ->
    (forall p', plain_step same reduce N ref mesh p (KWriteVel i c x) = Ok p' -> exists d', host_write d (f_vel (kd_ids d)) i c x = Ok d' /\ sim same N mesh W ref mass dt d' p') /\
    (forall d', host_write d (f_vel (kd_ids d)) i c x = Ok d' -> exists p', plain_step same reduce N ref mesh p (KWriteVel i c x) = Ok p').
  Proof.
    intros S Hc. destruct (host_views (s_wired S)) as (_ & _ & V1 & _). pose proof (s_wired S) as Wd. pose proof (s_sized S) as Hsz. destruct (mem_at (Pl true FVel) Hsz I) as [A B]. simpl in B.
    unfold host_write. rewrite V1. cbn [obind plain_step]. assert (Rd : rd (kd_heap d) (v_id (W (Pl true FVel)), i * 3 + c) = match nth_error (mem W (kd_heap d) (Pl true FVel)) (i * 3 + c) with Some a => Ok a | None => UB end) by (unfold rd, vget; cbn [fst snd]; now rewrite A). rewrite Rd.
    destruct (Nat.ltb_spec i N) as [Hi|Hi].
    - destruct (nth_error (mem W (kd_heap d) (Pl true FVel)) (i * 3 + c)) as [r|] eqn:E; [|apply nth_error_None in E; nia]. cbn [obind].
      split; [|intros; eexists; reflexivity]. intros p' [= <-]. eexists. split; [reflexivity|]. unfold wr. cbn [fst snd]. rewrite A.
      assert (P : psized N mesh W (list_set (kd_heap d) (v_id (W (Pl true FVel))) (list_set (mem W (kd_heap d) (Pl true FVel)) (i * 3 + c) x))) by (apply (psized_put (Pl true FVel)); [exact Hsz|exact I|rewrite list_set_length; exact B]).
      destruct S. constructor; cbn [p_kept p_hu p_du p_hv p_dv p_f p_old p_new]; auto; try (now apply wired_heap); unfold with_heap; cbn [kd_heap];
        try (rewrite (@put_other d) by (simpl; auto; discriminate); assumption); try (rewrite (@put_this d) by (simpl; auto); cbn [Bool.eqb orb]; rewrite ?s_hv0; auto; destruct same; auto).
      + rewrite s_old0. apply map_ext_in. intros k Hk. apply in_seq in Hk. rewrite !(@put_other d) by (simpl; auto; try discriminate; lia). reflexivity.
      + rewrite s_new0. apply map_ext_in. intros k Hk. apply in_seq in Hk. rewrite !(@put_other d) by (simpl; auto; try discriminate; lia). reflexivity.
    - destruct (nth_error (mem W (kd_heap d) (Pl true FVel)) (i * 3 + c)) as [r|] eqn:E; [exfalso; apply nth_some_lt in E; lia|]. cbn [obind].
      split; intros ? H; discriminate H.
  Qed.

  Ltac keep_mem S := first [exact (s_blocks S) | exact (s_dt S) | exact (s_kd S) | exact (s_kv S) | idtac].
  Lemma keep_sim d p : sim same N mesh W ref mass dt d p -> exists d', keep_views d = Ok d' /\ sim same N mesh W ref mass dt d' (Plain true (p_hu p) (p_du p) (p_hv p) (p_dv p) (p_f p) (p_old p) (p_new p)).
  Proof.
    intros S. destruct (host_views (s_wired S)) as (V1 & V2 & V3 & V4 & _). unfold keep_views. rewrite V1, V2, V3, V4. cbn [obind]. eexists. split; [reflexivity|].
    destruct S. constructor; auto. eapply wired_eq; [..|exact s_wired0]; reflexivity.
  Qed.
  Lemma push_disp_sim d p : sim same N mesh W ref mass dt d p -> exists d', update_with_new_displacement d = Ok d' /\
    sim same N mesh W ref mass dt d' (Plain (p_kept p) (p_hu p) (if p_kept p then p_hu p else p_du p) (p_hv p) (p_dv p) (p_f p) (p_old p) (p_new p)).
  Proof.
    intros S. pose proof (s_wired S) as Wd. pose proof (s_sized S) as Hsz. unfold update_with_new_displacement. rewrite (s_kd S). destruct (p_kept p) eqn:Ek; cbn [copy_views].
    - unfold deep_copy. rewrite !(w_ext Wd) by exact I. rewrite Nat.eqb_refl. destruct (mem_at (Pl true FDisp) Hsz I) as [A B]. unfold vget. rewrite A. cbn [obind]. eexists. split; [reflexivity|].
      assert (P : psized N mesh W (list_set (kd_heap d) (v_id (W (Pl false FDisp))) (mem W (kd_heap d) (Pl true FDisp)))) by (apply (psized_put (Pl false FDisp)); [exact Hsz|exact I|exact B]).
      destruct S. rewrite Ek in *. constructor; cbn [p_kept p_hu p_du p_hv p_dv p_f p_old p_new]; auto; try (now apply wired_heap); unfold with_heap; cbn [kd_heap];
        try (rewrite (@put_other d) by (simpl; auto; discriminate); assumption); try (rewrite (@put_this d) by (simpl; auto); cbn [Bool.eqb orb]; rewrite ?s_hu0; auto; destruct same; auto).
      + rewrite s_old0. apply map_ext_in. intros k Hk. apply in_seq in Hk. rewrite !(@put_other d) by (simpl; auto; try discriminate; lia). reflexivity.
      + rewrite s_new0. apply map_ext_in. intros k Hk. apply in_seq in Hk. rewrite !(@put_other d) by (simpl; auto; try discriminate; lia). reflexivity.
    - exists d. split; [reflexivity|]. destruct S. rewrite Ek in *. constructor; auto.
  Qed.
  Lemma push_vel_sim d p : sim same N mesh W ref mass dt d p -> exists d', update_with_new_velocity d = Ok d' /\
    sim same N mesh W ref mass dt d' (Plain (p_kept p) (p_hu p) (p_du p) (p_hv p) (if p_kept p then p_hv p else p_dv p) (p_f p) (p_old p) (p_new p)).
  Proof.
    intros S. pose proof (s_wired S) as Wd. pose proof (s_sized S) as Hsz. unfold update_with_new_velocity. rewrite (s_kv S). destruct (p_kept p) eqn:Ek; cbn [copy_views].
    - unfold deep_copy. rewrite !(w_ext Wd) by exact I. rewrite Nat.eqb_refl. destruct (mem_at (Pl true FVel) Hsz I) as [A B]. unfold vget. rewrite A. cbn [obind]. eexists. split; [reflexivity|].
      assert (P : psized N mesh W (list_set (kd_heap d) (v_id (W (Pl false FVel))) (mem W (kd_heap d) (Pl true FVel)))) by (apply (psized_put (Pl false FVel)); [exact Hsz|exact I|exact B]).
      destruct S. rewrite Ek in *. constructor; cbn [p_kept p_hu p_du p_hv p_dv p_f p_old p_new]; auto; try (now apply wired_heap); unfold with_heap; cbn [kd_heap];
        try (rewrite (@put_other d) by (simpl; auto; discriminate); assumption); try (rewrite (@put_this d) by (simpl; auto); cbn [Bool.eqb orb]; rewrite ?s_hv0; auto; destruct same; auto).
      + rewrite s_old0. apply map_ext_in. intros k Hk. apply in_seq in Hk. rewrite !(@put_other d) by (simpl; auto; try discriminate; lia). reflexivity.
      + rewrite s_new0. apply map_ext_in. intros k Hk. apply in_seq in Hk. rewrite !(@put_other d) by (simpl; auto; try discriminate; lia). reflexivity.
    - exists d. split; [reflexivity|]. destruct S. rewrite Ek in *. constructor; auto.
  Qed.
  Lemma update_sim d p : sim same N mesh W ref mass dt d p -> exists d', update_states d = Ok d' /\
    sim same N mesh W ref mass dt d' (Plain (p_kept p) (p_hu p) (p_du p) (p_hv p) (p_dv p) (p_f p) (p_new p) (p_new p)).
  Proof.
    intros S. destruct (states_whole (s_wired S) (s_sized S) (s_blocks S) Gb Hn) as (d' & E & (h & ->) & P & Fr & New). exists (with_heap d h). split; [exact E|].
    unfold with_heap in P, Fr, New. cbn [kd_heap] in P, Fr, New.
    destruct S. constructor; cbn [p_kept p_hu p_du p_hv p_dv p_f p_old p_new]; auto; try (now apply wired_heap); unfold with_heap; cbn [kd_heap]; try (rewrite Fr by (simpl; auto); assumption).
    - rewrite s_new0. apply map_ext_in. intros k Hk. apply in_seq in Hk. destruct (New k) as [-> ->]; [lia|]. reflexivity.
    - rewrite s_new0. apply map_ext_in. intros k Hk. apply in_seq in Hk. rewrite !Fr by (simpl; auto; lia). reflexivity.
  Qed.
  Lemma force_sim sched d p t0 t1 : valid_sched sched -> sim same N mesh W ref mass dt d p ->
    (forall p', plain_step same reduce N ref mesh p (KForce t0 t1) = Ok p' -> exists d', compute_internal_force sched true reduce t0 t1 d = Ok d' /\ sim same N mesh W ref mass dt d' p') /\
    (forall d', compute_internal_force sched true reduce t0 t1 d = Ok d' -> exists p', plain_step same reduce N ref mesh p (KForce t0 t1) = Ok p').
  Proof.
    intros Hs S. cbn [plain_step].
    destruct (force_whole (s_wired S) (s_sized S) (s_blocks S) Gb Hn t0 t1 reduce Hs Hred) as [FA FB].
    set (oF := fun i => mem W (kd_heap d) (Pl false (FF STEP_N i))). set (oS := fun i => mem W (kd_heap d) (Pl false (FS STEP_N i))).
    assert (Ein : combine mesh (p_old p) = map (fun i => (nblock mesh i, (oF i, oS i))) (seq 0 (length mesh))).
    { rewrite (s_old S). apply (combine_index mesh (fun i => (oF i, oS i))). }
    rewrite Ein. rewrite <- (s_ref S), <- (s_du S). set (r := mem W (kd_heap d) (Pl false FRef)) in *. set (u := mem W (kd_heap d) (Pl false FDisp)) in *.
    split.
    - intros p' H. destruct (serial_force t0 t1 r u _) as [f| | |] eqn:Ef in H; try discriminate. cbn [obind] in H.
      destruct (FA f Ef) as (d' & E & (h & ->) & P & F1 & F2 & Fr & Ha). exists (with_heap d h). split; [exact E|].
      assert (En : omapM (fun x => serial_points t0 t1 r u (fst x) (snd x)) (map (fun i => (nblock mesh i, (oF i, oS i))) (seq 0 (length mesh))) =
        Ok (map (fun i => (new_gradients (mb_num_elem (nblock mesh i)) (mb_conn (nblock mesh i)) r u, new_stress (mb_num_elem (nblock mesh i)) (mb_mat (nblock mesh i)) t0 t1 (oF i) (new_gradients (mb_num_elem (nblock mesh i)) (mb_conn (nblock mesh i)) r u) (oS i))) (seq 0 (length mesh)))).
      { clear - Ha. assert (G : forall l, (forall i, In i l -> i < length mesh) -> omapM (fun x => serial_points t0 t1 r u (fst x) (snd x)) (map (fun i => (nblock mesh i, (oF i, oS i))) l) =
          Ok (map (fun i => (new_gradients (mb_num_elem (nblock mesh i)) (mb_conn (nblock mesh i)) r u, new_stress (mb_num_elem (nblock mesh i)) (mb_mat (nblock mesh i)) t0 t1 (oF i) (new_gradients (mb_num_elem (nblock mesh i)) (mb_conn (nblock mesh i)) r u) (oS i))) l)).
        { induction l as [|i l IH]; intros Hl; [reflexivity|]. cbn [map omapM fst snd]. rewrite (@points_eq mesh t0 t1 r u oF oS i) by (apply Ha; apply Hl; now left). cbn [obind]. rewrite IH by (intros; apply Hl; now right). reflexivity. }
        apply G. intros i Hi. apply in_seq in Hi. lia. }
      rewrite En in H. cbn [obind] in H. injection H as <-. unfold with_heap in P, F1, F2, Fr. cbn [kd_heap] in P, F1, F2, Fr.
      destruct S. constructor; cbn [p_kept p_hu p_du p_hv p_dv p_f p_old p_new]; auto; try (now apply wired_heap); unfold with_heap; cbn [kd_heap]; try (rewrite Fr by (simpl; auto); assumption); try (rewrite Fr by (simpl; auto); reflexivity).
      + rewrite s_old0. apply map_ext_in. intros k Hk. apply in_seq in Hk. rewrite !Fr by (simpl; auto; lia). reflexivity.
      + apply map_ext_in. intros k Hk. apply in_seq in Hk. destruct (F2 k) as [-> ->]; [lia|]. reflexivity.
    - intros d' H. destruct (FB d' H) as (f & Ef). destruct (FA f Ef) as (d'' & E & (h & ->) & P & F1 & F2 & Fr & Ha). assert (Ef' : serial_force t0 t1 r u (map (fun i => (nblock mesh i, (oF i, oS i))) (seq 0 (length mesh))) = Ok f) by exact Ef. rewrite Ef'. cbn [obind].
      assert (G : forall l, (forall i, In i l -> i < length mesh) -> exists q, omapM (fun x => serial_points t0 t1 r u (fst x) (snd x)) (map (fun i => (nblock mesh i, (oF i, oS i))) l) = Ok q).
      { clear - Ha. induction l as [|i l IH]; intros Hl; [eexists; reflexivity|]. cbn [map omapM fst snd]. rewrite (@points_eq mesh t0 t1 r u oF oS i) by (apply Ha; apply Hl; now left). cbn [obind].
        destruct IH as [q ->]; [intros; apply Hl; now right|]. eexists; reflexivity. }
      destruct (G (seq 0 (length mesh))) as [q Eq]; [intros i Hi; apply in_seq in Hi; lia|]. rewrite Eq. eexists; reflexivity.
  Qed.
End Sim.
