(** ComputeLumpedMass as a whole, and the memory after ComputeInternalForce. *)
From Coq Require Import Reals Lra Sorted Permutation FunctionalExtensionality.
From Verif Require Import Base Strings ListLemmas DataModel DataProofs Loops ElemDataProofs4 TensorModel TensorSpec ElementModel ElementSpec ElementProofs BlockModel BlockProofs KokkosModel KokkosProofs KokkosSpec KokkosProofs2 KokkosProofs3 KokkosProofs4 KokkosProofs5 KokkosProofs6 KokkosProofs7 KokkosProofs8 KokkosProofs9 KokkosProofs10 KokkosProofs11 KokkosProofs12 KokkosProofs13 KokkosProofs14.
Set Implicit Arguments.
Local Open Scope nat_scope.
Local Open Scope list_scope.
Local Notation length := List.length.

Definition mem (W : place -> view) (h : heap) (x : place) : list R := match nth_error h (v_id (W x)) with Some y => y | None => [] end.
Lemma mem_at N mesh W h x : psized N mesh W h -> vplace mesh x -> nth_error h (v_id (W x)) = Some (mem W h x) /\ length (mem W h x) = psize N mesh x.
Proof. intros H Hx. destruct (H x Hx) as (y & Y & L). unfold mem. rewrite Y. auto. Qed.
Lemma psized_put N mesh W h x y : psized N mesh W h -> vplace mesh x -> length y = psize N mesh x -> psized N mesh W (list_set h (v_id (W x)) y).
Proof. intros H Hx L. destruct (mem_at x H Hx) as [A B]. apply psized_sizes with (h := h); auto. eapply sizes_set; [exact A|]. congruence. Qed.
Lemma psized_other N mesh W h g y : psized N mesh W h -> (forall x, vplace mesh x -> v_id (W x) <> g) -> psized N mesh W (list_set h g y).
Proof. intros H Hg x Hx. destruct (H x Hx) as (z & Z & L). exists z. split; auto. now rewrite nth_set_other by (now apply Hg). Qed.
Lemma psized_keeps N mesh W h h' : keeps h h' -> psized N mesh W h -> psized N mesh W h'.
Proof. intros [_ K] H x Hx. destruct (H x Hx) as (z & Z & L). exists z. split; auto. rewrite K; auto. eapply nth_some_lt; exact Z. Qed.
Lemma psized_run N mesh W (upd : nat -> heap -> heap) n : (forall k h, k < n -> psized N mesh W h -> psized N mesh W (upd k h)) ->
  forall h, psized N mesh W h -> psized N mesh W (run upd n h).
Proof. intros H h Hh. assert (G : forall k, k <= n -> psized N mesh W (run upd k h)) by (induction k; intros; simpl; auto; apply H; auto; try lia; apply IHk; lia). now apply G. Qed.
Lemma mem_set W h x y z : z < length h -> mem W (list_set h z y) x = if v_id (W x) =? z then y else mem W h x.
Proof. intros Hz. unfold mem. destruct (Nat.eqb_spec (v_id (W x)) z) as [->|]; [now rewrite nth_set_same|now rewrite nth_set_other]. Qed.

Lemma mass_whole sched keep same dbl_max reduce N mesh W d : valid_sched sched -> wired same N mesh W d -> psized N mesh W (kd_heap d) -> kd_blocks d = unconns mesh ->
  StronglySorted lt (map mb_id mesh) -> (forall k, k < length mesh -> good_block N (nblock mesh k)) -> sep_ok keep mesh -> (forall x : list R, length (reduce x) = length x) ->
  (forall m, serial_mass (mem W (kd_heap d) (Pl false FRef)) mesh = Ok m ->
    exists d', compute_lumped_mass_data sched keep dbl_max reduce d = Ok d' /\ wired same N mesh W d' /\ psized N mesh W (kd_heap d') /\ kd_blocks d' = conns mesh /\
      kd_same d' = kd_same d /\ kd_disp d' = kd_disp d /\ kd_vel d' = kd_vel d /\
      kd_dt d' = serial_time_step dbl_max (mem W (kd_heap d) (Pl true FRef)) (mem W (kd_heap d) (Pl true FDisp)) mesh /\
      mem W (kd_heap d') (Pl true FMass) = reduce (map m (seq 0 N)) /\
      (forall b f, vfield mesh f -> f <> FMass -> mem W (kd_heap d') (Pl b f) = mem W (kd_heap d) (Pl b f))) /\
  (forall d', compute_lumped_mass_data sched keep dbl_max reduce d = Ok d' -> exists m, serial_mass (mem W (kd_heap d) (Pl false FRef)) mesh = Ok m).
Proof.
  intros Hs Wd Hsz Eu Sm Gb Sp Hred.
  set (dr := mem W (kd_heap d) (Pl false FRef)). set (rv := mem W (kd_heap d) (Pl true FRef)). set (dv := mem W (kd_heap d) (Pl true FDisp)).
  assert (Eb : map fst (kd_blocks d) = map mb_id mesh /\ map (fun e : nat * kblock => kb_mesh (snd e)) (kd_blocks d) = mesh).
  { rewrite Eu. unfold unconns. rewrite !map_map. cbn [fst snd kb_mesh]. split; [reflexivity|apply map_id]. }
  assert (Hdr : nth_error (kd_heap d) (v_id (W (Pl false FRef))) = Some dr) by (apply (mem_at (Pl false FRef) Hsz I)).
  assert (Hrv : nth_error (kd_heap d) (v_id (W (Pl true FRef))) = Some rv) by (apply (mem_at (Pl true FRef) Hsz I)).
  assert (Hdv : nth_error (kd_heap d) (v_id (W (Pl true FDisp))) = Some dv) by (apply (mem_at (Pl true FDisp) Hsz I)).
  unfold compute_lumped_mass_data.
  assert (Es : map (fun e : nat * kblock => mb_num_elem (kb_mesh (snd e))) (kd_blocks d) = map mb_num_elem mesh) by (rewrite Eu; unfold unconns; now rewrite map_map).
  rewrite Es. assert (El : length (kd_blocks d) = length (map mb_num_elem mesh)) by (rewrite Eu; unfold unconns; now rewrite !map_length).
  rewrite El. destruct (@gathered_ok keep (kd_heap d) (map mb_num_elem mesh) 8 Sp) as (h1 & gm & E1 & K1 & L1 & H1 & J1). rewrite E1. cbn [obind fst snd].
  assert (Gm : forall k, k < length mesh -> exists v, nth_error gm k = Some v /\ zeroed h1 v (mb_num_elem (nblock mesh k)) 8 /\ length (kd_heap d) <= v_id v).
  { intros k Hk. apply H1. apply map_nth_error. now apply nblock_at. }
  destruct (@field_views same N mesh W d Wd) as (V1 & V2 & _). rewrite V1. cbn [obind]. rewrite V2.
  set (h2 := list_set (list_set h1 (v_id (W (Pl true FMass))) (repeat 0%R N)) (v_id (W (Pl false FMass))) (repeat 0%R N)).
  assert (Hsz1 : psized N mesh W h1) by (eapply psized_keeps; eauto).
  assert (Hsza : psized N mesh W (list_set h1 (v_id (W (Pl true FMass))) (repeat 0%R N))) by (apply psized_put; [exact Hsz1|exact I|simpl; rewrite repeat_length; lia]).
  assert (F : forall K : heap -> outcome kdata, obind (fill h1 (W (Pl true FMass)) 0) (fun h => obind (Ok (W (Pl false FMass))) (fun md => obind (fill h md 0) K)) = K h2).
  { intros K. unfold fill at 1, vget. destruct (mem_at _ Hsz1 (I : vplace mesh (Pl true FMass))) as [A B]. rewrite A. cbn [obind]. rewrite B. simpl psize. rewrite Nat.mul_1_r.
    unfold fill, vget. destruct (mem_at _ Hsza (I : vplace mesh (Pl false FMass))) as [A' B']. rewrite A'. cbn [obind]. rewrite B'. simpl psize. now rewrite Nat.mul_1_r. }
  assert (Hsz2 : psized N mesh W h2) by (apply psized_put; [exact Hsza|exact I|simpl; rewrite repeat_length; lia]).
  pose proof (@mass_phase sched same dbl_max reduce N mesh W d Hs Wd Hsz Eb Gb Hred dr rv dv Hdr Hrv Hdv h1 gm K1 Gm J1) as MP.
  set (st := start dbl_max N W d h1) in *. fold h2 in st.
  assert (Est : st = KD (kd_same d) (kd_tables d) h2 (kd_ids d) (kd_blocks d) (kd_gref d) (kd_gdisp d) (kd_gforce d) dbl_max (kd_disp d) (kd_vel d)) by reflexivity.
  match goal with |- context [obind (fill h1 (W (Pl true FMass)) 0) ?kk] =>
    assert (Fg : obind (fill h1 (W (Pl true FMass)) 0) kk =
      obind (ofold (mass_block sched dbl_max gm) (numbered (kd_blocks d)) st) (fun d => do h <- deep_copy (kd_heap d) (W (Pl true FMass)) (W (Pl false FMass)); do m <- vget h (v_id (W (Pl true FMass))); Ok (with_heap d (list_set h (v_id (W (Pl true FMass))) (reduce m)))))
  end.
  { etransitivity; [apply F|]. rewrite Est. reflexivity. }
  rewrite Fg. clear Fg F.
  set (dm := map (mtotal mesh dr (length mesh)) (seq 0 N)).
  set (gst := grun (mass_step dbl_max N mesh W dr rv dv gm) (length mesh) st) in *.
  destruct (@run_fields dbl_max N mesh W d dr rv dv h1 gm (length mesh)) as (R1 & R2 & R3 & R4 & R5 & R6 & R7 & R8 & R9). fold st in R1, R2, R3, R4, R5, R6, R7, R8, R9. fold gst in R1, R2, R3, R4, R5, R6, R7, R8, R9. fold h2 in R3.
  set (hk := run (mass_heap N mesh W dr gm) (length mesh) h2) in *.
  assert (Low : forall x, vplace mesh x -> v_id (W x) < length (kd_heap d)) by (intros x Hx; eapply nth_some_lt; apply (mem_at x Hsz Hx)).
  assert (Hszk : psized N mesh W hk).
  { apply psized_run; auto. intros k h Hk Hh. unfold mass_heap. apply (psized_put (Pl false FMass)); [|exact I|simpl; rewrite map_length, seq_length; lia].
    apply psized_other.
    - apply (psized_put (PG Gref k)); [exact Hh|exact Hk|]. now rewrite gath_length.
    - intros x Hx. destruct (Gm k Hk) as (v & G1 & _ & G3). rewrite (nth_error_nth gm k (View 0 0) G1). pose proof (Low x Hx). lia. }
  assert (Dk : nth_error hk (v_id (W (Pl false FMass))) = Some dm) by (exact (@run_mass reduce N mesh W d Hsz Gb Hred dr rv h1 gm K1 Gm J1 (length mesh))).
  assert (Ldm : length dm = N) by (unfold dm; now rewrite map_length, seq_length).
  assert (Tail : (do h <- deep_copy (kd_heap gst) (W (Pl true FMass)) (W (Pl false FMass)); do m <- vget h (v_id (W (Pl true FMass))); Ok (with_heap gst (list_set h (v_id (W (Pl true FMass))) (reduce m)))) =
    Ok (with_heap gst (list_set (list_set hk (v_id (W (Pl true FMass))) dm) (v_id (W (Pl true FMass))) (reduce dm)))).
  { rewrite R3. unfold deep_copy. rewrite !(w_ext Wd) by exact I. rewrite Nat.eqb_refl. unfold vget at 1. rewrite Dk. cbn [obind].
    unfold vget. rewrite nth_set_same; [reflexivity|]. eapply nth_some_lt. apply (mem_at (Pl true FMass) Hszk I). }
  split.
  - intros m Hm. assert (Ha : forall i, i < length mesh -> mass_all mesh dr i).
    { intros i Hi. eapply (@serial_mass_inv reduce N mesh d Gb Hred dr rv h1 gm Gm J1 (length mesh) m); auto. rewrite firstn_all. exact Hm. }
    eexists. split; [rewrite (proj1 MP Ha); cbn [obind]; exact Tail|].
    assert (Em : dm = map m (seq 0 N)).
    { destruct (@serial_mass_ok reduce N mesh d Gb Hred dr rv h1 gm Gm J1 (length mesh)) as (l & El' & Hl); auto. rewrite firstn_all in El'. rewrite Hm in El'. injection El' as <-. unfold dm. apply map_ext. intros j. symmetry. apply Hl. }
    assert (Hl : v_id (W (Pl true FMass)) < length hk) by (eapply nth_some_lt; apply (mem_at (Pl true FMass) Hszk I)).
    rewrite list_set_set. unfold with_heap. cbn [kd_heap kd_blocks kd_same kd_disp kd_vel kd_dt].
    split; [eapply wired_eq; [..|exact Wd]; simpl; now symmetry|].
    split; [apply (psized_put (Pl true FMass)); [exact Hszk|exact I|rewrite Hred, Ldm; simpl; lia]|].
    split; [|split; [exact R1|split; [exact R8|split; [exact R9|split]]]].
    + pose proof (@run_blocks dbl_max reduce N mesh W d Sm Gb Hred dr rv dv h1 gm Gm J1 (length mesh)) as RB. fold st in RB. unfold gst. rewrite RB by auto. rewrite firstn_all, skipn_all. unfold unconns. simpl. now rewrite app_nil_r.
    + pose proof (@run_dt dbl_max reduce N mesh W d Gb Hred dr rv dv h1 gm Gm J1 (length mesh) (le_n _)) as RD. fold st in RD. unfold gst. rewrite RD. now rewrite firstn_all.
    + split; [rewrite mem_set by exact Hl; rewrite Nat.eqb_refl; now rewrite Em|].
      intros b f Vf Hf. rewrite mem_set by exact Hl.
      destruct (Nat.eqb_spec (v_id (W (Pl b f))) (v_id (W (Pl true FMass)))) as [E|E].
      * exfalso. apply (w_inj Wd (Pl b f) (Pl true FMass) Vf I) in E. simpl in E. congruence.
      * unfold mem. pose proof (@run_place same reduce N mesh W d Wd Hsz Gb Hred dr rv h1 gm K1 Gm J1 (length mesh) (Pl b f) (le_n _) Vf) as RP. change (match f with FMass => False | _ => True end -> nth_error hk (v_id (W (Pl b f))) = nth_error (kd_heap d) (v_id (W (Pl b f)))) in RP. rewrite RP; [reflexivity|]. destruct f; auto.
  - intros d' H. match type of H with obind ?x _ = _ => destruct x as [s| | |] eqn:E; [|discriminate H..] end.
    destruct (proj2 MP s eq_refl) as [_ Ha]. destruct (@serial_mass_ok reduce N mesh d Gb Hred dr rv h1 gm Gm J1 (length mesh)) as (l & El' & Hl); auto. rewrite firstn_all in El'. eauto.
Qed.
