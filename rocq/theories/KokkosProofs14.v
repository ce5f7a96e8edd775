(** ModelData::ComputeLumpedMass on an initialised object. *)
From Coq Require Import Reals Lra Sorted Permutation FunctionalExtensionality.
From Verif Require Import Base Strings ListLemmas DataModel DataProofs Loops ElemDataProofs4 TensorModel TensorSpec ElementModel ElementSpec ElementProofs BlockModel BlockProofs KokkosModel KokkosProofs KokkosSpec KokkosProofs2 KokkosProofs3 KokkosProofs4 KokkosProofs5 KokkosProofs7 KokkosProofs8 KokkosProofs9 KokkosProofs10 KokkosProofs11 KokkosProofs12 KokkosProofs13.
Set Implicit Arguments.
Local Open Scope nat_scope.
Local Open Scope list_scope.
Local Notation length := List.length.

Lemma put_at {V} k (v v0 : V) l1 l2 : StronglySorted lt (map fst (l1 ++ (k, v0) :: l2)) -> map_put k v (l1 ++ (k, v0) :: l2) = l1 ++ (k, v) :: l2.
Proof.
  induction l1 as [|[a x] l1 IH]; simpl; intros H.
  - rewrite Nat.ltb_irrefl, Nat.eqb_refl. reflexivity.
  - inversion H as [|? ? S F]; subst. rewrite Forall_forall in F.
    assert (a < k) by (apply F; rewrite map_app; apply in_or_app; right; simpl; auto).
    replace (k <? a) with false by (symmetry; apply Nat.ltb_ge; lia). replace (k =? a) with false by (symmetry; apply Nat.eqb_neq; lia). now rewrite IH.
Qed.
Lemma omapM_conn (conn : list nat) n : length conn = n -> omapM (vget conn) (seq 0 n) = Ok conn.
Proof.
  intros L. rewrite (@omapM_ok nat nat (vget conn) (fun k => nth k conn 0)).
  - f_equal. apply nth_ext with (d := 0) (d' := 0); [rewrite map_length, seq_length; auto|]. intros k Hk. rewrite map_length, seq_length in Hk.
    rewrite (nth_indep _ 0 (nth 0 conn 0)) by (now rewrite map_length, seq_length). rewrite (map_nth (fun k => nth k conn 0) (seq 0 n) 0), seq_nth by assumption. reflexivity.
  - intros k Hk. apply in_seq in Hk. unfold vget. now rewrite (nth_error_nth' conn 0) by lia.
Qed.

Lemma skipn_nth {V} (l : list V) k x : nth_error l k = Some x -> skipn k l = x :: skipn (S k) l.
Proof. revert k; induction l as [|a l IH]; intros [|k] H; try discriminate; [injection H as ->; reflexivity|]. exact (IH k H). Qed.
Lemma firstn_nth {V} (l : list V) k x : nth_error l k = Some x -> firstn (S k) l = firstn k l ++ [x].
Proof. revert k; induction l as [|a l IH]; intros [|k] H; try discriminate; [injection H as ->; reflexivity|]. cbn [firstn]. rewrite <- app_comm_cons. f_equal. exact (IH k H). Qed.

Section Mass.
  Variables (sched : scheduler) (keep same : bool) (dbl_max : R) (reduce : list R -> list R) (N : nat) (mesh : list mblock) (W : place -> view) (d : kdata).
  Hypothesis Hs : valid_sched sched.
  Hypothesis Wd : wired same N mesh W d.
  Hypothesis Hsz : psized N mesh W (kd_heap d).
  Hypothesis Eb : map fst (kd_blocks d) = map mb_id mesh /\ map (fun e => kb_mesh (snd e)) (kd_blocks d) = mesh.
  Hypothesis Sm : StronglySorted lt (map mb_id mesh).
  Hypothesis Gb : forall k, k < length mesh -> good_block N (nblock mesh k).
  Hypothesis Sp : sep_ok keep mesh.
  Hypothesis Hred : forall x, length (reduce x) = length x.
  Variables (dr rv dv : list R).
  Hypothesis Hdr : nth_error (kd_heap d) (v_id (W (Pl false FRef))) = Some dr.
  Hypothesis Hrv : nth_error (kd_heap d) (v_id (W (Pl true FRef))) = Some rv.
  Hypothesis Hdv : nth_error (kd_heap d) (v_id (W (Pl true FDisp))) = Some dv.
  Let ne i := mb_num_elem (nblock mesh i).
  Let cn i := mb_conn (nblock mesh i).
  Let mt i := mb_mat (nblock mesh i).
  Let len := length mesh.
  Lemma dr_length : length dr = N * 3.
  Proof. destruct (Hsz (Pl false FRef) I) as (x & X1 & X2). rewrite Hdr in X1. injection X1 as <-. exact X2. Qed.

  Variables (h1 : heap) (gm : list view).
  Hypothesis K1 : keeps (kd_heap d) h1.
  Hypothesis Gm : forall k, k < len -> exists v, nth_error gm k = Some v /\ zeroed h1 v (ne k) 8 /\ length (kd_heap d) <= v_id v.
  Hypothesis Gi : forall i j u v, nth_error gm i = Some u -> nth_error gm j = Some v -> v_id u = v_id v -> i = j.
  Let M b := v_id (W (Pl b FMass)).
  Let g k := v_id (nth k gm (View 0 0)).
  Let h2 := list_set (list_set h1 (M true) (repeat 0%R N)) (M false) (repeat 0%R N).
  Lemma place_lt x : vplace mesh x -> v_id (W x) < length (kd_heap d).
  Proof. intros Hx. destruct (Hsz x Hx) as (y & Y & _). eapply nth_some_lt; exact Y. Qed.
  Lemma old_at x : vplace mesh x -> nth_error h1 (v_id (W x)) = nth_error (kd_heap d) (v_id (W x)).
  Proof. intros Hx. apply K1. now apply place_lt. Qed.
  Lemma gm_at k : k < len -> nth_error gm k = Some (nth k gm (View 0 0)) /\ nth_error h1 (g k) = Some (repeat 0%R (ne k * 8)) /\ length (kd_heap d) <= g k.
  Proof.
    intros Hk. destruct (Gm Hk) as (v & V1 & (V2 & V3) & V4). assert (E : nth k gm (View 0 0) = v) by (now apply nth_error_nth).
    unfold g. rewrite E. auto.
  Qed.
  Lemma g_ne i j : i < len -> j < len -> i <> j -> g i <> g j.
  Proof. intros Hi Hj Hne E. apply Hne. destruct (gm_at Hi) as (A & _). destruct (gm_at Hj) as (B & _). exact (Gi i j A B E). Qed.
  Lemma g_place k x : k < len -> vplace mesh x -> v_id (W x) <> g k.
  Proof. intros Hk Hx. destruct (gm_at Hk) as (_ & _ & A). pose proof (place_lt x Hx). lia. Qed.
  Lemma mass_place b x : vplace mesh x -> (match x with Pl _ FMass => False | _ => True end) -> v_id (W x) <> M b.
  Proof. intros Hx Hm E. apply (w_inj Wd x (Pl b FMass) Hx I) in E. destruct x as [c []|]; try discriminate; contradiction. Qed.
  Lemma gref_ne i x : i < len -> vplace mesh x -> x <> PG Gref i -> v_id (W x) <> v_id (W (PG Gref i)).
  Proof. intros Hi Hx Hne E. apply (w_inj Wd x (PG Gref i) Hx Hi) in E. destruct x; simpl in E; congruence. Qed.
  Lemma h2_place x : vplace mesh x -> (match x with Pl _ FMass => False | _ => True end) -> nth_error h2 (v_id (W x)) = nth_error (kd_heap d) (v_id (W x)).
  Proof. intros Hx Hm. unfold h2. rewrite !nth_set_other by (now apply mass_place). now apply old_at. Qed.
  Lemma mass_lt b : M b < length h1.
  Proof. pose proof (place_lt (Pl b FMass) I). destruct K1 as [A _]. unfold M. lia. Qed.
  Lemma h2_mass b : nth_error h2 (M b) = Some (repeat 0%R N).
  Proof.
    unfold h2. destruct (Nat.eq_dec (M b) (M false)) as [E|E].
    - rewrite E. apply nth_set_same. rewrite list_set_length. apply mass_lt.
    - rewrite nth_set_other by assumption. destruct b; [|congruence]. apply nth_set_same. apply mass_lt.
  Qed.
  Lemma h2_g k : k < len -> nth_error h2 (g k) = Some (repeat 0%R (ne k * 8)).
  Proof. intros Hk. unfold h2. rewrite !nth_set_other by (apply not_eq_sym, (@g_place k (Pl _ FMass) Hk I)). apply (gm_at Hk). Qed.

  Definition mass_heap (i : nat) (h : heap) : heap :=
    list_set (list_set (list_set h (v_id (W (PG Gref i))) (gath (ne i) (cn i) dr)) (g i) (new_mass (ne i) (cn i) (km_density (mt i)) dr))
      (M false) (map (fun j => nth j (match nth_error h (M false) with Some x => x | None => [] end) 0 + mass_amount (ne i) (cn i) (km_density (mt i)) dr j)%R (seq 0 N)).
  Definition block_dt (i : nat) : R := block_critical_time_step dbl_max (km_bulk (mt i)) (km_density (mt i)) (arr_of rv) (arr_of dv) (ne i) (conn_of (cn i)) zeros.
  Definition mass_step (i : nat) (s : kdata) : kdata :=
    KD (kd_same s) (kd_tables s) (mass_heap i (kd_heap s)) (kd_ids s) (map_put (mb_id (nblock mesh i)) (KBlock (nblock mesh i) (cn i)) (kd_blocks s)) (kd_gref s) (kd_gdisp s) (kd_gforce s)
       (lower (block_dt i) (kd_dt s)) (kd_disp s) (kd_vel s).
  Definition start : kdata := KD (kd_same d) (kd_tables d) h2 (kd_ids d) (kd_blocks d) (kd_gref d) (kd_gdisp d) (kd_gforce d) dbl_max (kd_disp d) (kd_vel d).
  Definition mass_all (i : nat) : Prop := forall e, e < ne i -> okv (elem_mass (cn i) (km_density (mt i)) dr e).

  Lemma mass_heap_length i h : length (mass_heap i h) = length h.
  Proof. unfold mass_heap. now rewrite !list_set_length. Qed.
  Lemma run_fields k : kd_same (grun mass_step k start) = kd_same d /\ kd_tables (grun mass_step k start) = kd_tables d /\ kd_heap (grun mass_step k start) = run mass_heap k h2 /\
    kd_ids (grun mass_step k start) = kd_ids d /\ kd_gref (grun mass_step k start) = kd_gref d /\ kd_gdisp (grun mass_step k start) = kd_gdisp d /\ kd_gforce (grun mass_step k start) = kd_gforce d /\
    kd_disp (grun mass_step k start) = kd_disp d /\ kd_vel (grun mass_step k start) = kd_vel d.
  Proof. induction k as [|k (A & B & C & D & E & F & G & H & J)]; [repeat split|]. simpl. rewrite A, B, C, D, E, F, G, H, J. repeat split. Qed.
  Lemma run_place k x : k <= len -> vplace mesh x -> (match x with Pl _ FMass | PG Gref _ => False | _ => True end) ->
    nth_error (run mass_heap k h2) (v_id (W x)) = nth_error (kd_heap d) (v_id (W x)).
  Proof.
    intros Hk Hx Hm. rewrite run_other.
    - apply h2_place; auto. destruct x as [b []|]; auto.
    - intros j h Hj. unfold mass_heap. rewrite !nth_set_other; auto.
      + apply gref_ne; auto; [lia|]. intros ->. exact Hm.
      + apply g_place; auto. lia.
      + apply mass_place; auto. destruct x as [b []|]; auto.
  Qed.
  Lemma run_gref k i : i < len -> k <= i -> nth_error (run mass_heap k h2) (v_id (W (PG Gref i))) = nth_error (kd_heap d) (v_id (W (PG Gref i))).
  Proof.
    intros Hi Hk. rewrite run_other.
    - now apply h2_place.
    - intros j h Hj. unfold mass_heap. rewrite !nth_set_other; auto.
      + apply gref_ne; simpl; auto; [unfold len in *; lia|]. intros [= E]. lia.
      + apply g_place; auto. lia.
      + apply mass_place; simpl; auto.
  Qed.
  Lemma run_g k i : i < len -> k <= i -> nth_error (run mass_heap k h2) (g i) = Some (repeat 0%R (ne i * 8)).
  Proof.
    intros Hi Hk. rewrite run_other; [now apply h2_g|]. intros j h Hj. unfold mass_heap. rewrite !nth_set_other; auto.
    - apply not_eq_sym. apply (@g_place i (PG Gref j)); simpl; auto. unfold len in *. lia.
    - apply g_ne; auto; lia.
    - apply not_eq_sym. apply (@g_place i (Pl false FMass)); simpl; auto.
  Qed.
  Definition mtotal (k j : nat) : R := lsum (seq 0 k) (fun i => mass_amount (ne i) (cn i) (km_density (mt i)) dr j).
  Lemma run_mass_length k : length (run mass_heap k h2) = length h2.
  Proof. apply run_length. apply mass_heap_length. Qed.
  Lemma h2_length : length h2 = length h1.
  Proof. unfold h2. now rewrite !list_set_length. Qed.
  Lemma run_mass k : nth_error (run mass_heap k h2) (M false) = Some (map (mtotal k) (seq 0 N)).
  Proof.
    induction k as [|k IH].
    - simpl. rewrite h2_mass. f_equal. apply list_of_map; [apply repeat_length|]. intros j Hj. rewrite nth_error_repeat by assumption. reflexivity.
    - cbn [run]. unfold mass_heap at 1. rewrite IH. rewrite nth_set_same by (rewrite !list_set_length, run_mass_length, h2_length; apply mass_lt). f_equal.
      apply map_ext_in. intros j Hj. apply in_seq in Hj. rewrite nth_mapseq by lia. unfold mtotal at 2. now rewrite lsum_snoc.
  Qed.
  Lemma mass_heap_at k : mass_heap k (run mass_heap k h2) =
    list_set (list_set (list_set (run mass_heap k h2) (v_id (W (PG Gref k))) (gath (ne k) (cn k) dr)) (g k) (new_mass (ne k) (cn k) (km_density (mt k)) dr))
      (M false) (map (fun j => nth j (map (mtotal k) (seq 0 N)) 0 + mass_amount (ne k) (cn k) (km_density (mt k)) dr j)%R (seq 0 N)).
  Proof. unfold mass_heap at 1. now rewrite run_mass. Qed.
  Lemma blocks_at k x : nth_error (kd_blocks d) k = Some x -> k < len /\ fst x = mb_id (nblock mesh k) /\ kb_mesh (snd x) = nblock mesh k.
  Proof.
    destruct Eb as [E1 E2]. intros H. pose proof (map_nth_error fst _ _ H) as A. pose proof (map_nth_error (fun e : nat * kblock => kb_mesh (snd e)) _ _ H) as B.
    rewrite E2 in B. rewrite E1 in A. assert (Hk : k < len) by (eapply nth_some_lt; exact B). split; [exact Hk|].
    rewrite (nblock_at mesh Hk) in B. injection B as B. rewrite (map_nth_error mb_id _ _ (nblock_at mesh Hk)) in A. injection A as A. auto.
  Qed.
  Lemma blocks_len : length (kd_blocks d) = len.
  Proof. destruct Eb as [_ E]. rewrite <- (map_length (fun e : nat * kblock => kb_mesh (snd e))). now rewrite E. Qed.
  Lemma field_views : host_node (kd_tables d) KScalarNode (f_mass (kd_ids d)) = Ok (W (Pl true FMass)) /\ dev_node (kd_tables d) KScalarNode (f_mass (kd_ids d)) = Ok (W (Pl false FMass)) /\
    dev_node (kd_tables d) KVectorNode (f_ref (kd_ids d)) = Ok (W (Pl false FRef)) /\
    (exists r, get_field_id (kd_tables d) (lit "reference_coordinate") = Ok r /\ host_node (kd_tables d) KVectorNode (Some r) = Ok (W (Pl true FRef))) /\
    (exists u, get_field_id (kd_tables d) (lit "displacement") = Ok u /\ host_node (kd_tables d) KVectorNode (Some u) = Ok (W (Pl true FDisp))).
  Proof.
    destruct (w_keys Wd) as (i & iF & iS & Lb & (I1 & I2 & I3 & I4 & I5) & Ip & Lk). rewrite I4, I1.
    destruct (look_node _ _ (Lk FMass I)) as [A1 A2]. destruct (look_node _ _ (Lk FRef I)) as [B1 B2]. destruct (look_node _ _ (Lk FDisp I)) as [C1 C2].
    destruct Lb as [L0 L1 L2 L3 L4 L5 L6 L7]. unfold label_of in *.
    repeat split; auto.
    - exists (n_ref i). unfold get_field_id. rewrite L1. auto.
    - exists (n_disp i). unfold get_field_id. rewrite L2. auto.
  Qed.
  Lemma mass_phase :
    ((forall i, i < len -> mass_all i) -> ofold (mass_block sched dbl_max gm) (numbered (kd_blocks d)) start = Ok (grun mass_step len start)) /\
    (forall s', ofold (mass_block sched dbl_max gm) (numbered (kd_blocks d)) start = Ok s' -> s' = grun mass_step len start /\ forall i, i < len -> mass_all i).
  Proof.
    rewrite <- blocks_len. apply gphase. intros k x Hk _. destruct (blocks_at k Hk) as (Hi & X1 & X2). destruct x as [id b]. cbn [fst snd] in X1, X2. subst id.
    unfold mass_block. rewrite X2. destruct (Gb Hi) as (Gn & Gl & Gc).
    destruct (run_fields k) as (F1 & F2 & F3 & F4 & F5 & F6 & F7 & F8 & F9). rewrite F2, F3, F4, F5. rewrite Gn.
    rewrite (@omapM_conn (mb_conn (nblock mesh k)) (mb_num_elem (nblock mesh k) * 8) Gl). cbn [obind].
    assert (Z1 : vat (kd_gref d) k = Ok (W (PG Gref k))) by (unfold vat; now rewrite (w_g Wd Gref Hi : nth_error (kd_gref d) k = _)). rewrite Z1. cbn [obind].
    destruct (gm_at Hi) as (G1 & G2 & G3). assert (Z2 : vat gm k = Ok (nth k gm (View 0 0))) by (unfold vat; now rewrite G1). rewrite Z2. cbn [obind].
    destruct field_views as (V1 & V2 & V3 & (r & V4 & V5) & (u & V6 & V7)). rewrite V3. cbn [obind].
    set (hk := run mass_heap k h2). set (vr := W (PG Gref k)). set (vg := nth k gm (View 0 0)).
    assert (A1 : nth_error hk (v_id (W (Pl false FRef))) = Some dr) by (unfold hk; rewrite run_place; simpl; auto; lia).
    destruct (Hsz (PG Gref k) Hi) as (x1 & Y1 & Y2). simpl in Y2.
    assert (A2 : nth_error hk (v_id vr) = Some x1) by (unfold hk, vr; rewrite run_gref; auto).
    assert (A3 : nth_error hk (v_id vg) = Some (repeat 0%R (ne k * 8))) by (apply run_g; auto).
    assert (N1 : v_id (W (Pl false FRef)) <> v_id vr) by (apply gref_ne; simpl; auto; discriminate).
    assert (N2 : v_id vr <> v_id vg) by (apply (@g_place k (PG Gref k)); auto).
    assert (N3 : v_id vr <> M false) by (apply mass_place; simpl; auto).
    assert (N4 : M false <> v_id vg) by (apply (@g_place k (Pl false FMass)); simpl; auto).
    change (mb_num_elem (nblock mesh k)) with (ne k). change (mb_mat (nblock mesh k)) with (mt k). change (mb_conn (nblock mesh k)) with (cn k).
    match goal with |- context [obind (gather_vector ?a ?b ?c ?e ?f) ?kk] =>
      assert (E1 : forall K : heap -> outcome kdata, obind (gather_vector a b c e f) (fun l => obind (parallel_for sched [1; k] l hk) K) = K (list_set hk (v_id vr) (gath (ne k) (cn k) dr))) end.
    { intros K. pose proof (@gather_loop (ne k) (cn k) N Gl Gc sched [1; k] hk (W (Pl false FRef)) vr dr x1 Hs N1 A1 dr_length A2 Y2) as E.
      rewrite <- obind_assoc. exact (f_equal (fun x => obind x K) E). }
    rewrite E1.
    set (ha := list_set hk (v_id vr) (gath (ne k) (cn k) dr)).
    assert (B1 : nth_error ha (v_id vr) = Some (gath (ne k) (cn k) dr)) by (apply nth_set_same; eapply nth_some_lt; exact A2).
    assert (B2 : nth_error ha (v_id vg) = Some (repeat 0%R (ne k * 8))) by (unfold ha; rewrite nth_set_other by (now apply not_eq_sym); exact A3).
    pose proof (@mass_loop_ok (ne k) (cn k) (km_density (mt k)) sched [7; k] ha vr vg dr (repeat 0%R (ne k * 8)) Hs B1 B2 (repeat_length _ _) N2) as OkL.
    pose proof (@mass_loop_inv (ne k) (cn k) (km_density (mt k)) sched [7; k] ha vr vg dr (repeat 0%R (ne k * 8)) Hs B1 B2 (repeat_length _ _) N2) as InvL.
    split.
    - intros Hok. rewrite (OkL Hok). cbn [obind]. rewrite V2. cbn [obind].
      set (hb := list_set ha (v_id vg) (new_mass (ne k) (cn k) (km_density (mt k)) dr)).
      assert (C1 : nth_error hb (M false) = Some (map (mtotal k) (seq 0 N))).
      { unfold hb, ha. rewrite !nth_set_other by auto. apply run_mass. }
      assert (C2 : nth_error hb (v_id vg) = Some (new_mass (ne k) (cn k) (km_density (mt k)) dr)) by (apply nth_set_same; eapply nth_some_lt; exact B2).
      match goal with |- context [obind (scatter_scalar ?a ?b ?c ?e ?f) ?kk] =>
        assert (E2 : forall K : heap -> outcome kdata, obind (scatter_scalar a b c e f) (fun l => obind (parallel_for sched [8; k] l hb) K) =
          K (list_set hb (M false) (map (fun j => nth j (map (mtotal k) (seq 0 N)) 0 + mass_amount (ne k) (cn k) (km_density (mt k)) dr j)%R (seq 0 N)))) end.
      { intros K. rewrite <- obind_assoc. match goal with |- obind ?x K = K ?y => replace x with (Ok y); [reflexivity|] end. symmetry.
        apply (@scatter_mass_loop (ne k) (cn k) N Gl Gc sched [8; k] hb (W (Pl false FMass)) vg (map (mtotal k) (seq 0 N)) (new_mass (ne k) (cn k) (km_density (mt k)) dr)
          (fun e => val (elem_mass (cn k) (km_density (mt k)) dr e)) Hs); auto.
        - now rewrite map_length, seq_length.
        - unfold new_mass. now rewrite map_length, seq_length.
        - intros e q He Hq. unfold new_mass. rewrite nth_mapseq by nia. destruct (@pairdiv 8 e q Hq) as [-> ->]. reflexivity. }
      rewrite E2.
      rewrite V4. cbn [obind]. rewrite V5. cbn [obind]. rewrite V6. cbn [obind]. rewrite V7. cbn [obind].
      assert (Hh : forall f, (f = FRef \/ f = FDisp) -> forall y, nth_error (kd_heap d) (v_id (W (Pl true f))) = Some y ->
        forall z, nth_error (list_set hb (v_id (W (Pl false FMass))) z) (v_id (W (Pl true f))) = Some y).
      { intros f Hf y Hy z. assert (Vf : vplace mesh (Pl true f)) by (destruct Hf as [-> | ->]; exact I).
        rewrite nth_set_other by (apply mass_place; auto; destruct Hf as [-> | ->]; exact I).
        unfold hb. rewrite nth_set_other by (apply (@g_place k (Pl true f)); auto). unfold ha. rewrite nth_set_other by (apply gref_ne; auto; discriminate).
        unfold hk. rewrite run_place; auto; [lia|]. destruct Hf as [-> | ->]; exact I. }
      unfold vget at 1. rewrite (Hh FRef (or_introl eq_refl) rv Hrv). cbn [obind].
      unfold vget at 1. rewrite (Hh FDisp (or_intror eq_refl) dv Hdv). cbn [obind].
      f_equal. set (sk := grun mass_step k start) in *. clearbody sk. unfold mass_step. rewrite F1, F2, F3, F4, F5, F6, F7, F8, F9. f_equal. rewrite mass_heap_at. reflexivity.
    - intros s' H. match type of H with obind ?x _ = _ => destruct x as [hx| | |] eqn:E; [|discriminate H|discriminate H|discriminate H] end. exact (InvL hx eq_refl).
  Qed.
  (** the result *)
  Lemma run_blocks k : k <= len -> kd_blocks d = unconns mesh -> kd_blocks (grun mass_step k start) = conns (firstn k mesh) ++ unconns (skipn k mesh).
  Proof.
    intros Hk Eu. induction k as [|k IH]; [exact Eu|]. cbn [grun]. unfold mass_step at 1. cbn [kd_blocks kd_dt]. rewrite IH by lia. assert (Hi : k < length mesh) by (unfold len in Hk; lia).
    assert (E : skipn k mesh = nblock mesh k :: skipn (Datatypes.S k) mesh) by (exact (skipn_nth mesh k (nblock_at mesh Hi))).
    assert (E' : firstn (Datatypes.S k) mesh = firstn k mesh ++ [nblock mesh k]) by (exact (firstn_nth mesh k (nblock_at mesh Hi))).
    rewrite E. cbn [unconns map]. rewrite put_at.
    - rewrite E'. unfold conns. rewrite map_app, <- app_assoc. reflexivity.
    - match goal with |- StronglySorted lt ?l => replace l with (map mb_id mesh); [exact Sm|] end. rewrite <- (firstn_skipn k mesh) at 1. rewrite E.
      rewrite !map_app. unfold conns. rewrite map_map. cbn [map fst]. f_equal. f_equal. unfold unconns. now rewrite map_map.
  Qed.
  Lemma run_dt k : k <= len -> kd_dt (grun mass_step k start) = serial_time_step dbl_max rv dv (firstn k mesh).
  Proof.
    induction k as [|k IH]; intros Hk; [reflexivity|]. cbn [grun]. unfold mass_step at 1. cbn [kd_blocks kd_dt]. rewrite IH by lia. assert (Hi : k < length mesh) by (unfold len in Hk; lia).
    assert (E' : firstn (Datatypes.S k) mesh = firstn k mesh ++ [nblock mesh k]) by (exact (firstn_nth mesh k (nblock_at mesh Hi))).
    rewrite E'. unfold serial_time_step. rewrite fold_left_app. reflexivity.
  Qed.
  Lemma serial_mass_ok k : (forall i, i < k -> mass_all i) -> k <= len -> exists l, serial_mass dr (firstn k mesh) = Ok l /\ forall j, l j = mtotal k j.
  Proof.
    induction k as [|k IH]; intros H Hk.
    - exists zeros. split; [reflexivity|]. reflexivity.
    - destruct IH as (l & E & Hl); [intros; apply H; lia|lia|]. assert (Hi : k < length mesh) by (unfold len in Hk; lia).
      assert (E' : firstn (Datatypes.S k) mesh = firstn k mesh ++ [nblock mesh k]) by (exact (firstn_nth mesh k (nblock_at mesh Hi))).
      rewrite E'. unfold serial_mass in *. rewrite ofold_app, E. cbn [obind ofold].
      destruct (@block_mass_ok (ne k) (cn k) (km_density (mt k)) dr l (H k ltac:(lia))) as (l' & El & Hl').
      change (mb_mat (nblock mesh k)) with (mt k). change (mb_num_elem (nblock mesh k)) with (ne k). change (mb_conn (nblock mesh k)) with (cn k). rewrite El. cbn [obind].
      exists l'. split; [reflexivity|]. intros j. rewrite Hl', Hl. unfold mtotal. now rewrite lsum_snoc.
  Qed.
  Lemma serial_mass_inv k l : serial_mass dr (firstn k mesh) = Ok l -> k <= len -> forall i, i < k -> mass_all i.
  Proof.
    revert l. induction k as [|k IH]; intros l H Hk i Hi; [lia|]. assert (Hk' : k < length mesh) by (unfold len in Hk; lia).
    assert (E' : firstn (Datatypes.S k) mesh = firstn k mesh ++ [nblock mesh k]) by (exact (firstn_nth mesh k (nblock_at mesh Hk'))).
    rewrite E' in H. unfold serial_mass in *. rewrite ofold_app in H. destruct (ofold _ (firstn k mesh) zeros) as [l0| | |] eqn:E0; try discriminate. cbn [obind ofold] in H.
    destruct (block_lumped_mass _ _ _ _ _ _) as [l1| | |] eqn:E1 in H; try discriminate.
    destruct (Nat.eq_dec i k) as [->|]; [|eapply IH; [reflexivity| |]; lia]. exact (@block_mass_inv (ne k) (cn k) (km_density (mt k)) dr l0 l1 E1).
  Qed.
End Mass.
