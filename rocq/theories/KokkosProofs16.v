(** ComputeInternalForce, UpdateStates and the copies between host and device on an initialised object. *)
From Coq Require Import Reals Lra Sorted Permutation FunctionalExtensionality.
From Verif Require Import Base Strings ListLemmas DataModel DataProofs Loops ElemDataProofs4 TensorModel TensorSpec ElementModel ElementSpec ElementProofs BlockModel BlockProofs KokkosModel KokkosProofs KokkosSpec KokkosProofs2 KokkosProofs3 KokkosProofs4 KokkosProofs5 KokkosProofs6 KokkosProofs7 KokkosProofs8 KokkosProofs9 KokkosProofs10 KokkosProofs11 KokkosProofs12 KokkosProofs13 KokkosProofs14 KokkosProofs15.
Set Implicit Arguments.
Local Open Scope nat_scope.
Local Open Scope list_scope.
Local Notation length := List.length.

Definition is_new (f : field) : bool := match f with FForce | FF STEP_NP1 _ | FS STEP_NP1 _ => true | _ => false end.
Lemma new_gradients_len n c r u : length (new_gradients n c r u) = n * 72.
Proof. unfold new_gradients. now rewrite map_length, seq_length. Qed.
Lemma new_stress_len n m t0 t1 a b c : length (new_stress n m t0 t1 a b c) = n * 48.
Proof. unfold new_stress. rewrite map_length, seq_length. lia. Qed.
Lemma new_forces_len n c r u s : length (new_forces n c r u s) = n * 24.
Proof. unfold new_forces. now rewrite map_length, seq_length. Qed.

Section Whole.
  Variables (same : bool) (N : nat) (mesh : list mblock) (W : place -> view) (d : kdata).
  Hypothesis Wd : wired same N mesh W d.
  Hypothesis Hsz : psized N mesh W (kd_heap d).
  Hypothesis Eb : kd_blocks d = conns mesh.
  Hypothesis Gb : forall k, k < length mesh -> good_block N (nblock mesh k).
  Hypothesis Hn : forall k, k < length mesh -> km_states (mb_mat (nblock mesh k)) = 0.
  Let V := fun s => W (dslot s).
  Let dr := mem W (kd_heap d) (Pl false FRef).
  Let du := mem W (kd_heap d) (Pl false FDisp).
  Let oldF i := mem W (kd_heap d) (Pl false (FF STEP_N i)).
  Let oldS i := mem W (kd_heap d) (Pl false (FS STEP_N i)).
  Let newF i := new_gradients (mb_num_elem (nblock mesh i)) (mb_conn (nblock mesh i)) dr du.
  Let newS t0 t1 i := new_stress (mb_num_elem (nblock mesh i)) (mb_mat (nblock mesh i)) t0 t1 (oldF i) (newF i) (oldS i).
  Let ins := map (fun i => (nblock mesh i, (oldF i, oldS i))) (seq 0 (length mesh)).
  Let len := length mesh.
  Lemma final_psized sched_unused t0 t1 (reduce : list R -> list R) : (forall x, length (reduce x) = length x) -> sched_unused = 0 ->
    psized N mesh W (list_set (list_set (run (div_heap N mesh V t0 t1 dr du oldF oldS) len (run (stress_heap mesh V t0 t1 dr du oldF oldS) len (run (kin_heap mesh V dr du) len
      (list_set (kd_heap d) (v_id (V SForce)) (repeat 0%R (N * 3)))))) (v_id (W (Pl true FForce))) (map (total mesh t0 t1 dr du oldF oldS len) (seq 0 (N * 3)))) (v_id (W (Pl true FForce)))
      (reduce (map (total mesh t0 t1 dr du oldF oldS len) (seq 0 (N * 3))))).
  Proof.
    intros Hred _. apply psized_put; [|exact I|rewrite Hred, map_length, seq_length; reflexivity]. apply psized_put; [|exact I|rewrite map_length, seq_length; reflexivity].
    apply psized_run.
    - intros k h Hk Hh. unfold div_heap. apply (psized_put (dslot SForce)); [|exact I|unfold addf; rewrite map_length, seq_length; reflexivity].
      apply (psized_put (dslot (SGforce k))); [exact Hh|exact Hk|]. rewrite new_forces_len. reflexivity.
    - apply psized_run.
      + intros k h Hk Hh. unfold stress_heap. apply (psized_put (dslot (SS STEP_NP1 k))); [exact Hh|exact Hk|]. rewrite new_stress_len. reflexivity.
      + apply psized_run.
        * intros k h Hk Hh. unfold kin_heap. apply (psized_put (dslot (SF STEP_NP1 k))); [|exact Hk|rewrite new_gradients_len; reflexivity].
          apply (psized_put (dslot (SGdisp k))); [|exact Hk|rewrite gath_length; reflexivity]. apply (psized_put (dslot (SGref k))); [exact Hh|exact Hk|rewrite gath_length; reflexivity].
        * apply (psized_put (dslot SForce)); [exact Hsz|exact I|]. rewrite repeat_length. reflexivity.
  Qed.
  Lemma force_whole sched t0 t1 reduce : valid_sched sched -> (forall x : list R, length (reduce x) = length x) ->
    (forall f, serial_force t0 t1 dr du ins = Ok f ->
      exists d', compute_internal_force sched true reduce t0 t1 d = Ok d' /\ (exists h, d' = with_heap d h) /\ psized N mesh W (kd_heap d') /\
        mem W (kd_heap d') (Pl true FForce) = reduce (map f (seq 0 (N * 3))) /\
        (forall k, k < len -> mem W (kd_heap d') (Pl false (FF STEP_NP1 k)) = newF k /\ mem W (kd_heap d') (Pl false (FS STEP_NP1 k)) = newS t0 t1 k) /\
        (forall b f, vfield mesh f -> is_new f = false -> mem W (kd_heap d') (Pl b f) = mem W (kd_heap d) (Pl b f)) /\
        (forall k, k < len -> all_ok mesh t0 t1 dr du oldF oldS k)) /\
    (forall d', compute_internal_force sched true reduce t0 t1 d = Ok d' -> exists f, serial_force t0 t1 dr du ins = Ok f).
  Proof.
    intros Hs Hred. pose proof (wired_layout Wd Eb Gb) as L. fold V in L. pose proof (psized_sized Hsz) as Sz. fold V in Sz.
    assert (Href : nth_error (kd_heap d) (v_id (V SRef)) = Some dr) by (apply (mem_at (Pl false FRef) Hsz I)).
    assert (Hdisp : nth_error (kd_heap d) (v_id (V SDisp)) = Some du) by (apply (mem_at (Pl false FDisp) Hsz I)).
    assert (HF : forall i, i < length mesh -> nth_error (kd_heap d) (v_id (V (SF STEP_N i))) = Some (oldF i)) by (intros i Hi; apply (mem_at (Pl false (FF STEP_N i)) Hsz Hi)).
    assert (HS : forall i, i < length mesh -> nth_error (kd_heap d) (v_id (V (SS STEP_N i))) = Some (oldS i)) by (intros i Hi; apply (mem_at (Pl false (FS STEP_N i)) Hsz Hi)).
    split.
    - intros f Hf. pose proof (@serial_all_inv mesh t0 t1 dr du oldF oldS len f Hf) as Ha.
      assert (Hp : forall i, i < len -> phases_ok mesh t0 t1 dr du oldF oldS i) by (intros i Hi; apply (phases_all mesh t0 t1 dr du oldF oldS i); now apply Ha).
      eexists. split; [apply (@compute_ok sched d N mesh V (W (Pl true FForce)) t0 t1 reduce Hs L Hn Sz dr du oldF oldS Href Hdisp HF HS Hp)|].
      unfold with_heap at 2 3 4 5 6. cbn [kd_heap]. split; [eexists; reflexivity|]. split; [now apply (@final_psized 0)|].
      split; [|split; [|split]].
      + unfold mem. rewrite (@final_host d N mesh V (W (Pl true FForce)) t0 t1 reduce Sz dr du oldF oldS). f_equal.
        destruct (@serial_all mesh t0 t1 dr du oldF oldS len Ha) as (g & Eg & Hg). assert (Eg' : serial_force t0 t1 dr du ins = Ok g) by exact Eg. rewrite Hf in Eg'. injection Eg' as <-. apply map_ext. intros j. symmetry. apply Hg.
      + intros k Hk. unfold mem. split.
        * pose proof (@final_F d N mesh V (W (Pl true FForce)) t0 t1 reduce L Sz dr du oldF oldS Href Hdisp k Hk) as E. exact (f_equal (fun o => match o with Some y => y | None => [] end) E).
        * pose proof (@final_S d N mesh V (W (Pl true FForce)) t0 t1 reduce L Sz dr du oldF oldS Href Hdisp k Hk) as E. exact (f_equal (fun o => match o with Some y => y | None => [] end) E).
      + intros b g Vg Hg.
        set (FH := list_set _ _ (reduce _)).
        assert (Fr : forall b g, vfield mesh g -> is_new g = false -> (forall s, valid_slot mesh s -> canon same (Pl b g) <> canon same (dslot s)) -> nth_error FH (v_id (W (Pl b g))) = nth_error (kd_heap d) (v_id (W (Pl b g)))).
        { clear b g Vg Hg. intros b g Vg Hg Hne. apply (@final_frame d N mesh V (W (Pl true FForce)) t0 t1 reduce dr du oldF oldS).
          - intros s Hv E. exact (Hne s Hv (w_inj Wd _ _ (Vg : vplace mesh (Pl b g)) (dslot_valid _ _ Hv) E)).
          - intros E. apply (w_inj Wd _ (Pl true FForce) (Vg : vplace mesh (Pl b g)) I) in E. simpl in E. injection E as _ E. subst g. discriminate. }
        assert (Dev : forall g, vfield mesh g -> is_new g = false -> nth_error FH (v_id (W (Pl false g))) = nth_error (kd_heap d) (v_id (W (Pl false g)))).
        { clear b g Vg Hg. intros g Vg Hg.
          assert (K : forall s, valid_slot mesh s -> (match s with SRef | SDisp | SF STEP_N _ | SS STEP_N _ => True | _ => False end) -> nth_error FH (v_id (V s)) = nth_error (kd_heap d) (v_id (V s))).
          { intros s. apply (@final_keep d N mesh V (W (Pl true FForce)) t0 t1 reduce L Sz dr du oldF oldS Href Hdisp). }
          destruct g as [| | | | |[]|[]]; try discriminate Hg.
          - exact (K SRef I I).
          - exact (K SDisp I I).
          - apply Fr; auto. intros s _ E. destruct s; simpl in E; discriminate.
          - apply Fr; auto. intros s _ E. destruct s; simpl in E; discriminate.
          - exact (K (SF STEP_N k) Vg I).
          - exact (K (SS STEP_N k) Vg I). }
        assert (A : nth_error FH (v_id (W (Pl b g))) = nth_error (kd_heap d) (v_id (W (Pl b g)))); [|exact (f_equal (fun o => match o with Some y => y | None => [] end) A)].
        destruct b; [|now apply Dev]. destruct same eqn:Es; [rewrite (w_same Wd g eq_refl Vg); now apply Dev|]. apply Fr; auto. intros s _ E. destruct s; simpl in E; discriminate.
      + exact Ha.
    - intros d' H. destruct (@compute_inv sched d N mesh V (W (Pl true FForce)) t0 t1 reduce Hs L Hn Sz dr du oldF oldS Href Hdisp HF HS d' H) as [_ Hp].
      destruct (@serial_all mesh t0 t1 dr du oldF oldS len) as (g & Eg & _); [intros i Hi; apply (phases_all mesh t0 t1 dr du oldF oldS i); now apply Hp|]. exists g. exact Eg.
  Qed.
End Whole.

Lemma Some_inj {A} (a b : A) : Some a = Some b -> a = b.
Proof. congruence. Qed.
Section Ops.
  Variables (same : bool) (N : nat) (mesh : list mblock) (W : place -> view) (d : kdata).
  Hypothesis Wd : wired same N mesh W d.
  Hypothesis Hsz : psized N mesh W (kd_heap d).
  Hypothesis Eb : kd_blocks d = conns mesh.
  Hypothesis Gb : forall k, k < length mesh -> good_block N (nblock mesh k).
  Hypothesis Hn : forall k, k < length mesh -> km_states (mb_mat (nblock mesh k)) = 0.
  Let len := length mesh.
  Lemma place_low h x : psized N mesh W h -> vplace mesh x -> v_id (W x) < length h.
  Proof. clear. intros H Hx. eapply nth_some_lt. apply (mem_at x H Hx). Qed.
  Lemma mem_put h x y z : psized N mesh W h -> vplace mesh x -> vplace mesh z -> mem W (list_set h (v_id (W x)) y) z = if v_id (W z) =? v_id (W x) then y else mem W h z.
  Proof. clear. intros H Hx Hz. apply mem_set. eapply nth_some_lt. apply (mem_at x H Hx). Qed.
  (** ** UpdateStates *)
  Definition upd_states (k : nat) (h : heap) : heap :=
    list_set (list_set h (v_id (W (Pl false (FF STEP_N k)))) (mem W h (Pl false (FF STEP_NP1 k)))) (v_id (W (Pl false (FS STEP_N k)))) (mem W h (Pl false (FS STEP_NP1 k))).
  Lemma upd_sized k h : k < len -> psized N mesh W h -> psized N mesh W (upd_states k h).
  Proof.
    intros Hk H. unfold upd_states. apply (psized_put (Pl false (FS STEP_N k))); [|exact Hk|exact (proj2 (mem_at (Pl false (FS STEP_NP1 k)) H Hk))].
    apply (psized_put (Pl false (FF STEP_N k))); [exact H|exact Hk|exact (proj2 (mem_at (Pl false (FF STEP_NP1 k)) H Hk))].
  Qed.
  Lemma dev_ne f g : vfield mesh f -> vfield mesh g -> f <> g -> forall b, v_id (W (Pl b f)) <> v_id (W (Pl false g)).
  Proof. intros Hf Hg Hne b E. apply (w_inj Wd (Pl b f) (Pl false g) Hf Hg) in E. simpl in E. congruence. Qed.
  Lemma update_step k h : k < len -> psized N mesh W h -> update_block d h (mb_id (nblock mesh k), KBlock (nblock mesh k) (mb_conn (nblock mesh k))) = Ok (upd_states k h).
  Proof.
    intros Hk H. pose proof (wired_layout Wd Eb Gb) as L. destruct (w_keys Wd) as (i & iF & iS & _ & _ & Ip & _). destruct Ip as (_ & I2 & I3); [unfold len in Hk; lia|].
    assert (Eu : f_unrotated (kd_ids d) = f_stress (kd_ids d)) by congruence.
    unfold update_block. rewrite Eu. rewrite !(l_F L _ Hk), !(l_S L _ Hk). cbn [obind dslot kb_mesh]. rewrite (Hn Hk).
    unfold deep_copy. rewrite !(w_ext Wd) by exact Hk. rewrite !Nat.eqb_refl.
    destruct (mem_at (Pl false (FF STEP_NP1 k)) H Hk) as [A1 A2]. destruct (mem_at (Pl false (FS STEP_NP1 k)) H Hk) as [B1 B2].
    unfold vget at 1. rewrite A1. cbn [obind]. set (h1 := list_set h _ _).
    assert (C : nth_error h1 (v_id (W (Pl false (FS STEP_NP1 k)))) = Some (mem W h (Pl false (FS STEP_NP1 k)))).
    { unfold h1. rewrite nth_set_other; [exact B1|]. apply dev_ne; simpl; auto; discriminate. }
    unfold vget at 1. rewrite C. cbn [obind]. set (h2 := list_set h1 _ _).
    assert (C2 : nth_error h2 (v_id (W (Pl false (FS STEP_NP1 k)))) = Some (mem W h (Pl false (FS STEP_NP1 k)))).
    { unfold h2. rewrite nth_set_other; [exact C|]. apply dev_ne; simpl; auto; discriminate. }
    unfold vget at 1. rewrite C2. cbn [obind]. change (0 <? 0) with false. cbv iota. unfold h2. rewrite list_set_set. reflexivity.
  Qed.
  Lemma update_run k : k <= len -> ofold (update_block d) (conns (firstn k mesh)) (kd_heap d) = Ok (run upd_states k (kd_heap d)) /\ psized N mesh W (run upd_states k (kd_heap d)).
  Proof.
    induction k as [|k IH]; intros Hk; [split; [reflexivity|exact Hsz]|]. destruct IH as [E P]; [lia|].
    assert (Hi : k < length mesh) by (unfold len in Hk; lia). rewrite (firstn_nth mesh k (nblock_at mesh Hi)). unfold conns in *. rewrite map_app, ofold_app, E. cbn [map ofold obind].
    rewrite update_step by assumption. cbn [obind run]. split; [reflexivity|]. now apply upd_sized.
  Qed.
  Definition from (f : field) : field := match f with FF STEP_N k => FF STEP_NP1 k | FS STEP_N k => FS STEP_NP1 k | f => f end.
  Lemma from_valid f : vfield mesh f -> vfield mesh (from f).
  Proof. destruct f as [| | | | |[]|[]]; auto. Qed.
  Lemma run_states k : k <= len -> psized N mesh W (run upd_states k (kd_heap d)) -> 
    (forall b f, vfield mesh f -> from f = f -> mem W (run upd_states k (kd_heap d)) (Pl b f) = mem W (kd_heap d) (Pl b f)) /\
    (forall j, j < len -> mem W (run upd_states k (kd_heap d)) (Pl false (FF STEP_N j)) = mem W (kd_heap d) (Pl false (FF (if j <? k then STEP_NP1 else STEP_N) j)) /\
       mem W (run upd_states k (kd_heap d)) (Pl false (FS STEP_N j)) = mem W (kd_heap d) (Pl false (FS (if j <? k then STEP_NP1 else STEP_N) j))).
  Proof.
    induction k as [|k IH]; intros Hk P; [split; [reflexivity|]; intros j Hj; split; reflexivity|].
    destruct (update_run (k := k) ltac:(lia)) as [_ Pk]. destruct IH as [A B]; [lia|exact Pk|].
    assert (Hi : k < length mesh) by (unfold len in Hk; lia).
    set (h := run upd_states k (kd_heap d)) in *. cbn [run]. fold h. unfold upd_states.
    assert (P1 : psized N mesh W (list_set h (v_id (W (Pl false (FF STEP_N k)))) (mem W h (Pl false (FF STEP_NP1 k))))) by (apply (psized_put (Pl false (FF STEP_N k))); [exact Pk|exact Hi|exact (proj2 (mem_at (Pl false (FF STEP_NP1 k)) Pk Hi))]).
    assert (M : forall b f, vfield mesh f -> mem W (list_set (list_set h (v_id (W (Pl false (FF STEP_N k)))) (mem W h (Pl false (FF STEP_NP1 k)))) (v_id (W (Pl false (FS STEP_N k)))) (mem W h (Pl false (FS STEP_NP1 k)))) (Pl b f) =
      if v_id (W (Pl b f)) =? v_id (W (Pl false (FS STEP_N k))) then mem W (kd_heap d) (Pl false (FS STEP_NP1 k)) else
      if v_id (W (Pl b f)) =? v_id (W (Pl false (FF STEP_N k))) then mem W (kd_heap d) (Pl false (FF STEP_NP1 k)) else mem W h (Pl b f)).
    { intros b f Vf. rewrite (@mem_put _ (Pl false (FS STEP_N k)) _ (Pl b f) P1 Hi Vf). rewrite (@mem_put _ (Pl false (FF STEP_N k)) _ (Pl b f) Pk Hi Vf). rewrite !A by (simpl; auto). reflexivity. }
    split.
    - intros b f Vf Hf. rewrite M by assumption.
      rewrite (proj2 (Nat.eqb_neq _ _) (@dev_ne _ (FS STEP_N k) Vf Hi ltac:(intros ->; discriminate) b)). rewrite (proj2 (Nat.eqb_neq _ _) (@dev_ne _ (FF STEP_N k) Vf Hi ltac:(intros ->; discriminate) b)). now apply A.
    - intros j Hj. rewrite !M by exact Hj. destruct (B j Hj) as [B1 B2].
      rewrite (proj2 (Nat.eqb_neq _ _) (@dev_ne _ (FS STEP_N k) (Hj : vfield mesh (FF STEP_N j)) Hi ltac:(discriminate) false)).
      rewrite (proj2 (Nat.eqb_neq _ _) (@dev_ne _ (FF STEP_N k) (Hj : vfield mesh (FS STEP_N j)) Hi ltac:(discriminate) false)).
      destruct (Nat.eq_dec j k) as [->|Hne].
      + rewrite !Nat.eqb_refl. replace (k <? S k) with true by (symmetry; apply Nat.ltb_lt; lia). auto.
      + rewrite (proj2 (Nat.eqb_neq _ _) (@dev_ne _ (FF STEP_N k) (Hj : vfield mesh (FF STEP_N j)) Hi ltac:(congruence) false)).
        rewrite (proj2 (Nat.eqb_neq _ _) (@dev_ne _ (FS STEP_N k) (Hj : vfield mesh (FS STEP_N j)) Hi ltac:(congruence) false)).
        replace (j <? S k) with (j <? k) by (destruct (Nat.ltb_spec j k), (Nat.ltb_spec j (S k)); auto; lia). auto.
  Qed.
  Lemma states_whole : exists d', update_states d = Ok d' /\ (exists h, d' = with_heap d h) /\ psized N mesh W (kd_heap d') /\
    (forall b f, vfield mesh f -> from f = f -> mem W (kd_heap d') (Pl b f) = mem W (kd_heap d) (Pl b f)) /\
    (forall j, j < len -> mem W (kd_heap d') (Pl false (FF STEP_N j)) = mem W (kd_heap d) (Pl false (FF STEP_NP1 j)) /\ mem W (kd_heap d') (Pl false (FS STEP_N j)) = mem W (kd_heap d) (Pl false (FS STEP_NP1 j))).
  Proof.
    unfold update_states. rewrite Eb. destruct (update_run (k := len) (le_n _)) as [E P]. unfold len in E at 1. rewrite firstn_all in E. rewrite E. cbn [obind].
    eexists. split; [reflexivity|]. split; [eexists; reflexivity|]. unfold with_heap. cbn [kd_heap]. split; [exact P|]. destruct (run_states (k := len) (le_n _) P) as [A B]. split; [exact A|].
    intros j Hj. destruct (B j Hj) as [B1 B2]. rewrite (proj2 (Nat.ltb_lt j len) Hj) in B1, B2. auto.
  Qed.
  (** ** Host fields *)
  Lemma host_views : host_node (kd_tables d) KVectorNode (f_disp (kd_ids d)) = Ok (W (Pl true FDisp)) /\ dev_node (kd_tables d) KVectorNode (f_disp (kd_ids d)) = Ok (W (Pl false FDisp)) /\
    host_node (kd_tables d) KVectorNode (f_vel (kd_ids d)) = Ok (W (Pl true FVel)) /\ dev_node (kd_tables d) KVectorNode (f_vel (kd_ids d)) = Ok (W (Pl false FVel)) /\
    host_node (kd_tables d) KVectorNode (f_force (kd_ids d)) = Ok (W (Pl true FForce)) /\ host_node (kd_tables d) KScalarNode (f_mass (kd_ids d)) = Ok (W (Pl true FMass)) /\
    host_node (kd_tables d) KVectorNode (f_ref (kd_ids d)) = Ok (W (Pl true FRef)).
  Proof.
    destruct (w_keys Wd) as (i & iF & iS & Lb & (I1 & I2 & I3 & I4 & I5) & Ip & Lk). rewrite I1, I2, I3, I4, I5.
    destruct (look_node _ _ (Lk FDisp I)) as [A1 A2]. destruct (look_node _ _ (Lk FVel I)) as [B1 B2]. destruct (look_node _ _ (Lk FForce I)) as [C1 C2]. destruct (look_node _ _ (Lk FMass I)) as [D1 D2].
    destruct (look_node _ _ (Lk FRef I)) as [E1 E2]. repeat split; auto.
  Qed.
End Ops.
