(** ComputeInternalForce under every schedule, against the host code. *)
From Coq Require Import Reals Lra Permutation FunctionalExtensionality.
From Verif Require Import Base Strings ListLemmas DataModel Loops TensorModel TensorSpec ElementModel ElementSpec ElementProofs BlockModel BlockProofs KokkosModel KokkosProofs KokkosSpec KokkosProofs2 KokkosProofs3 KokkosProofs4 KokkosProofs5.
Set Implicit Arguments.
Local Open Scope nat_scope.
Local Open Scope list_scope.
Local Notation length := List.length.

(** ** the host code, all blocks *)
Section Serial.
  Variables (mesh : list mblock) (N : nat) (t0 t1 : R) (ref disp : list R) (oldF oldS : nat -> list R).
  Let ne i := mb_num_elem (nblock mesh i).
  Let cn i := mb_conn (nblock mesh i).
  Let mt i := mb_mat (nblock mesh i).
  Let newF i := new_gradients (ne i) (cn i) ref disp.
  Let newS i := new_stress (ne i) (mt i) t0 t1 (oldF i) (newF i) (oldS i).
  Let bsum := block_sum mesh t0 t1 ref disp oldF oldS.
  Let inputs k := map (fun i => (nblock mesh i, (oldF i, oldS i))) (seq 0 k).
  Definition all_ok (i : nat) : Prop := forall e, e < ne i -> elem_ok (ne i) (cn i) (mt i) t0 t1 ref disp (oldF i) (oldS i) e.
  Lemma serial_block_ok i f : all_ok i ->
    exists f', serial_block_force t0 t1 ref disp (nblock mesh i) (oldF i) (oldS i) f = Ok f' /\ forall j, f' j = (f j + bsum i j)%R.
  Proof.
    intros H. destruct (@block_force_intro (stress_of (mt i) t0 t1 (oldF i) (oldS i)) (arr_of ref) (arr_of disp) (conn_of (cn i)) zeros (seq 0 (ne i)) f
      (fun e => val (elem_forces (cn i) ref disp (newS i) e))) as [f' Hf'].
    - intros e He. apply in_seq in He. apply host_force_eq; [lia|]. apply H. lia.
    - exists f'. split; [exact Hf'|]. intros j. destruct (block_force_ok _ _ _ _ _ _ _ Hf') as (force & H1 & H2).
      rewrite H2. f_equal. unfold bsum, block_sum. apply lsum_ext. intros e He. unfold eforce. f_equal.
      specialize (H1 e He). apply in_seq in He. rewrite (@host_force_eq (ne i)) in H1; [injection H1 as <-; reflexivity|unfold ne; lia|apply H; unfold ne; lia].
  Qed.
  Lemma serial_block_inv i f f' : serial_block_force t0 t1 ref disp (nblock mesh i) (oldF i) (oldS i) f = Ok f' -> all_ok i.
  Proof.
    intros H e He. destruct (block_force_ok _ _ _ _ _ _ _ H) as (force & H1 & _).
    eapply host_force_inv; [exact He|]. exists (force e). apply H1. apply in_seq. unfold ne in He. lia.
  Qed.
  Lemma serial_all k : (forall i, i < k -> all_ok i) -> exists f, serial_force t0 t1 ref disp (inputs k) = Ok f /\ forall j, f j = total mesh t0 t1 ref disp oldF oldS k j.
  Proof.
    unfold serial_force, inputs. induction k as [|k IH]; intros H.
    - exists zeros. split; [reflexivity|]. intros j. reflexivity.
    - destruct IH as (f & E & Hf); [intros; apply H; lia|]. rewrite seq_S, map_app, ofold_app, E. cbn [obind map ofold fst snd Nat.add].
      destruct (@serial_block_ok k f (H k ltac:(lia))) as (f' & E' & H'). rewrite E'. cbn [obind]. exists f'. split; auto.
      intros j. rewrite H', Hf. unfold total. rewrite (@lsum_snoc k). reflexivity.
  Qed.
  Lemma serial_all_inv k f : serial_force t0 t1 ref disp (inputs k) = Ok f -> forall i, i < k -> all_ok i.
  Proof.
    unfold serial_force, inputs. revert f. induction k as [|k IH]; intros f H i Hi; [lia|].
    rewrite seq_S, map_app, ofold_app in H. destruct (ofold _ (map _ (seq 0 k)) zeros) as [f0| | |] eqn:E in H; try discriminate.
    cbn [obind map ofold fst snd Nat.add] in H. destruct (serial_block_force _ _ _ _ _ _ _ _) as [f1| | |] eqn:E1 in H; try discriminate.
    destruct (Nat.eq_dec i k) as [->|]; [eapply serial_block_inv; exact E1|]. eapply IH; [exact E|lia].
  Qed.
End Serial.

Section Total.
  Variables (sched : scheduler) (d : kdata) (N : nat) (mesh : list mblock) (V : slot -> view) (fh : view) (t0 t1 : R) (reduce : list R -> list R).
  Hypothesis Hs : valid_sched sched.
  Hypothesis L : layout d N mesh V fh.
  Hypothesis Hnostate : forall i, i < length mesh -> km_states (mb_mat (nblock mesh i)) = 0.
  Hypothesis Hsz : sized N mesh V fh (kd_heap d).
  Hypothesis Hred : forall x, length (reduce x) = length x.
  Variables (ref disp : list R) (oldF oldS : nat -> list R).
  Hypothesis Href : nth_error (kd_heap d) (v_id (V SRef)) = Some ref.
  Hypothesis Hdisp : nth_error (kd_heap d) (v_id (V SDisp)) = Some disp.
  Hypothesis HoldF : forall i, i < length mesh -> nth_error (kd_heap d) (v_id (V (SF STEP_N i))) = Some (oldF i).
  Hypothesis HoldS : forall i, i < length mesh -> nth_error (kd_heap d) (v_id (V (SS STEP_N i))) = Some (oldS i).
  Let ne i := mb_num_elem (nblock mesh i).
  Let cn i := mb_conn (nblock mesh i).
  Let mt i := mb_mat (nblock mesh i).
  Let newF i := new_gradients (ne i) (cn i) ref disp.
  Let newS i := new_stress (ne i) (mt i) t0 t1 (oldF i) (newF i) (oldS i).
  Let len := length mesh.
  Let tot := map (total mesh t0 t1 ref disp oldF oldS len) (seq 0 (N * 3)).
  Let h0 := list_set (kd_heap d) (v_id (V SForce)) (repeat 0%R (N * 3)).
  Let h1 := run (kin_heap mesh V ref disp) len h0.
  Let h2 := run (stress_heap mesh V t0 t1 ref disp oldF oldS) len h1.
  Let h3 := run (div_heap N mesh V t0 t1 ref disp oldF oldS) len h2.
  Lemma slot_neq s1 s2 : valid_slot mesh s1 -> valid_slot mesh s2 -> s1 <> s2 -> v_id (V s1) <> v_id (V s2).
  Proof. intros H1 H2 Hne E. apply Hne. now apply (l_inj L). Qed.
  Lemma h0_at s : valid_slot mesh s -> s <> SForce -> nth_error h0 (v_id (V s)) = nth_error (kd_heap d) (v_id (V s)).
  Proof. intros Hv Hne. unfold h0. apply nth_set_other. apply slot_neq; simpl; auto. Qed.
  Lemma h0_slot s x : valid_slot mesh s -> s <> SForce -> nth_error (kd_heap d) (v_id (V s)) = Some x -> at_slot V h0 s x.
  Proof. intros Hv Hne H. unfold at_slot. cbv beta. rewrite h0_at by assumption. exact H. Qed.
  Lemma h0_force : nth_error h0 (v_id (V SForce)) = Some (repeat 0%R (N * 3)).
  Proof. destruct (proj1 Hsz SForce I) as (x & X & _). unfold h0. apply nth_set_same. eapply nth_some_lt; exact X. Qed.
  Lemma h0_sized s : valid_slot mesh s -> has h0 (V s) (slot_size mesh N s).
  Proof.
    intros Hv. destruct s; try (destruct (proj1 Hsz _ Hv) as (x & X & Y); exists x; split; [rewrite h0_at; auto; discriminate|exact Y]).
    exists (repeat 0%R (N * 3)). split; [apply h0_force|]. apply repeat_length.
  Qed.
  Lemma ref_len : length ref = N * 3 /\ length disp = N * 3.
  Proof. destruct (proj1 Hsz SRef I) as (x & X & Y). destruct (proj1 Hsz SDisp I) as (y & X' & Y'). simpl in Y, Y'. split; congruence. Qed.
  Definition phases_ok (i : nat) : Prop := (forall e, e < ne i -> okv (elem_gradients (cn i) ref disp e)) /\
    (forall e p, e < ne i -> p < 8 -> okv (point_stress (mt i) t0 t1 (oldF i) (newF i) (oldS i) e p)) /\
    (forall e, e < ne i -> okv (elem_forces (cn i) ref disp (newS i) e)).
  Lemma phases_all i : phases_ok i <-> all_ok mesh t0 t1 ref disp oldF oldS i.
  Proof.
    split.
    - intros (H1 & H2 & H3) e He. repeat split; auto.
    - intros H. repeat split; intros; apply H; auto.
  Qed.
  Lemma fill_force : fill (kd_heap d) (V SForce) 0 = Ok h0.
  Proof. destruct (proj1 Hsz SForce I) as (x & X & Y). unfold fill, vget. rewrite X. cbn [obind]. unfold h0. rewrite Y. reflexivity. Qed.
  (** the host array after the copy and the reduction *)
  Let final := list_set (list_set h3 (v_id fh) tot) (v_id fh) (reduce tot).
  Lemma h_lengths : length h1 = length h0 /\ length h2 = length h0 /\ length h3 = length h0.
  Proof.
    assert (A : length h1 = length h0) by (apply run_length; intros; apply kin_length).
    assert (B : length h2 = length h0) by (unfold h2; rewrite run_length; auto; intros; unfold stress_heap; now rewrite list_set_length).
    repeat split; auto. unfold h3. rewrite run_length; auto. intros. unfold div_heap. now rewrite !list_set_length.
  Qed.
  Lemma force3 : nth_error h3 (v_id (V SForce)) = Some tot.
  Proof.
    destruct ref_len as [R1 R2].
    apply (@div_force d N mesh V fh t0 t1 L Hnostate ref disp R1 R2 h0 h0_sized) with (k := len).
    - intros i Hi. apply h0_slot; simpl; auto; discriminate.
    - intros i Hi. apply h0_slot; simpl; auto; discriminate.
    - apply h0_force.
  Qed.
  Lemma host3 : exists x, nth_error h3 (v_id fh) = Some x.
  Proof.
    destruct (nth_error h3 (v_id fh)) as [x|] eqn:E; [eauto|]. apply nth_error_None in E. destruct (proj2 Hsz) as (y & Y & _). apply nth_some_lt in Y.
    destruct h_lengths as (_ & _ & HH). rewrite HH in E. unfold h0 in E. rewrite list_set_length in E. exfalso. apply (Nat.lt_irrefl (v_id fh)). eapply Nat.lt_le_trans; [exact Y|exact E].
  Qed.
  Lemma compute_shape (h3' : heap) : h3' = h3 ->
    (do h <- deep_copy h3' fh (V SForce); do f <- vget h (v_id fh); Ok (with_heap d (list_set h (v_id fh) (reduce f)))) = Ok (with_heap d final).
  Proof.
    intros E. rewrite E. clear E. unfold deep_copy. rewrite (l_ext L), Nat.eqb_refl. unfold vget at 1. rewrite force3. cbn [obind].
    destruct host3 as [x Hx]. unfold vget. rewrite nth_set_same by (eapply nth_some_lt; exact Hx). reflexivity.
  Qed.
  Theorem compute_ok : (forall i, i < len -> phases_ok i) -> compute_internal_force sched true reduce t0 t1 d = Ok (with_heap d final).
  Proof.
    intros H. unfold compute_internal_force. rewrite (l_host L), (l_force L). cbn [obind]. rewrite fill_force. cbn [obind].
    destruct ref_len as [R1 R2].
    assert (A1 : at_slot V h0 SRef ref) by (apply h0_slot; simpl; auto; discriminate).
    assert (A2 : at_slot V h0 SDisp disp) by (apply h0_slot; simpl; auto; discriminate).
    assert (A3 : forall i, i < length mesh -> at_slot V h0 (SF STEP_N i) (oldF i)) by (intros i Hi; apply h0_slot; simpl; auto; discriminate).
    assert (A4 : forall i, i < length mesh -> at_slot V h0 (SS STEP_N i) (oldS i)) by (intros i Hi; apply h0_slot; simpl; auto; discriminate).
    rewrite (proj1 (@kin_phase sched d N mesh V fh Hs L Hnostate ref disp R1 R2 h0 h0_sized A1 A2)) by (intros i Hi; exact (proj1 (H i Hi))). cbn [obind].
    rewrite (proj1 (@stress_phase sched d N mesh V fh t0 t1 Hs L Hnostate ref disp R1 R2 h0 h0_sized oldF oldS A3 A4)) by (intros i Hi; exact (proj1 (proj2 (H i Hi)))). cbn [obind].
    rewrite (proj1 (@div_phase sched d N mesh V fh t0 t1 Hs L Hnostate ref disp R1 R2 h0 h0_sized oldF oldS A3 A4 h0_force)) by (intros i Hi; exact (proj2 (proj2 (H i Hi)))). cbn [obind].
    now apply compute_shape.
  Qed.
  Theorem compute_inv d' : compute_internal_force sched true reduce t0 t1 d = Ok d' -> d' = with_heap d final /\ forall i, i < len -> phases_ok i.
  Proof.
    intros H. unfold compute_internal_force in H. rewrite (l_host L), (l_force L) in H. cbn [obind] in H. rewrite fill_force in H. cbn [obind] in H.
    destruct ref_len as [R1 R2].
    assert (A1 : at_slot V h0 SRef ref) by (apply h0_slot; simpl; auto; discriminate).
    assert (A2 : at_slot V h0 SDisp disp) by (apply h0_slot; simpl; auto; discriminate).
    assert (A3 : forall i, i < length mesh -> at_slot V h0 (SF STEP_N i) (oldF i)) by (intros i Hi; apply h0_slot; simpl; auto; discriminate).
    assert (A4 : forall i, i < length mesh -> at_slot V h0 (SS STEP_N i) (oldS i)) by (intros i Hi; apply h0_slot; simpl; auto; discriminate).
    destruct (ofold (kinematics_block sched d) _ h0) as [x1| | |] eqn:E1 in H; try discriminate. cbn [obind] in H.
    destruct (proj2 (@kin_phase sched d N mesh V fh Hs L Hnostate ref disp R1 R2 h0 h0_sized A1 A2) x1 E1) as [-> B1].
    destruct (ofold (stress_block sched t0 t1 d) _ _) as [x2| | |] eqn:E2 in H; try discriminate. cbn [obind] in H.
    destruct (proj2 (@stress_phase sched d N mesh V fh t0 t1 Hs L Hnostate ref disp R1 R2 h0 h0_sized oldF oldS A3 A4) x2 E2) as [-> B2].
    destruct (ofold (divergence_block sched d) _ _) as [x3| | |] eqn:E3 in H; try discriminate. cbn [obind] in H.
    destruct (proj2 (@div_phase sched d N mesh V fh t0 t1 Hs L Hnostate ref disp R1 R2 h0 h0_sized oldF oldS A3 A4 h0_force) x3 E3) as [-> B3].
    rewrite compute_shape in H by reflexivity. injection H as <-. split; auto. intros i Hi. split; [|split]; [apply B1|apply B2|apply B3]; auto.
  Qed.
  (** ** what is in memory afterwards *)
  Lemma final_host : nth_error final (v_id fh) = Some (reduce tot).
  Proof. unfold final. rewrite list_set_set. destruct host3 as [x Hx]. apply nth_set_same. eapply nth_some_lt; exact Hx. Qed.
  Lemma final_other g : g <> v_id fh -> nth_error final g = nth_error h3 g.
  Proof. intros. unfold final. now rewrite !nth_set_other. Qed.
  Lemma fh_other s : valid_slot mesh s -> s <> SForce -> v_id (V s) <> v_id fh.
  Proof. intros Hv Hne. destruct (l_fh L) as [E|Hx]; [rewrite E; apply slot_neq; simpl; auto|]. intros E. exact (Hx s Hv (eq_sym E)). Qed.
  Lemma final_keep s : valid_slot mesh s -> (match s with SRef | SDisp | SF STEP_N _ | SS STEP_N _ => True | _ => False end) ->
    nth_error final (v_id (V s)) = nth_error (kd_heap d) (v_id (V s)).
  Proof.
    intros Hv Hk. assert (s <> SForce) by (intros ->; exact Hk). rewrite final_other by (apply fh_other; auto).
    destruct ref_len as [R1 R2].
    unfold h3, h2, h1. rewrite run_other, run_other, run_other.
    - apply h0_at; auto.
    - intros j h Hj. apply kin_frame; apply slot_neq; auto; destruct s as [| | | | | |[] |[]]; try contradiction; try discriminate.
    - intros j h Hj. unfold stress_heap. apply nth_set_other. apply slot_neq; auto; destruct s as [| | | | | |[] |[]]; try contradiction; try discriminate.
    - intros j h Hj. unfold div_heap. rewrite !nth_set_other; auto; apply slot_neq; simpl; auto; destruct s as [| | | | | |[] |[]]; try contradiction; try discriminate.
  Qed.
  Lemma final_F i : i < len -> nth_error final (v_id (V (SF STEP_NP1 i))) = Some (newF i).
  Proof.
    intros Hi. rewrite final_other by (apply fh_other; simpl; auto; discriminate). unfold h3, h2. rewrite run_other, run_other.
    - destruct ref_len as [R1 R2]. 
      exact (proj2 (proj2 (@kin_at d N mesh V fh L ref disp h0 h0_sized i Hi))).
    - intros j h Hj. unfold stress_heap. apply nth_set_other. apply slot_neq; simpl; auto; discriminate.
    - intros j h Hj. unfold div_heap. rewrite !nth_set_other; auto; apply slot_neq; simpl; auto; discriminate.
  Qed.
  Lemma final_S i : i < len -> nth_error final (v_id (V (SS STEP_NP1 i))) = Some (newS i).
  Proof.
    intros Hi. rewrite final_other by (apply fh_other; simpl; auto; discriminate). unfold h3. rewrite run_other.
    - destruct ref_len as [R1 R2]. 
      exact (@stress_at d N mesh V fh t0 t1 L ref disp h0 h0_sized oldF oldS i Hi).
    - intros j h Hj. unfold div_heap. rewrite !nth_set_other; auto; apply slot_neq; simpl; auto; discriminate.
  Qed.
  Lemma final_frame g : (forall s, valid_slot mesh s -> g <> v_id (V s)) -> g <> v_id fh -> nth_error final g = nth_error (kd_heap d) g.
  Proof.
    intros Hg Hf. rewrite final_other by assumption. unfold h3, h2, h1. rewrite run_other, run_other, run_other.
    - unfold h0. apply nth_set_other. now apply Hg.
    - intros j h Hj. apply kin_frame; now apply Hg.
    - intros j h Hj. unfold stress_heap. apply nth_set_other. now apply Hg.
    - intros j h Hj. unfold div_heap. rewrite !nth_set_other; auto; now apply Hg.
  Qed.
  Lemma final_length : length final = length (kd_heap d).
  Proof. unfold final. rewrite !list_set_length. destruct h_lengths as (_ & _ & ->). unfold h0. apply list_set_length. Qed.
End Total.
