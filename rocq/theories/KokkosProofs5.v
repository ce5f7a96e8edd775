(** The internal force over all blocks, for an object whose views are laid out properly. *)
From Coq Require Import Reals Lra Permutation FunctionalExtensionality.
From Verif Require Import Base Strings ListLemmas DataModel Loops TensorModel TensorSpec ElementModel ElementSpec ElementProofs BlockModel BlockProofs KokkosModel KokkosProofs KokkosSpec KokkosProofs2 KokkosProofs3 KokkosProofs4.
Set Implicit Arguments.
Local Open Scope nat_scope.
Local Open Scope list_scope.
Local Notation length := List.length.

(** * Folds over the numbered blocks *)
Lemma combine_seq_ind {A B} (P : nat -> A -> Prop) (f : A -> nat * B -> outcome A) (l : list B) : forall a0 a,
  P a0 a -> (forall k b s, nth_error l k = Some b -> P (a0 + k) s -> exists s', f s (a0 + k, b) = Ok s' /\ P (a0 + k + 1) s') ->
  exists a', ofold f (combine (seq a0 (length l)) l) a = Ok a' /\ P (a0 + length l) a'.
Proof.
  induction l as [|b l IH]; intros a0 a H0 Hs; simpl.
  - exists a. rewrite Nat.add_0_r. auto.
  - destruct (Hs 0 b a eq_refl) as (s' & E & H1); [now rewrite Nat.add_0_r|]. rewrite Nat.add_0_r in E, H1. rewrite E. cbn [obind].
    destruct (IH (Datatypes.S a0) s') as (a' & E' & H').
    + now replace (Datatypes.S a0) with (a0 + 1) by lia.
    + intros k b' s Hk HP. destruct (Hs (Datatypes.S k) b' s Hk) as (s'' & E2 & H2).
      * now replace (a0 + Datatypes.S k) with (Datatypes.S a0 + k) by lia.
      * exists s''. replace (Datatypes.S a0 + k) with (a0 + Datatypes.S k) by lia. auto.
    + exists a'. split; auto. now replace (a0 + Datatypes.S (length l)) with (Datatypes.S a0 + length l) by lia.
Qed.
Lemma numbered_ind {A B} (P : nat -> A -> Prop) (f : A -> nat * B -> outcome A) (l : list B) a :
  P 0 a -> (forall k b s, nth_error l k = Some b -> P k s -> exists s', f s (k, b) = Ok s' /\ P (k + 1) s') ->
  exists a', ofold f (numbered l) a = Ok a' /\ P (length l) a'.
Proof. intros H0 Hs. unfold numbered. apply (@combine_seq_ind A B P f l 0 a H0). intros k b s Hk HP. now apply Hs. Qed.
Lemma combine_seq_inv {A B} (P : nat -> A -> Prop) (f : A -> nat * B -> outcome A) (l : list B) : forall a0 a a',
  P a0 a -> (forall k b s s', nth_error l k = Some b -> P (a0 + k) s -> f s (a0 + k, b) = Ok s' -> P (a0 + k + 1) s') ->
  ofold f (combine (seq a0 (length l)) l) a = Ok a' -> P (a0 + length l) a'.
Proof.
  induction l as [|b l IH]; intros a0 a a' H0 Hs H; simpl in *.
  - injection H as <-. now rewrite Nat.add_0_r.
  - destruct (f a (a0, b)) as [s| | |] eqn:E; try discriminate. cbn [obind] in H.
    replace (a0 + Datatypes.S (length l)) with (Datatypes.S a0 + length l) by lia. eapply IH; [| |exact H].
    + specialize (Hs 0 b a s eq_refl). rewrite !Nat.add_0_r in Hs. replace (Datatypes.S a0) with (a0 + 1) by lia. auto.
    + intros k b' s1 s2 Hk HP Hf. replace (Datatypes.S a0 + k + 1) with (a0 + Datatypes.S k + 1) by lia.
      eapply (Hs (Datatypes.S k)); [exact Hk| |]; [replace (a0 + Datatypes.S k) with (Datatypes.S a0 + k) by lia; exact HP|].
      replace (a0 + Datatypes.S k) with (Datatypes.S a0 + k) by lia. exact Hf.
Qed.
Lemma numbered_inv {A B} (P : nat -> A -> Prop) (f : A -> nat * B -> outcome A) (l : list B) a a' :
  P 0 a -> (forall k b s s', nth_error l k = Some b -> P k s -> f s (k, b) = Ok s' -> P (k + 1) s') ->
  ofold f (numbered l) a = Ok a' -> P (length l) a'.
Proof. intros H0 Hs. unfold numbered. apply (@combine_seq_inv A B P f l 0 a a' H0). intros k b s s' Hk HP. now apply Hs. Qed.

(** * Phases: a fold over the blocks whose every step is a known heap transformation or a failure *)
Fixpoint run (upd : nat -> heap -> heap) (k : nat) (h : heap) : heap :=
  match k with 0 => h | Datatypes.S k => upd k (run upd k h) end.
Lemma phase {B} (f : heap -> nat * B -> outcome heap) (upd : nat -> heap -> heap) (ok : nat -> Prop) (l : list B) h0 :
  (forall k b, nth_error l k = Some b -> (forall j, j < k -> ok j) -> (ok k -> f (run upd k h0) (k, b) = Ok (upd k (run upd k h0))) /\
    (forall h', f (run upd k h0) (k, b) = Ok h' -> ok k)) ->
  ((forall k, k < length l -> ok k) -> ofold f (numbered l) h0 = Ok (run upd (length l) h0)) /\
  (forall h', ofold f (numbered l) h0 = Ok h' -> h' = run upd (length l) h0 /\ forall k, k < length l -> ok k).
Proof.
  intros H. split.
  - intros Hok. destruct (@numbered_ind heap B (fun k h => h = run upd k h0) f l h0) as (h' & E & ->); auto.
    intros k b s Hk ->. exists (upd k (run upd k h0)). split; [|now rewrite Nat.add_1_r].
    assert (k < length l) by (eapply nth_some_lt; eauto). apply (H k b Hk); [intros; apply Hok; lia|]. now apply Hok.
  - intros h' E. apply (@numbered_inv heap B (fun k h => h = run upd k h0 /\ forall j, j < k -> ok j) f l h0 h'); auto.
    + split; auto. intros; lia.
    + intros k b s s' Hk [-> Hj] Hf. destruct (H k b Hk Hj) as [H1 H2]. specialize (H2 _ Hf). rewrite (H1 H2) in Hf. injection Hf as <-.
      rewrite Nat.add_1_r. split; auto. intros j Hj'. destruct (Nat.eq_dec j k) as [->|]; auto. apply Hj. lia.
Qed.
Lemma run_other upd k h g : (forall j h, j < k -> nth_error (upd j h) g = nth_error h g) -> nth_error (run upd k h) g = nth_error h g.
Proof. intros H. induction k as [|k IH]; simpl; auto. rewrite H by lia. apply IH. intros; apply H; lia. Qed.
Lemma run_length upd k h : (forall j h, length (upd j h) = length h) -> length (run upd k h) = length h.
Proof. intros H. induction k as [|k IH]; simpl; auto. now rewrite H. Qed.
Lemma run_at upd k h g j x : j < k -> (forall h, g < length h -> nth_error (upd j h) g = Some x) -> (forall i h, i < k -> i <> j -> nth_error (upd i h) g = nth_error h g) ->
  (forall j h, length (upd j h) = length h) -> g < length h -> nth_error (run upd k h) g = Some x.
Proof.
  intros Hj H1 H2 H3 Hg. induction k as [|k IH]; [lia|]. simpl. destruct (Nat.eq_dec k j) as [->|].
  - apply H1. now rewrite run_length.
  - rewrite H2 by lia. apply IH; [lia|]. intros; apply H2; lia.
Qed.
Lemma obind_assoc {A B C} (x : outcome A) (f : A -> outcome B) (g : B -> outcome C) : obind (obind x f) g = obind x (fun a => obind (f a) g).
Proof. now destruct x. Qed.
(** * Layout *)
(** the views the loops use: nodal vectors, work arrays and integration-point data of block i *)
Inductive slot := SRef | SDisp | SForce | SGref (i : nat) | SGdisp (i : nat) | SGforce (i : nat) | SF (st : step_t) (i : nat) | SS (st : step_t) (i : nat).
Definition no_mat : kmat := KMat 0 0 0 (fun _ _ _ _ _ => UB).
Definition no_block : mblock := MBlock 0 0 8 [] no_mat.
Definition nblock (mesh : list mblock) (i : nat) : mblock := nth i mesh no_block.
Definition valid_slot (mesh : list mblock) (s : slot) : Prop :=
  match s with SRef | SDisp | SForce => True | SGref i | SGdisp i | SGforce i | SF _ i | SS _ i => i < length mesh end.
Definition slot_size (mesh : list mblock) (N : nat) (s : slot) : nat :=
  match s with SRef | SDisp | SForce => N * 3
  | SGref i | SGdisp i | SGforce i => mb_num_elem (nblock mesh i) * 24
  | SF _ i => mb_num_elem (nblock mesh i) * 72 | SS _ i => mb_num_elem (nblock mesh i) * 48 end.
Definition has (h : heap) (v : view) (n : nat) : Prop := exists d, nth_error h (v_id v) = Some d /\ length d = n.
(** a block of eight-node elements, whose connectivity names nodes of the mesh *)
Definition good_block (N : nat) (b : mblock) : Prop :=
  mb_npe b = 8 /\ length (mb_conn b) = mb_num_elem b * 8 /\ (forall k, k < mb_num_elem b * 8 -> conn_of (mb_conn b) k < N).
Record layout (d : kdata) (N : nat) (mesh : list mblock) (V : slot -> view) (fh : view) : Prop := {
  l_blocks : kd_blocks d = map (fun b => (mb_id b, KBlock b (mb_conn b))) mesh;
  l_good : forall i, i < length mesh -> good_block N (nblock mesh i);
  l_ref : dev_node (kd_tables d) KVectorNode (f_ref (kd_ids d)) = Ok (V SRef);
  l_disp : dev_node (kd_tables d) KVectorNode (f_disp (kd_ids d)) = Ok (V SDisp);
  l_force : dev_node (kd_tables d) KVectorNode (f_force (kd_ids d)) = Ok (V SForce);
  l_host : host_node (kd_tables d) KVectorNode (f_force (kd_ids d)) = Ok fh;
  l_gref : forall i, i < length mesh -> vat (kd_gref d) i = Ok (V (SGref i));
  l_gdisp : forall i, i < length mesh -> vat (kd_gdisp d) i = Ok (V (SGdisp i));
  l_gforce : forall i, i < length mesh -> vat (kd_gforce d) i = Ok (V (SGforce i));
  l_F : forall i st, i < length mesh -> dev_ipt (kd_tables d) KFullIntPt (mb_id (nblock mesh i)) (f_def_grad (kd_ids d)) st = Ok (V (SF st i));
  l_S : forall i st, i < length mesh -> dev_ipt (kd_tables d) KSymIntPt (mb_id (nblock mesh i)) (f_stress (kd_ids d)) st = Ok (V (SS st i));
  l_inj : forall s1 s2, valid_slot mesh s1 -> valid_slot mesh s2 -> v_id (V s1) = v_id (V s2) -> s1 = s2;
  l_fh : fh = V SForce \/ forall s, valid_slot mesh s -> v_id fh <> v_id (V s);
  l_ext : v_extent fh = v_extent (V SForce);
  l_extF : forall i, i < length mesh -> v_extent (V (SF STEP_N i)) = v_extent (V (SF STEP_NP1 i));
  l_extS : forall i, i < length mesh -> v_extent (V (SS STEP_N i)) = v_extent (V (SS STEP_NP1 i))
}.
Definition sized (N : nat) (mesh : list mblock) (V : slot -> view) (fh : view) (h : heap) : Prop :=
  (forall s, valid_slot mesh s -> has h (V s) (slot_size mesh N s)) /\ has h fh (N * 3).

Section Force.
  Variables (sched : scheduler) (d : kdata) (N : nat) (mesh : list mblock) (V : slot -> view) (fh : view) (t0 t1 : R).
  Hypothesis Hs : valid_sched sched.
  Hypothesis L : layout d N mesh V fh.
  Hypothesis Hnostate : forall i, i < length mesh -> km_states (mb_mat (nblock mesh i)) = 0.
  Let id s := v_id (V s).
  Let ne i := mb_num_elem (nblock mesh i).
  Let cn i := mb_conn (nblock mesh i).
  Lemma block_at k x : nth_error (kd_blocks d) k = Some x -> k < length mesh /\ x = (mb_id (nblock mesh k), KBlock (nblock mesh k) (cn k)).
  Proof.
    rewrite (l_blocks L), nth_error_map. destruct (nth_error mesh k) as [b|] eqn:E; [|discriminate]. intros [= <-].
    split; [eapply nth_some_lt; eauto|]. unfold cn, nblock. now rewrite (nth_error_nth _ _ no_block E).
  Qed.
  Lemma blocks_length : length (kd_blocks d) = length mesh.
  Proof. now rewrite (l_blocks L), map_length. Qed.
  Lemma slot_ne s1 s2 : valid_slot mesh s1 -> valid_slot mesh s2 -> s1 <> s2 -> id s1 <> id s2.
  Proof. intros H1 H2 Hne E. apply Hne. now apply (l_inj L). Qed.

  (** contents of the slots of a heap *)
  Definition at_slot (h : heap) (s : slot) (x : list R) : Prop := nth_error h (id s) = Some x.
  Lemma at_other h s1 s2 x y : valid_slot mesh s1 -> valid_slot mesh s2 -> s1 <> s2 -> at_slot h s2 y -> at_slot (list_set h (id s1) x) s2 y.
  Proof. intros H1 H2 Hne H. unfold at_slot. rewrite nth_set_other; [exact H|]. apply slot_ne; auto. Qed.
  Lemma at_same h s x y : at_slot h s y -> at_slot (list_set h (id s) x) s x.
  Proof. intros H. apply nth_set_same. eapply nth_some_lt. exact H. Qed.

  (** ** kinematics *)
  Variables (ref disp : list R).
  Hypothesis Lref : length ref = N * 3.
  Hypothesis Ldisp : length disp = N * 3.
  Let newF i := new_gradients (ne i) (cn i) ref disp.
  Definition kin_heap (i : nat) (h : heap) : heap :=
    list_set (list_set (list_set h (id (SGref i)) (gath (ne i) (cn i) ref)) (id (SGdisp i)) (gath (ne i) (cn i) disp)) (id (SF STEP_NP1 i)) (newF i).
  Let blk i := (mb_id (nblock mesh i), KBlock (nblock mesh i) (cn i)).
  Ltac slots := simpl; auto; try discriminate; try congruence.
  Lemma kin_split i h x1 x2 x3 : i < length mesh -> at_slot h SRef ref -> at_slot h SDisp disp ->
    at_slot h (SGref i) x1 -> length x1 = ne i * 24 -> at_slot h (SGdisp i) x2 -> length x2 = ne i * 24 -> at_slot h (SF STEP_NP1 i) x3 -> length x3 = ne i * 72 ->
    ((forall e, e < ne i -> okv (elem_gradients (cn i) ref disp e)) -> kinematics_block sched d h (i, blk i) = Ok (kin_heap i h)) /\
    (forall h', kinematics_block sched d h (i, blk i) = Ok h' -> forall e, e < ne i -> okv (elem_gradients (cn i) ref disp e)).
  Proof.
    intros Hi Hr Hd H1 L1 H2 L2 H3 L3. destruct (l_good L Hi) as (Gn & Gl & Gc).
    unfold kinematics_block, blk. cbn [kb_mesh kb_conn].
    rewrite (l_gref L Hi), (l_gdisp L Hi), (l_gforce L Hi), (l_ref L), (l_disp L), (l_F L STEP_NP1 Hi), Gn. cbn [obind].
    match goal with |- context [obind (gather_vector ?a ?b ?c ?e ?f) ?k] =>
      assert (E1 : forall K : heap -> outcome heap, obind (gather_vector a b c e f) (fun l => obind (parallel_for sched [1; i] l h) K) = K (list_set h (id (SGref i)) (gath (ne i) (cn i) ref))) end.
    { intros K. pose proof (@gather_loop (ne i) (cn i) N Gl Gc sched [1; i] h (V SRef) (V (SGref i)) ref x1 Hs) as E.
      specialize (E (slot_ne (s1 := SRef) (s2 := SGref i) I Hi ltac:(discriminate)) Hr Lref H1 L1).
      rewrite <- obind_assoc. exact (f_equal (fun x => obind x K) E). }
    rewrite E1. set (h1 := list_set h (id (SGref i)) (gath (ne i) (cn i) ref)).
    assert (Hr1 : at_slot h1 (SGref i) (gath (ne i) (cn i) ref)) by (eapply at_same; eauto).
    match goal with |- context [obind (gather_vector ?a ?b ?c ?e ?f) ?k] =>
      assert (E2 : forall K : heap -> outcome heap, obind (gather_vector a b c e f) (fun l => obind (parallel_for sched [2; i] l h1) K) = K (list_set h1 (id (SGdisp i)) (gath (ne i) (cn i) disp))) end.
    { intros K. pose proof (@gather_loop (ne i) (cn i) N Gl Gc sched [2; i] h1 (V SDisp) (V (SGdisp i)) disp x2 Hs) as E.
      specialize (E (slot_ne (s1 := SDisp) (s2 := SGdisp i) I Hi ltac:(discriminate)) ltac:(apply at_other; slots) Ldisp ltac:(apply at_other; slots) L2).
      rewrite <- obind_assoc. exact (f_equal (fun x => obind x K) E). }
    rewrite E2. set (h2 := list_set h1 (id (SGdisp i)) (gath (ne i) (cn i) disp)).
    assert (Hr2 : at_slot h2 (SGref i) (gath (ne i) (cn i) ref)) by (apply at_other; slots).
    assert (Hd2 : at_slot h2 (SGdisp i) (gath (ne i) (cn i) disp)) by (apply at_same with (y := x2); apply at_other; slots).
    assert (HF2 : at_slot h2 (SF STEP_NP1 i) x3) by (repeat apply at_other; slots).
    pose proof (slot_ne (s1 := SGref i) (s2 := SF STEP_NP1 i) Hi Hi ltac:(discriminate)) as N1.
    pose proof (slot_ne (s1 := SGdisp i) (s2 := SF STEP_NP1 i) Hi Hi ltac:(discriminate)) as N2.
    split.
    - intros Hok. unfold kin_heap. fold h1. fold h2.
      apply (@gradients_ok (ne i) (cn i) N Gl Gc sched [3; i] h2 (V (SGref i)) (V (SGdisp i)) (V (SF STEP_NP1 i)) ref disp x3); auto.
    - intros h' Hp. exact (@gradients_inv (ne i) (cn i) N Gl Gc sched [3; i] h2 (V (SGref i)) (V (SGdisp i)) (V (SF STEP_NP1 i)) ref disp x3 Hs Hr2 Hd2 HF2 L3 N1 N2 h' Hp).
  Qed.

  (** ** the three phases *)
  Variable h0 : heap.
  Hypothesis Hsz : forall s, valid_slot mesh s -> has h0 (V s) (slot_size mesh N s).
  Hypothesis Href : at_slot h0 SRef ref.
  Hypothesis Hdisp : at_slot h0 SDisp disp.
  Let len := length mesh.
  Lemma slot_lt (h : heap) s : valid_slot mesh s -> length h = length h0 -> id s < length h.
  Proof. intros Hv E. destruct (Hsz s Hv) as (x & Hx & _). rewrite E. eapply nth_some_lt. exact Hx. Qed.
  Lemma kin_length i h : length (kin_heap i h) = length h.
  Proof. unfold kin_heap. now rewrite !list_set_length. Qed.
  Lemma kin_frame i h g : g <> id (SGref i) -> g <> id (SGdisp i) -> g <> id (SF STEP_NP1 i) -> nth_error (kin_heap i h) g = nth_error h g.
  Proof. intros. unfold kin_heap. now rewrite !nth_set_other. Qed.
  Lemma kin_slot_frame k s : k <= len -> valid_slot mesh s -> (forall j, j < k -> s <> SGref j /\ s <> SGdisp j /\ s <> SF STEP_NP1 j) ->
    nth_error (run kin_heap k h0) (id s) = nth_error h0 (id s).
  Proof.
    intros Hk Hv H. apply run_other. intros j h Hj. destruct (H j Hj) as (A & B & C). assert (j < length mesh) by (unfold len in Hk; lia).
    apply kin_frame; apply slot_ne; auto.
  Qed.
  Definition kin_all (i : nat) : Prop := forall e, e < ne i -> okv (elem_gradients (cn i) ref disp e).
  Lemma kin_phase :
    ((forall i, i < len -> kin_all i) -> ofold (kinematics_block sched d) (numbered (kd_blocks d)) h0 = Ok (run kin_heap len h0)) /\
    (forall h', ofold (kinematics_block sched d) (numbered (kd_blocks d)) h0 = Ok h' -> h' = run kin_heap len h0 /\ forall i, i < len -> kin_all i).
  Proof.
    unfold len. rewrite <- blocks_length. apply phase. intros k b Hk _. destruct (block_at k Hk) as [Hi ->].
    destruct (Hsz (SGref k) Hi) as (x1 & X1 & Y1). destruct (Hsz (SGdisp k) Hi) as (x2 & X2 & Y2). destruct (Hsz (SF STEP_NP1 k) Hi) as (x3 & X3 & Y3).
    apply kin_split with (x1 := x1) (x2 := x2) (x3 := x3); auto; unfold at_slot; rewrite kin_slot_frame; slots; try (unfold len; lia); intros j Hj; repeat split; try discriminate; intros [= E]; lia.
  Qed.
  Let h1 := run kin_heap len h0.
  Lemma kin_at i : i < len -> at_slot h1 (SGref i) (gath (ne i) (cn i) ref) /\ at_slot h1 (SGdisp i) (gath (ne i) (cn i) disp) /\ at_slot h1 (SF STEP_NP1 i) (newF i).
  Proof.
    intros Hi. unfold at_slot, h1. assert (Hv : i < length mesh) by exact Hi. 
    assert (D : forall (s : slot) j, valid_slot mesh s -> j < len -> s <> SGref j -> s <> SGdisp j -> s <> SF STEP_NP1 j -> forall h, nth_error (kin_heap j h) (id s) = nth_error h (id s)).
    { intros s j Hs' Hj A B C h. apply kin_frame; apply slot_ne; auto. }
    repeat split; apply run_at with (j := i); auto using kin_length; try (apply slot_lt; slots);
      try (intros j h Hj Hne; apply D; slots; try (intros [= E]; congruence)).
    - intros h Hh. unfold kin_heap. rewrite !nth_set_other by (apply slot_ne; slots). now apply nth_set_same.
    - intros h Hh. unfold kin_heap. rewrite nth_set_other by (apply slot_ne; slots). apply nth_set_same. now rewrite list_set_length.
    - intros h Hh. unfold kin_heap. apply nth_set_same. now rewrite !list_set_length.
  Qed.
  Lemma kin_keep s : valid_slot mesh s -> (match s with SGref _ | SGdisp _ | SF STEP_NP1 _ => False | _ => True end) -> nth_error h1 (id s) = nth_error h0 (id s).
  Proof. intros Hv Hk. apply kin_slot_frame; auto. intros j Hj. destruct s; try contradiction; repeat split; try discriminate. intros [= -> _]. exact Hk. Qed.
  Lemma kin_heap_length : length h1 = length h0.
  Proof. apply run_length. apply kin_length. Qed.

  (** stresses *)
  Variables (oldF oldS : nat -> list R).
  Hypothesis HoldF : forall i, i < len -> at_slot h0 (SF STEP_N i) (oldF i).
  Hypothesis HoldS : forall i, i < len -> at_slot h0 (SS STEP_N i) (oldS i).
  Let mt i := mb_mat (nblock mesh i).
  Let newS i := new_stress (ne i) (mt i) t0 t1 (oldF i) (newF i) (oldS i).
  Definition stress_heap (i : nat) (h : heap) : heap := list_set h (id (SS STEP_NP1 i)) (newS i).
  Definition stress_all (i : nat) : Prop := forall e p, e < ne i -> p < 8 -> okv (point_stress (mt i) t0 t1 (oldF i) (newF i) (oldS i) e p).
  Lemma newF_length i : length (newF i) = ne i * 72.
  Proof. unfold newF, new_gradients. now rewrite map_length, seq_length. Qed.
  Lemma newS_length i : length (newS i) = ne i * 48.
  Proof. unfold newS, new_stress. rewrite map_length, seq_length. lia. Qed.
  Lemma stress_keep k s : k <= len -> valid_slot mesh s -> (forall j, j < k -> s <> SS STEP_NP1 j) -> nth_error (run stress_heap k h1) (id s) = nth_error h1 (id s).
  Proof.
    intros Hk Hv H. apply run_other. intros j h Hj. unfold stress_heap. apply nth_set_other. apply slot_ne; auto. simpl. unfold len in Hk; lia.
  Qed.
  Lemma old_lengths i : i < len -> length (oldF i) = ne i * 72 /\ length (oldS i) = ne i * 48.
  Proof.
    intros Hi. destruct (Hsz (SF STEP_N i) Hi) as (x1 & X1 & Y1). destruct (Hsz (SS STEP_N i) Hi) as (x2 & X2 & Y2).
    pose proof (HoldF Hi) as E1. pose proof (HoldS Hi) as E2. unfold at_slot in E1, E2. unfold id in E1, E2. simpl in Y1, Y2. fold (ne i) in Y1, Y2. assert (oldF i = x1) as -> by congruence. assert (oldS i = x2) as -> by congruence. auto.
  Qed.
  Lemma stress_phase :
    ((forall i, i < len -> stress_all i) -> ofold (stress_block sched t0 t1 d) (numbered (kd_blocks d)) h1 = Ok (run stress_heap len h1)) /\
    (forall h', ofold (stress_block sched t0 t1 d) (numbered (kd_blocks d)) h1 = Ok h' -> h' = run stress_heap len h1 /\ forall i, i < len -> stress_all i).
  Proof.
    unfold len at 1 2 3 4. rewrite <- blocks_length. apply phase. intros k b Hk _. destruct (block_at k Hk) as [Hi ->].
    unfold stress_block. cbn [kb_mesh kb_conn].
    rewrite !(l_F L) by assumption. rewrite !(l_S L) by assumption. rewrite (Hnostate Hi). cbn [obind Nat.ltb Nat.leb].
    destruct (Hsz (SS STEP_NP1 k) Hi) as (x & X & Y). destruct (old_lengths Hi) as [O1 O2]. destruct (kin_at Hi) as (_ & _ & K3).
    assert (A1 : nth_error (run stress_heap k h1) (id (SF STEP_N k)) = Some (oldF k)).
    { rewrite stress_keep by (slots; unfold len; lia). rewrite kin_keep by slots. now apply HoldF. }
    assert (A2 : nth_error (run stress_heap k h1) (id (SF STEP_NP1 k)) = Some (newF k)).
    { rewrite stress_keep by (slots; unfold len; lia). exact K3. }
    assert (A3 : nth_error (run stress_heap k h1) (id (SS STEP_N k)) = Some (oldS k)).
    { rewrite stress_keep by (slots; unfold len; lia). rewrite kin_keep by slots. now apply HoldS. }
    assert (A4 : nth_error (run stress_heap k h1) (id (SS STEP_NP1 k)) = Some x).
    { rewrite stress_keep; slots; [|unfold len; lia|intros j Hj [= E]; lia]. rewrite kin_keep by slots. exact X. }
    pose proof (slot_ne (s1 := SF STEP_N k) (s2 := SS STEP_NP1 k) Hi Hi ltac:(discriminate)) as N1.
    pose proof (slot_ne (s1 := SF STEP_NP1 k) (s2 := SS STEP_NP1 k) Hi Hi ltac:(discriminate)) as N2.
    pose proof (slot_ne (s1 := SS STEP_N k) (s2 := SS STEP_NP1 k) Hi Hi ltac:(discriminate)) as N3.
    destruct (l_good L Hi) as (Gn & Gl & Gc).
    split.
    - intros Hok. apply (@stress_ok (ne k) (cn k) N Gl Gc (mt k) t0 t1 sched [4; k] (run stress_heap k h1) (V (SF STEP_N k)) (V (SF STEP_NP1 k)) (V (SS STEP_N k)) (V (SS STEP_NP1 k)) (oldF k) (newF k) (oldS k) x); auto using newF_length.
    - intros h' Hp. exact (@stress_inv (ne k) (cn k) N Gl Gc (mt k) t0 t1 sched [4; k] (run stress_heap k h1) (V (SF STEP_N k)) (V (SF STEP_NP1 k)) (V (SS STEP_N k)) (V (SS STEP_NP1 k)) (oldF k) (newF k) (oldS k) x Hs A1 A2 A3 A4 O1 (newF_length k) O2 Y N1 N2 N3 h' Hp).
  Qed.

  Let h2 := run stress_heap len h1.
  Lemma stress_at i : i < len -> at_slot h2 (SS STEP_NP1 i) (newS i).
  Proof.
    intros Hi. unfold at_slot, h2. apply run_at with (j := i); auto.
    - intros h Hh. unfold stress_heap. now apply nth_set_same.
    - intros j h Hj Hne. unfold stress_heap. apply nth_set_other. apply slot_ne; slots. 
    - intros; unfold stress_heap; now rewrite list_set_length.
    - apply slot_lt; slots. apply kin_heap_length.
  Qed.
  Lemma stress_heap_length : length h2 = length h0.
  Proof. unfold h2. rewrite run_length; [apply kin_heap_length|]. intros; unfold stress_heap; now rewrite list_set_length. Qed.
  Lemma stress_keep_all s : valid_slot mesh s -> (match s with SS STEP_NP1 _ => False | _ => True end) -> nth_error h2 (id s) = nth_error h1 (id s).
  Proof. intros Hv Hk. apply stress_keep; auto. intros j Hj. destruct s; try discriminate. intros [= -> _]. exact Hk. Qed.

  (** forces *)
  Hypothesis Hzero : at_slot h0 SForce (repeat 0%R (N * 3)).
  Definition eforce (i e : nat) : outcome arr := elem_forces (cn i) ref disp (newS i) e.
  Definition block_sum (i j : nat) : R := lsum (seq 0 (ne i)) (fun e => contribution (conn_of (cn i)) e (val (eforce i e)) j).
  Definition addf (i : nat) (f : list R) : list R := map (fun j => nth j f 0 + block_sum i j)%R (seq 0 (N * 3)).
  Let newG i := new_forces (ne i) (cn i) ref disp (newS i).
  Definition div_heap (i : nat) (h : heap) : heap :=
    list_set (list_set h (id (SGforce i)) (newG i)) (id SForce) (addf i (match nth_error h (id SForce) with Some f => f | None => [] end)).
  Definition force_all (i : nat) : Prop := forall e, e < ne i -> okv (eforce i e).
  Definition total (k j : nat) : R := lsum (seq 0 k) (fun i => block_sum i j).
  Lemma lsum_snoc k f : lsum (seq 0 (Datatypes.S k)) f = (lsum (seq 0 k) f + f k)%R.
  Proof. rewrite seq_S. cbn [Nat.add]. induction (seq 0 k) as [|a l IH]; simpl; [lra|]. rewrite IH. lra. Qed.
  Lemma div_keep k s : k <= len -> valid_slot mesh s -> s <> SForce -> (forall j, j < k -> s <> SGforce j) -> nth_error (run div_heap k h2) (id s) = nth_error h2 (id s).
  Proof.
    intros Hk Hv H1 H. apply run_other. intros j h Hj. unfold div_heap. rewrite !nth_set_other; auto; apply slot_ne; auto; simpl; unfold len in Hk; try lia.
  Qed.
  Lemma div_length k : length (run div_heap k h2) = length h0.
  Proof. rewrite run_length; [apply stress_heap_length|]. intros. unfold div_heap. now rewrite !list_set_length. Qed.
  Lemma div_force k : nth_error (run div_heap k h2) (id SForce) = Some (map (total k) (seq 0 (N * 3))).
  Proof.
    induction k as [|k IH].
    - simpl. rewrite stress_keep_all, kin_keep by slots. rewrite Hzero. f_equal. apply list_of_map; [apply repeat_length|]. intros i Hi.
      rewrite nth_error_repeat by assumption. reflexivity.
    - cbn [run]. unfold div_heap at 1. rewrite IH. rewrite nth_set_same by (rewrite list_set_length; apply slot_lt; slots; apply div_length).
      f_equal. unfold addf. apply map_ext_in. intros j Hj. apply in_seq in Hj. rewrite nth_mapseq by lia. unfold total at 2. now rewrite lsum_snoc.
  Qed.
  Lemma newG_length i : length (newG i) = ne i * 24.
  Proof. unfold newG, new_forces. now rewrite map_length, seq_length. Qed.
  Lemma div_phase :
    ((forall i, i < len -> force_all i) -> ofold (divergence_block sched d) (numbered (kd_blocks d)) h2 = Ok (run div_heap len h2)) /\
    (forall h', ofold (divergence_block sched d) (numbered (kd_blocks d)) h2 = Ok h' -> h' = run div_heap len h2 /\ forall i, i < len -> force_all i).
  Proof.
    unfold len at 1 2 3 4. rewrite <- blocks_length. apply phase. intros k b Hk _. destruct (block_at k Hk) as [Hi ->].
    destruct (l_good L Hi) as (Gn & Gl & Gc).
    unfold divergence_block. cbn [kb_mesh kb_conn].
    rewrite (l_gref L Hi), (l_gdisp L Hi), (l_gforce L Hi), (l_S L STEP_NP1 Hi), (l_force L), Gn. cbn [obind].
    destruct (Hsz (SGforce k) Hi) as (x & X & Y). destruct (kin_at Hi) as (K1 & K2 & _).
    set (hk := run div_heap k h2). change (mb_num_elem (nblock mesh k)) with (ne k).
    assert (A1 : nth_error hk (id (SGref k)) = Some (gath (ne k) (cn k) ref)).
    { unfold hk. rewrite div_keep by (slots; unfold len; lia). rewrite stress_keep_all by slots. exact K1. }
    assert (A2 : nth_error hk (id (SGdisp k)) = Some (gath (ne k) (cn k) disp)).
    { unfold hk. rewrite div_keep by (slots; unfold len; lia). rewrite stress_keep_all by slots. exact K2. }
    assert (A3 : nth_error hk (id (SS STEP_NP1 k)) = Some (newS k)).
    { unfold hk. rewrite div_keep by (slots; unfold len; lia). now apply stress_at. }
    assert (A4 : nth_error hk (id (SGforce k)) = Some x).
    { unfold hk. rewrite div_keep; slots; [|unfold len; lia|intros j Hj [= E]; lia]. rewrite stress_keep_all, kin_keep by slots. exact X. }
    pose proof (slot_ne (s1 := SGref k) (s2 := SGforce k) Hi Hi ltac:(discriminate)) as N1.
    pose proof (slot_ne (s1 := SGdisp k) (s2 := SGforce k) Hi Hi ltac:(discriminate)) as N2.
    pose proof (slot_ne (s1 := SS STEP_NP1 k) (s2 := SGforce k) Hi Hi ltac:(discriminate)) as N3.
    pose proof (newS_length k) as O.
    assert (Inv : forall h', parallel_for sched [5; k] (force_loop (V (SGref k)) (V (SGdisp k)) (V (SS STEP_NP1 k)) (V (SGforce k)) (ne k)) hk = Ok h' -> force_all k).
    { intros h' Hp. exact (@forces_inv (ne k) (cn k) N Gl Gc sched [5; k] hk (V (SGref k)) (V (SGdisp k)) (V (SS STEP_NP1 k)) (V (SGforce k)) ref disp (newS k) x Hs A1 A2 A3 A4 O Y N1 N2 N3 h' Hp). }
    split.
    - intros Hok.
      assert (E : parallel_for sched [5; k] (force_loop (V (SGref k)) (V (SGdisp k)) (V (SS STEP_NP1 k)) (V (SGforce k)) (ne k)) hk = Ok (list_set hk (id (SGforce k)) (newG k))).
      { apply (@forces_ok (ne k) (cn k) N Gl Gc sched [5; k] hk (V (SGref k)) (V (SGdisp k)) (V (SS STEP_NP1 k)) (V (SGforce k)) ref disp (newS k) x); auto. }
      rewrite E. cbn [obind]. set (hk1 := list_set hk (id (SGforce k)) (newG k)).
      assert (B1 : nth_error hk1 (id SForce) = Some (map (total k) (seq 0 (N * 3)))).
      { unfold hk1. rewrite nth_set_other by (apply slot_ne; slots). apply div_force. }
      assert (B2 : nth_error hk1 (id (SGforce k)) = Some (newG k)).
      { apply nth_set_same. apply slot_lt; slots. apply div_length. }
      rewrite (@scatter_loop (ne k) (cn k) N Gl Gc sched [6; k] hk1 (V SForce) (V (SGforce k)) (map (total k) (seq 0 (N * 3))) (newG k) (fun e => val (eforce k e)) Hs); auto using newG_length.
      + unfold div_heap. fold hk. unfold hk at 2. rewrite div_force. reflexivity.
      + apply slot_ne; slots.
      + now rewrite map_length, seq_length.
      + intros e q He Hq. unfold newG, new_forces. rewrite nth_mapseq by nia. destruct (@pairdiv 24 e q Hq) as [-> ->]. reflexivity.
    - intros h' Hp. destruct (parallel_for sched [5; k] _ hk) as [hx| | |] eqn:E; try discriminate. exact (Inv hx eq_refl).
  Qed.
End Force.
