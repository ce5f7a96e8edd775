(** Consequences for the forces and masses the device computes. *)
From Coq Require Import Reals Lra Sorted Permutation FunctionalExtensionality.
From Verif Require Import Base Strings ListLemmas DataModel Loops TensorModel TensorSpec ElementModel ElementSpec BlockModel ElementProofs2 ElementProofs3 ElementProofs4 BlockProofs PropElement.
From Verif Require Import KokkosModel KokkosSpec KokkosSpec2 KokkosProofs13.
Set Implicit Arguments.
Local Open Scope nat_scope.
Local Open Scope list_scope.
Local Notation length := List.length.

(** the corners of element e of a block; [x] lists three numbers per node *)
Definition corners (b : mblock) (x : arr) (e : nat) : nat -> nat -> R := enodes (conn_of (mb_conn b)) x e.
Definition shaped (mesh : list mblock) (x : arr) : Prop := forall b e, In b mesh -> e < mb_num_elem b -> well_shaped (corners b x e).
Definition total_mass (x : arr) (mesh : list mblock) : R :=
  fold_right (fun b t => km_density (mb_mat b) * Rsum (mb_num_elem b) (fun e => element_volume (corners b x e)) + t)%R 0%R mesh.
Definition never_fails (m : kmat) : Prop := forall t0 t1 F0 F1 S0, exists s, km_stress m t0 t1 F0 F1 S0 = Ok s.

Lemma gather_shaped conn e x : well_shaped (enodes conn x e) -> well_shaped (nodes (gather conn e x zeros)).
Proof. intros H. refine (@shaped_ext _ _ _ H). intros n i Hn Hi. symmetry. now apply gather_at. Qed.
Lemma stress_of_ok m t0 t1 oF oS e F : never_fails m -> exists s, stress_of m t0 t1 oF oS e F = Ok s.
Proof.
  intros H. unfold stress_of. match goal with |- context [omapM ?g _] => set (f := g) end.
  assert (E : exists l, omapM f (seq 0 8) = Ok l).
  { generalize (seq 0 8). intros l. induction l as [|p l IH]; [now exists []|]. destruct IH as [r IH]. cbn [omapM].
    destruct (H t0 t1 (slice oF (e * 72 + p * 9) 9) (map F (seq (p * 9) 9)) (slice oS (e * 48 + p * 6) 6)) as [s Es].
    assert (Ef : f p = Ok s) by exact Es. rewrite Ef. cbn [obind]. rewrite IH. eexists. reflexivity. }
  destruct E as [l ->]. cbn [obind]. eexists. reflexivity.
Qed.
Section Fine.
  Variables (ref disp : list R) (t0 t1 : R).
  Let x : arr := fun k => (arr_of ref k + arr_of disp k)%R.
  Definition fine (b : mblock) : Prop :=
    never_fails (mb_mat b) /\ forall e, e < mb_num_elem b -> well_shaped (corners b (arr_of ref) e) /\ well_shaped (corners b x e).
  Lemma block_force_fine b oF oS f : fine b -> exists f', serial_block_force t0 t1 ref disp b oF oS f = Ok f'.
  Proof.
    intros [Hm Hw]. unfold serial_block_force.
    assert (X : forall e, exists fo, e < mb_num_elem b -> element_force (stress_of (mb_mat b) t0 t1 oF oS) (arr_of ref) (arr_of disp) (conn_of (mb_conn b)) zeros e = Ok fo).
    { intros e. destruct (lt_dec e (mb_num_elem b)) as [He|He]; [|exists zeros; tauto]. destruct (Hw e He) as [W1 W2].
      apply gather_shaped in W1. apply gather_shaped in W2. unfold element_force. cbv zeta.
      destruct (@def_grad_ok _ (gather (conn_of (mb_conn b)) e x zeros) zeros W1) as (F & EF & _).
      destruct (@stress_of_ok (mb_mat b) t0 t1 oF oS e F Hm) as [s Es].
      destruct (@forces_ok _ s zeros W2) as (fo & Ef & _). exists fo. intros _. unfold x in EF. rewrite EF. cbn [obind]. rewrite Es. cbn [obind]. exact Ef. }
    assert (Y : exists force, forall e, e < mb_num_elem b -> element_force (stress_of (mb_mat b) t0 t1 oF oS) (arr_of ref) (arr_of disp) (conn_of (mb_conn b)) zeros e = Ok (force e)).
    { exists (fun e => match element_force (stress_of (mb_mat b) t0 t1 oF oS) (arr_of ref) (arr_of disp) (conn_of (mb_conn b)) zeros e with Ok fo => fo | _ => zeros end).
      intros e He. destruct (X e) as [fo Hfo]. now rewrite (Hfo He). }
    destruct Y as [force Hf]. apply (@block_force_intro _ _ _ _ _ _ _ force). intros e He. apply in_seq in He. apply Hf. lia.
  Qed.
  Lemma points_fine b old : fine b -> exists new, serial_points t0 t1 ref disp b old = Ok new.
  Proof.
    intros [Hm Hw]. unfold serial_points.
    match goal with |- context [omapM ?f _] => assert (E : forall l, (forall e, In e l -> e < mb_num_elem b) -> exists r, omapM f l = Ok r) end.
    { induction l as [|e l IH]; intros Hl; [now exists []|]. destruct IH as [r IH]; [intros; apply Hl; now right|].
      destruct (Hw e (Hl e (or_introl eq_refl))) as [W1 _]. apply gather_shaped in W1.
      destruct (@def_grad_ok _ (gather (conn_of (mb_conn b)) e x zeros) zeros W1) as (F & EF & _).
      destruct (@stress_of_ok (mb_mat b) t0 t1 (fst old) (snd old) e F Hm) as [s Es]. unfold x in EF.
      cbn [omapM]. rewrite EF. cbn [obind]. rewrite Es. cbn [obind]. rewrite IH. eexists. reflexivity. }
    destruct (E (seq 0 (mb_num_elem b))) as [r ->]; [intros e He; apply in_seq in He; lia|]. cbn [obind]. eexists. reflexivity.
  Qed.
  Lemma force_fine bs f : (forall y, In y bs -> fine (fst y)) ->
    exists f', ofold (fun f y => serial_block_force t0 t1 ref disp (fst y) (fst (snd y)) (snd (snd y)) f) bs f = Ok f'.
  Proof.
    revert f. induction bs as [|y bs IH]; intros f H; [now exists f|]. cbn [ofold].
    destruct (@block_force_fine (fst y) (fst (snd y)) (snd (snd y)) f (H y (or_introl eq_refl))) as [f' ->]. cbn [obind]. apply IH. intros; apply H; now right.
  Qed.
  Lemma all_points_fine bs : (forall y, In y bs -> fine (fst y)) -> exists new, omapM (fun y => serial_points t0 t1 ref disp (fst y) (snd y)) bs = Ok new.
  Proof.
    induction bs as [|y bs IH]; intros H; [now exists []|]. cbn [omapM]. destruct (@points_fine (fst y) (snd y) (H y (or_introl eq_refl))) as [p ->]. cbn [obind].
    destruct IH as [l ->]; [intros; apply H; now right|]. cbn [obind]. eexists. reflexivity.
  Qed.
  (** ** equilibrium *)
  Lemma force_balance N bs f f' : (forall y, In y bs -> hex_block N (fst y)) ->
    ofold (fun f y => serial_block_force t0 t1 ref disp (fst y) (fst (snd y)) (snd (snd y)) f) bs f = Ok f' ->
    (forall i, i < 3 -> Rsum N (fun n => f' (3 * n + i)) = Rsum N (fun n => f (3 * n + i))) /\
    (forall i j, i < 3 -> j < 3 -> Rsum N (fun n => x (3 * n + i)%nat * f' (3 * n + j)%nat - x (3 * n + j)%nat * f' (3 * n + i)%nat)%R = Rsum N (fun n => x (3 * n + i)%nat * f (3 * n + j)%nat - x (3 * n + j)%nat * f (3 * n + i)%nat)%R).
  Proof.
    revert f. induction bs as [|y bs IH]; intros f H E; cbn [ofold] in E; [injection E as <-; auto|].
    destruct (serial_block_force t0 t1 ref disp (fst y) (fst (snd y)) (snd (snd y)) f) as [f1| | |] eqn:E1; try discriminate. cbn [obind] in E.
    destruct (IH f1 (fun z Hz => H z (or_intror Hz)) E) as [A B]. unfold serial_block_force in E1.
    destruct (H y (or_introl eq_refl)) as (_ & _ & Hc).
    destruct (@C28_block_equilibrium _ _ _ _ _ _ _ _ N E1) as [A1 B1].
    { intros e n He Hn. apply in_seq in He. apply Hc. nia. }
    split; [intros i Hi; rewrite A by assumption; now apply A1|intros i j Hi Hj; rewrite B by assumption; now apply B1].
  Qed.
End Fine.
(** ** masses *)
Lemma mass_fine N ref mesh l0 : (forall b, In b mesh -> hex_block N b) -> shaped mesh (arr_of ref) ->
  exists l, ofold (fun l b => block_lumped_mass (km_density (mb_mat b)) (arr_of ref) (mb_num_elem b) (conn_of (mb_conn b)) zeros l) mesh l0 = Ok l /\
    Rsum N l = (Rsum N l0 + total_mass (arr_of ref) mesh)%R /\
    ((forall b, In b mesh -> 0 < km_density (mb_mat b))%R -> (forall k, l0 k <= l k)%R /\
       forall b e n, In b mesh -> e < mb_num_elem b -> n < 8 -> (l0 (nth (e * 8 + n)%nat (mb_conn b) 0%nat) < l (nth (e * 8 + n)%nat (mb_conn b) 0%nat))%R).
Proof.
  revert l0. induction mesh as [|b mesh IH]; intros l0 Hh Hw.
  - exists l0. cbn [ofold total_mass fold_right]. split; auto. split; [ring|]. intros _. split; [intros; lra|intros ? ? ? []].
  - cbn [ofold total_mass fold_right]. destruct (Hh b (or_introl eq_refl)) as (_ & _ & Hc).
    destruct (@C29_block_mass (km_density (mb_mat b)) (arr_of ref) (mb_num_elem b) (conn_of (mb_conn b)) zeros l0 N) as (l1 & E1 & S1 & P1).
    { intros e He. apply (Hw b e (or_introl eq_refl) He). }
    { intros e n He Hn. apply Hc. nia. }
    rewrite E1. cbn [obind]. destruct (IH l1 (fun c H => Hh c (or_intror H)) (fun c e H => Hw c e (or_intror H))) as (l & E & S & P). exists l. split; auto. split.
    + rewrite S, S1. unfold total_mass, corners. ring.
    + intros Hd. destruct (P1 (Hd b (or_introl eq_refl))) as [A1 B1]. destruct (P (fun c H => Hd c (or_intror H))) as [A B]. split; [intros k; specialize (A1 k); specialize (A k); lra|].
      intros c e n [<-|Hi] He Hn; [specialize (B1 e n He Hn); unfold conn_of in B1; specialize (A (nth (e * 8 + n) (mb_conn b) 0)); lra|].
      specialize (B c e n Hi He Hn). specialize (A1 (nth (e * 8 + n) (mb_conn c) 0)). lra.
Qed.
(** flat elements are rejected *)
Lemma mass_needs_shape ref mesh l0 l : ofold (fun l b => block_lumped_mass (km_density (mb_mat b)) (arr_of ref) (mb_num_elem b) (conn_of (mb_conn b)) zeros l) mesh l0 = Ok l -> shaped mesh (arr_of ref).
Proof.
  revert l0. induction mesh as [|b mesh IH]; intros l0 H c e Hc He; [destruct Hc|]. cbn [ofold] in H.
  destruct (block_lumped_mass _ _ _ _ _ l0) as [l1| | |] eqn:E1; try discriminate. cbn [obind] in H.
  destruct Hc as [<-|Hc]; [|exact (IH l1 H c e Hc He)].
  unfold block_lumped_mass in E1. replace (mb_num_elem b) with (0 + mb_num_elem b) in E1 by lia.
  destruct (@KokkosProofs13.oloop_inv arr _ (mb_num_elem b) 0 e _ _ E1 ltac:(lia)) as (s & s' & Es). cbv beta zeta in Es.
  destruct (shaped_dec (corners b (arr_of ref) e)) as [W|(q & Hq & Hd)]; [exact W|]. exfalso.
  rewrite lumped_abort in Es; [discriminate|]. intros W. 
  assert (W' : well_shaped (corners b (arr_of ref) e)) by (refine (@shaped_ext _ _ _ W); intros n i Hn Hi; now apply gather_at).
  specialize (W' q Hq). lra.
Qed.
