(** Proofs about the block-level loops. *)
From Verif Require Import Base Loops ListLemmas TensorModel TensorSpec TensorProofs PolarProofs ElementModel ElementSpec ElementProofs ElementProofs2 ElementProofs3 ElementProofs4 ElementProofs5 BlockModel.
From Coq Require Import Reals Lra Psatz Permutation.
Set Implicit Arguments.
Local Open Scope R_scope.

(** nodal vectors of element e *)
Lemma gather_at conn e value junk n i : (n < 8)%nat -> (i < 3)%nat ->
  nodes (gather conn e value junk) n i = value (3 * conn (e * 8 + n)%nat + i)%nat.
Proof.
  intros Hn Hi. unfold nodes.
  pose (P := fun m (c : arr) => forall n i, (n < m)%nat -> (i < 3)%nat -> c (3 * n + i)%nat = value (3 * conn (e * 8 + n)%nat + i)%nat).
  enough (H : P 8%nat (gather conn e value junk)) by (apply H; assumption).
  unfold gather. apply floop_ind; [lia|intros ? ? ?; lia|]. clear n Hn i Hi. intros m c Hm IH n i Hn Hi. cbv zeta.
  unfold floop. change (seq 0 (3 - 0)) with [0;1;2]%nat. cbn [fold_left]. unfold upd.
  destruct (Nat.eq_dec n m) as [->|].
  - idx3 i; repeat match goal with |- context [Nat.eqb ?a ?b] => destruct (Nat.eqb_spec a b) as [E'|_]; [exfalso; lia|] || (replace (Nat.eqb a b) with true by (symmetry; apply Nat.eqb_eq; lia)) end; reflexivity.
  - repeat match goal with |- context [Nat.eqb ?a ?b] => destruct (Nat.eqb_spec a b) as [E'|_]; [exfalso; lia|] end. apply IH; lia.
Qed.
Lemma jac_ext x y q : (forall n i, (n < 8)%nat -> (i < 3)%nat -> x n i = y n i) -> meq (jac x q) (jac y q).
Proof. intros H. apply meq_intro. intros i j Hi Hj. unfold jac. apply Rsum_ext. intros n Hn. now rewrite H. Qed.
Lemma shaped_ext x y : (forall n i, (n < 8)%nat -> (i < 3)%nat -> x n i = y n i) -> well_shaped x -> well_shaped y.
Proof. intros H Hw q Hq. rewrite <- (mdet_proper (@jac_ext x y q H)). now apply Hw. Qed.
Lemma gradient_ext x y u w G : (forall n i, (n < 8)%nat -> (i < 3)%nat -> x n i = y n i) -> (forall n i, (n < 8)%nat -> (i < 3)%nat -> u n i = w n i) ->
  gradient_of x u G -> gradient_of y w G.
Proof. intros H1 H2 HG q Hq. rewrite <- (@jac_ext x y q H1), <- (@jac_ext u w q H2). now apply HG. Qed.

Lemma scatter1 N w (t : arr) p a : (p < N)%nat ->
  Rsum N (fun k => w k * upd t p (t p + a) k) = Rsum N (fun k => w k * t k) + w p * a.
Proof.
  intros Hp. transitivity (Rsum N (fun k => w k * t k) + Rsum N (fun k => if (k =? p)%nat then w p * a else 0)).
  - rewrite <- Rsum_plus. apply Rsum_ext. intros k Hk. unfold upd. destruct (Nat.eqb_spec k p) as [->|]; ring.
  - f_equal. rewrite (@Rsum_single N _ p Hp).
    + now rewrite Nat.eqb_refl.
    + intros k Hk Hne. destruct (Nat.eqb_spec k p); [contradiction|reflexivity].
Qed.

(** ** Lumped masses *)
Definition mass_scatter (conn : nat -> nat) (e : nat) (mass l : arr) : arr :=
  floop 0 8 (fun node l => let node_id := conn (e * 8 + node)%nat in upd l node_id (l node_id + mass node)) l.
Lemma mass_scatter_sum conn e mass l N w : (forall n, (n < 8)%nat -> (conn (e * 8 + n) < N)%nat) ->
  Rsum N (fun k => w k * mass_scatter conn e mass l k) = Rsum N (fun k => w k * l k) + Rsum 8 (fun n => w (conn (e * 8 + n)%nat) * mass n).
Proof.
  intros Hc. unfold mass_scatter.
  pose (P := fun m (l' : arr) => Rsum N (fun k => w k * l' k) = Rsum N (fun k => w k * l k) + Rsum m (fun n => w (conn (e * 8 + n)%nat) * mass n)).
  match goal with |- Rsum N (fun k => _ * ?X k) = _ => change (P 8%nat X) end.
  apply floop_ind; [lia|unfold P; simpl; ring|]. intros m l' Hm IH. unfold P. cbv zeta. rewrite scatter1 by (apply Hc; lia).
  unfold P in IH. rewrite IH. simpl Rsum at 4. ring.
Qed.
Lemma mass_scatter_ge conn e mass l k : (forall n, (n < 8)%nat -> 0 <= mass n) -> l k <= mass_scatter conn e mass l k.
Proof.
  intros Hm. unfold mass_scatter. apply (@floop_ind arr (fun _ l' => l k <= l' k)); [lia|lra|].
  intros n l' Hn IH. cbv zeta. unfold upd. destruct (Nat.eqb_spec k (conn (e * 8 + n)%nat)) as [<-|]; [|exact IH].
  pose proof (Hm n ltac:(lia)). lra.
Qed.
Lemma mass_scatter_gt conn e mass l n : (n < 8)%nat -> (forall n, (n < 8)%nat -> 0 < mass n) ->
  l (conn (e * 8 + n)%nat) < mass_scatter conn e mass l (conn (e * 8 + n)%nat).
  intros Hn Hm. unfold mass_scatter.
  pose (P := fun m (l' : arr) => if (n <? m)%nat then l (conn (e * 8 + n)%nat) < l' (conn (e * 8 + n)%nat) else l (conn (e * 8 + n)%nat) <= l' (conn (e * 8 + n)%nat)).
  match goal with |- _ < ?X _ => enough (G : P 8%nat X) end.
  { unfold P in G. destruct (Nat.ltb_spec n 8); [exact G|lia]. }
  apply (@floop_ind arr P); [lia|unfold P; simpl; lra|]. intros m l' Hm' IH. cbv zeta. unfold P in *. unfold upd.
  pose proof (Hm m ltac:(lia)) as Hpos.
  destruct (Nat.eqb_spec (conn (e * 8 + n)%nat) (conn (e * 8 + m)%nat)) as [E|E].
  - rewrite <- E. destruct (Nat.ltb_spec n m), (Nat.ltb_spec n (1 + m)); try (exfalso; lia); lra.
  - destruct (Nat.ltb_spec n m), (Nat.ltb_spec n (1 + m)); try (exfalso; lia); try exact IH. assert (n = m) by lia. subst. contradiction.
Qed.
Lemma volume_ext x y : (forall n i, (n < 8)%nat -> (i < 3)%nat -> x n i = y n i) -> element_volume x = element_volume y.
Proof. intros H. apply Rsum_ext. intros q Hq. apply mdet_proper. now apply jac_ext. Qed.
Lemma lumped_total rho coords l0 : well_shaped (nodes coords) ->
  exists l, compute_lumped_mass rho coords l0 = Ok l /\ Rsum 8 l = rho * element_volume (nodes coords) /\
    (0 < rho -> forall i, (i < 8)%nat -> 0 < l i) /\ forall k, (8 <= k)%nat -> l k = l0 k.
Proof.
  intros Hw. destruct (@lumped_ok rho coords l0 Hw) as (l & E & Hl & Hk). exists l. split; [exact E|]. split; [|split; [|exact Hk]].
  - transitivity (Rsum 8 (fun i => Rsum 8 (fun q => rho * mdet (jac (nodes coords) q) * shape i (gauss q)))).
    + apply Rsum_ext. intros i Hi. rewrite Hl by assumption. rewrite Rsum_mul_l. apply Rsum_ext. intros; ring.
    + rewrite Rsum_swap. unfold element_volume. rewrite Rsum_mul_l. apply Rsum_ext. intros q Hq. rewrite <- Rsum_mul_l, shape_sum. ring.
  - intros Hr i Hi. rewrite Hl by assumption. apply Rmult_lt_0_compat; [assumption|].
    assert (P : forall q, (q < 8)%nat -> 0 < shape i (gauss q) * mdet (jac (nodes coords) q)).
    { intros q Hq. apply Rmult_lt_0_compat; [apply shape_gauss_pos|now apply Hw]. }
    cbv [Rsum]. pose proof (P 0%nat ltac:(lia)). pose proof (P 1%nat ltac:(lia)). pose proof (P 2%nat ltac:(lia)). pose proof (P 3%nat ltac:(lia)).
    pose proof (P 4%nat ltac:(lia)). pose proof (P 5%nat ltac:(lia)). pose proof (P 6%nat ltac:(lia)). pose proof (P 7%nat ltac:(lia)). lra.
Qed.
Lemma block_mass rho ref E conn junk l0 N : (forall e, (e < E)%nat -> well_shaped (enodes conn ref e)) ->
  (forall e n, (e < E)%nat -> (n < 8)%nat -> (conn (e * 8 + n) < N)%nat) ->
  exists l, block_lumped_mass rho ref E conn junk l0 = Ok l /\
    Rsum N l = Rsum N l0 + rho * Rsum E (fun e => element_volume (enodes conn ref e)) /\
    (0 < rho -> (forall k, l0 k <= l k) /\ forall e n, (e < E)%nat -> (n < 8)%nat -> l0 (conn (e * 8 + n)%nat) < l (conn (e * 8 + n)%nat)).
Proof.
  intros Hw Hc. unfold block_lumped_mass. cbv zeta.
  match goal with |- context [oloop 0 E ?f ?s] =>
    destruct (@oloop_ind (nat -> R) (fun m l => 
      Rsum N l = Rsum N l0 + rho * Rsum m (fun e => element_volume (enodes conn ref e)) /\
      (0 < rho -> (forall k, l0 k <= l k) /\ forall e n, (e < m)%nat -> (n < 8)%nat -> l0 (conn (e * 8 + n)%nat) < l (conn (e * 8 + n)%nat))) 0%nat E f s) as (l & El & H) end; [lia| | |].
  - split; [simpl; ring|]. intros _. split; [intros; lra|intros; lia].
  - intros e l He [IH1 IH2].
    assert (Hx : forall n i, (n < 8)%nat -> (i < 3)%nat -> enodes conn ref e n i = nodes (gather conn e ref junk) n i) by (intros; symmetry; now apply gather_at).
    destruct (@lumped_total rho (gather conn e ref junk) junk) as (ma & Em & Hs & Hp & _); [apply (@shaped_ext _ _ Hx); apply Hw; lia|].
    rewrite Em. cbn [obind]. eexists. split; [reflexivity|].
    fold (mass_scatter conn e ma l). split.
    + pose proof (@mass_scatter_sum conn e ma l N (fun _ => 1) ltac:(intros; apply Hc; lia)) as S.
      assert (One : forall m (g : nat -> R), Rsum m (fun k => 1 * g k) = Rsum m g) by (intros; apply Rsum_ext; intros; ring).
      rewrite !One in S. change (Rsum N (fun k => mass_scatter conn e ma l k)) with (Rsum N (mass_scatter conn e ma l)) in S.
      rewrite S. change (Rsum N (fun k => l k)) with (Rsum N l). rewrite IH1. change (Rsum 8 (fun n => ma n)) with (Rsum 8 ma). rewrite Hs.
      rewrite <- (@volume_ext _ _ Hx). change (1 + e)%nat with (Datatypes.S e). cbn [Rsum]. ring.
    + intros Hr. destruct (IH2 Hr) as [J1 J2]. specialize (Hp Hr). split.
      * intros k. eapply Rle_trans; [apply J1|]. apply mass_scatter_ge. intros n Hn. left. now apply Hp.
      * intros e' n He' Hn. destruct (Nat.eq_dec e' e) as [->|].
        -- eapply Rle_lt_trans; [apply J1|]. now apply mass_scatter_gt.
        -- eapply Rlt_le_trans; [apply J2; [lia|assumption]|]. apply mass_scatter_ge. intros m Hm. left. now apply Hp.
  - exists l. split; [exact El|exact H].
Qed.

(** ** Critical time step *)
Lemma block_dt big K rho ref disp E conn junk :
  let dt := block_critical_time_step big K rho ref disp E conn junk in
  let L e := compute_characteristic_length big (gather conn e (fun k => ref k + disp k) junk) in
  (forall e, (e < E)%nat -> dt <= L e / sqrt (K / rho)) /\ dt <= big /\
  (dt = big \/ exists e, (e < E)%nat /\ dt = L e / sqrt (K / rho)).
Proof.
  intros dt L. unfold dt, block_critical_time_step. cbv zeta.
  match goal with |- context [floop 0 E ?f ?s] =>
    enough (G : (fun m d => (forall e, (e < m)%nat -> d <= L e / sqrt (K / rho)) /\ d <= big /\ (d = big \/ exists e, (e < m)%nat /\ d = L e / sqrt (K / rho))) E (floop 0 E f s)) by exact G end.
  apply floop_ind; [lia|split; [intros; lia|split; [lra|now left]]|].
  intros e d He (I1 & I2 & I3). rewrite lower_min. fold (L e). split; [|split].
  - intros e' He'. destruct (Nat.eq_dec e' e) as [->|]; [apply Rmin_l|]. eapply Rle_trans; [apply Rmin_r|]. apply I1. lia.
  - eapply Rle_trans; [apply Rmin_r|exact I2].
  - unfold Rmin. destruct (Rle_dec _ _).
    + right. exists e. split; [lia|reflexivity].
    + destruct I3 as [->|(e' & He' & ->)]; [now left|]. right. exists e'. split; [lia|reflexivity].
Qed.

(** ** Internal forces *)
Definition force_scatter (conn : nat -> nat) (e : nat) (force f : arr) : arr :=
  floop 0 8 (fun node f =>
    let node_id := conn (e * 8 + node)%nat in
    floop 0 3 (fun i f => upd f (3 * node_id + i)%nat (f (3 * node_id + i)%nat + force (node * 3 + i)%nat)) f) f.
Definition contribution (conn : nat -> nat) (e : nat) (force : arr) (k : nat) : R :=
  Rsum 8 (fun n => Rsum 3 (fun i => if (k =? 3 * conn (e * 8 + n)%nat + i)%nat then nodes force n i else 0)).
Lemma force_scatter_at conn e force f k : force_scatter conn e force f k = f k + contribution conn e force k.
Proof.
  unfold force_scatter.
  pose (h := fun k n => Rsum 3 (fun i => if (k =? 3 * conn (e * 8 + n)%nat + i)%nat then nodes force n i else 0)).
  change (contribution conn e force k) with (Rsum 8 (h k)).
  pose (P := fun m (f' : arr) => forall k, f' k = f k + Rsum m (h k)).
  match goal with |- ?X k = _ => enough (G : P 8%nat X) by apply G end.
  apply (@floop_ind arr P); [lia|intros ?; simpl; ring|]. clear k. intros m f' Hm IH k. cbv zeta.
  change (Rsum (1 + m) (h k)) with (Rsum m (h k) + h k m). unfold h at 2.
  set (p := conn (e * 8 + m)%nat). unfold floop. change (seq 0 (3 - 0)) with [0;1;2]%nat. cbn [fold_left].
  unfold upd. cbn [Rsum]. unfold nodes. replace (m * 3)%nat with (3 * m)%nat by lia.
  unfold P in IH.
  destruct (Nat.eqb_spec k (3 * p + 0)) as [->|]; [|destruct (Nat.eqb_spec k (3 * p + 1)) as [->|]; [|destruct (Nat.eqb_spec k (3 * p + 2)) as [->|]]];
    repeat match goal with |- context [Nat.eqb ?a ?b] => destruct (Nat.eqb_spec a b) as [E'|_]; [exfalso; lia|] || (replace (Nat.eqb a b) with true by (symmetry; apply Nat.eqb_eq; lia)) end;
    rewrite ?IH; ring.
Qed.
(** the force of one element; independent of what has been accumulated so far *)
Definition element_force (get_stress : nat -> arr -> outcome arr) (ref disp : arr) (conn : nat -> nat) (junk : arr) (e : nat) : outcome arr :=
  let ref_coord := gather conn e ref junk in
  let cur_coord := gather conn e (fun k => ref k + disp k) junk in
  do F <- compute_deformation_gradients ref_coord cur_coord junk;
  do s <- get_stress e F;
  compute_nodal_forces cur_coord s junk.
Lemma internal_force_elem_eq gs ref disp conn junk e f :
  internal_force_elem gs ref disp conn junk e f = omap (fun force => force_scatter conn e force f) (element_force gs ref disp conn junk e).
Proof.
  unfold internal_force_elem, element_force, omap. cbv zeta.
  destruct (compute_deformation_gradients _ _ _) as [F| | |]; cbn [obind]; try reflexivity.
  destruct (gs e F) as [s| | |]; cbn [obind]; try reflexivity.
Qed.
Fixpoint lsum (l : list nat) (f : nat -> R) : R := match l with [] => 0 | e :: l => f e + lsum l f end.
Lemma lsum_perm l l' f : Permutation l l' -> lsum l f = lsum l' f.
Proof. induction 1; simpl; lra. Qed.
Lemma lsum_ext l f g : (forall e, In e l -> f e = g e) -> lsum l f = lsum l g.
Proof. induction l as [|e l IH]; intros H; simpl; auto. rewrite H, IH; auto; intros; [apply H; now right|now left]. Qed.
Lemma block_force_ok gs ref disp conn junk order f0 f : block_internal_force gs ref disp order conn junk f0 = Ok f ->
  exists force, (forall e, In e order -> element_force gs ref disp conn junk e = Ok (force e)) /\
    forall k, f k = f0 k + lsum order (fun e => contribution conn e (force e) k).
Proof.
  unfold block_internal_force. revert f0. induction order as [|e order IH]; intros f0 H; simpl in H.
  - injection H as <-. exists (fun _ _ => 0). split; [intros e []|]. intros; simpl; ring.
  - rewrite internal_force_elem_eq in H. destruct (element_force gs ref disp conn junk e) as [fe| | |] eqn:Ee; try discriminate. simpl in H.
    destruct (IH _ H) as (force & H1 & H2).
    assert (X : forall e', exists fo, In e' (e :: order) -> element_force gs ref disp conn junk e' = Ok fo).
    { intros e'. destruct (element_force gs ref disp conn junk e') as [fo| | |] eqn:E; [now exists fo| | |]; exists junk; intros [->|Hi]; try congruence; rewrite H1 in E by assumption; discriminate. }
    exists (fun e' => match element_force gs ref disp conn junk e' with Ok fo => fo | _ => junk end). split.
    + intros e' Hi. destruct (X e') as [fo Hfo]. rewrite (Hfo Hi). reflexivity.
    + intros k. rewrite H2, force_scatter_at. simpl. rewrite Ee.
      rewrite (lsum_ext order (fun e => contribution conn e (force e) k) (fun e0 => contribution conn e0 (match element_force gs ref disp conn junk e0 with Ok fo => fo | _ => junk end) k)).
      * ring.
      * intros e' Hi. rewrite H1 by assumption. reflexivity.
Qed.
Lemma block_force_intro gs ref disp conn junk order f0 force :
  (forall e, In e order -> element_force gs ref disp conn junk e = Ok (force e)) ->
  exists f, block_internal_force gs ref disp order conn junk f0 = Ok f.
Proof.
  unfold block_internal_force. revert f0. induction order as [|e order IH]; intros f0 H; simpl; [eauto|].
  rewrite internal_force_elem_eq, H by now left. simpl. apply IH. intros; apply H; now right.
Qed.
Lemma contribution_work conn e force N V : (forall n, (n < 8)%nat -> (conn (e * 8 + n) < N)%nat) ->
  Rsum (3 * N) (fun k => V k * contribution conn e force k) = Rsum 8 (fun n => Rsum 3 (fun i => enodes conn V e n i * nodes force n i)).
Proof.
  intros Hc. unfold contribution.
  transitivity (Rsum 8 (fun n => Rsum 3 (fun i => Rsum (3 * N) (fun k => if (k =? 3 * conn (e * 8 + n)%nat + i)%nat then V k * nodes force n i else 0)))).
  - transitivity (Rsum (3 * N) (fun k => Rsum 8 (fun n => Rsum 3 (fun i => if (k =? 3 * conn (e * 8 + n)%nat + i)%nat then V k * nodes force n i else 0)))).
    + apply Rsum_ext. intros k Hk. rewrite Rsum_mul_l. apply Rsum_ext. intros n Hn. rewrite Rsum_mul_l. apply Rsum_ext. intros i Hi. destruct (_ =? _)%nat; ring.
    + rewrite Rsum_swap. apply Rsum_ext. intros n Hn. rewrite Rsum_swap. reflexivity.
  - apply Rsum_ext. intros n Hn. apply Rsum_ext. intros i Hi. pose proof (Hc n Hn).
    rewrite (@Rsum_single _ _ (3 * conn (e * 8 + n)%nat + i)%nat).
    + rewrite Nat.eqb_refl. reflexivity.
    + lia.
    + intros k Hk Hne. destruct (Nat.eqb_spec k (3 * conn (e * 8 + n)%nat + i)); [contradiction|reflexivity].
Qed.
Lemma lsum_Rsum l N g : Rsum N (fun k => lsum l (fun e => g e k)) = lsum l (fun e => Rsum N (g e)).
Proof.
  induction l as [|e l IH]; simpl; [now apply Rsum_zero|]. rewrite Rsum_plus, IH. reflexivity.
Qed.
Lemma lsum_scal l c f : c * lsum l f = lsum l (fun e => c * f e).
Proof. induction l as [|e l IH]; simpl; [ring|]. rewrite <- IH. ring. Qed.

(** One element's part of the virtual work, with the stress the material returned for its
    deformation gradient *)
Lemma element_force_work gs ref disp conn junk e force : element_force gs ref disp conn junk e = Ok force ->
  let X := enodes conn ref e in let x := enodes conn (fun k => ref k + disp k) e in
  well_shaped X /\ well_shaped x /\
  exists F s, gs e F = Ok s /\ gradient_of X x (fun q => full (fun k => F (9 * q + k)%nat)) /\
    forall v G, gradient_of x v G ->
      Rsum 8 (fun n => Rsum 3 (fun i => v n i * nodes force n i)) = - Rsum 8 (fun q => mdet (jac x q) * contract (stress_at s q) (G q)).
Proof.
  intros H X x. unfold element_force in H. cbv zeta in H.
  assert (HX : forall n i, (n < 8)%nat -> (i < 3)%nat -> nodes (gather conn e ref junk) n i = X n i) by (intros; now apply gather_at).
  assert (Hx : forall n i, (n < 8)%nat -> (i < 3)%nat -> nodes (gather conn e (fun k => ref k + disp k) junk) n i = x n i) by (intros; now apply gather_at).
  destruct (shaped_dec (nodes (gather conn e ref junk))) as [W1|(q & Hq & Hd)].
  2:{ rewrite def_grad_abort in H; [discriminate|]. intros Hw. pose proof (Hw q Hq). lra. }
  destruct (@def_grad_ok (gather conn e ref junk) (gather conn e (fun k => ref k + disp k) junk) junk W1) as (F & EF & HF & _).
  rewrite EF in H. cbn [obind] in H. destruct (gs e F) as [s| | |] eqn:Es; try discriminate. cbn [obind] in H.
  destruct (shaped_dec (nodes (gather conn e (fun k => ref k + disp k) junk))) as [W2|(q & Hq & Hd)].
  2:{ rewrite forces_abort in H; [discriminate|]. intros Hw. pose proof (Hw q Hq). lra. }
  destruct (@forces_ok (gather conn e (fun k => ref k + disp k) junk) s junk W2) as (f & Ef & Hf & _).
  rewrite Ef in H. injection H as <-.
  split; [exact (@shaped_ext _ _ HX W1)|]. split; [exact (@shaped_ext _ _ Hx W2)|].
  exists F, s. split; [exact Es|]. split; [exact (@gradient_ext _ _ _ _ _ HX Hx HF)|].
  intros v G HG.
  assert (HG' : gradient_of (nodes (gather conn e (fun k => ref k + disp k) junk)) v G).
  { apply (@gradient_ext x _ v v G); [intros; symmetry; now apply Hx|reflexivity|exact HG]. }
  rewrite (@virtual_work _ s f v G W2 HG' Hf). apply (f_equal Ropp). apply Rsum_ext. intros q Hq. rewrite (mdet_proper (@jac_ext _ _ q Hx)). reflexivity.
Qed.
