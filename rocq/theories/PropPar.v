(** C82: masses and internal forces of a mesh distributed over ranks and blocks. *)
From Coq Require Import Reals Lra Permutation.
From Verif Require Import Base Loops ListLemmas TensorModel TensorSpec TensorProofs PolarProofs ElementModel ElementSpec ElementProofs ElementProofs2 ElementProofs3 ElementProofs4 ElementProofs5 BlockModel BlockProofs.
From Verif Require Import MpiModel MpiSpec MpiRunProofs MpiFinal PropMpi PropElement ParModel.
Set Implicit Arguments.
Local Open Scope R_scope.

(** * The undistributed mesh *)
(** An element: global ids of its nodes, density, and its stress law: the six stress components at every
    integration point as a function of the deformation gradients at the integration points *)
Record gelem := GElem { ge_nodes : nat -> Z; ge_density : R; ge_stress : (nat -> mat3) -> nat -> nat -> R }.
(** positions of the nodes of an element, given positions by global id *)
Definition pos (X : Z -> nat -> R) (E : gelem) : nat -> nat -> R := fun n i => X (ge_nodes E n) i.
Definition Sum {A} (l : list A) (f : A -> R) : R := fold_right (fun a t => f a + t) 0 l.
(** share of node g in an element whose nodes have the values [v] *)
Definition share (E : gelem) (g : Z) (v : nat -> R) : R := Rsum 8 (fun n => if (ge_nodes E n =? g)%Z then v n else 0).
(** row sum of the consistent mass matrix *)
Definition nodal_mass (rho : R) (x : nat -> nat -> R) (n : nat) : R := rho * Rsum 8 (fun q => shape n (gauss q) * mdet (jac x q)).
(** [f] are the internal forces of the element by the principle of virtual work *)
Definition is_force (X U : Z -> nat -> R) (E : gelem) (f : nat -> nat -> R) : Prop :=
  let x := pos (fun g i => X g i + U g i) E in
  exists G, gradient_of (pos X E) x G /\
    forall v H, gradient_of x v H -> Rsum 8 (fun n => Rsum 3 (fun i => v n i * f n i)) = - Rsum 8 (fun q => mdet (jac x q) * contract (sym (ge_stress E G q)) (H q)).
(** the stress law looks at the gradients only *)
Definition law (E : gelem) : Prop :=
  forall G G', (forall q, (q < 8)%nat -> meq (G q) (G' q)) -> forall q k, (q < 8)%nat -> (k < 6)%nat -> ge_stress E G q k = ge_stress E G' q k.

(** * The distributed mesh *)
(** the block [b] of a rank with nodes [ids] consists of the elements [es] *)
Record block_of (ids : list Z) (b : hblock) (es : list gelem) : Prop := {
  bo_num : hb_num b = length es;
  bo_order : Permutation (hb_order b) (seq 0 (length es));
  bo_density : forall E, In E es -> ge_density E = hb_density b;
  bo_conn : forall k E, nth_error es k = Some E -> forall n, (n < 8)%nat -> nth_error ids (hb_conn b (k * 8 + n)%nat) = Some (ge_nodes E n);
  bo_stress : forall k E, nth_error es k = Some E -> forall F, exists s, hb_stress b k F = Ok s /\
    forall q c, (q < 8)%nat -> (c < 6)%nat -> s (6 * q + c)%nat = ge_stress E (fun q => full (fun k => F (9 * q + k)%nat)) q c }.
Record rank_of (X U : Z -> nat -> R) (r : hrank) (bs : list (list gelem)) : Prop := {
  ro_nodup : NoDup (hr_ids r);
  ro_blocks : Forall2 (block_of (hr_ids r)) (hr_blocks r) bs;
  ro_ref : forall i g c, nth_error (hr_ids r) i = Some g -> (c < 3)%nat -> hr_ref r (3 * i + c)%nat = X g c;
  ro_disp : forall i g c, nth_error (hr_ids r) i = Some g -> (c < 3)%nat -> hr_disp r (3 * i + c)%nat = U g c }.
(** every element is on exactly one rank, in exactly one block *)
Definition distributed (X U : Z -> nat -> R) (ranks : list hrank) (es : list gelem) : Prop :=
  exists parts, Forall2 (rank_of X U) ranks parts /\ Permutation es (List.concat (List.concat parts)).
(** All ranks end without error with [value g c] at component c of every node g, under every schedule *)
Definition all_get (fs : nat) (ranks : list hrank) (run_ : list (nat * bool) -> outcome (list (rstate R))) (value : Z -> nat -> R) : Prop :=
  forall sched, exists g, run_ sched = Ok g /\ length g = length ranks /\
    (forall r s, nth_error g r = Some s -> ~ failed s /\
       (rs_pc s = PDone -> forall rk i node c, nth_error ranks r = Some rk -> nth_error (hr_ids rk) i = Some node -> (c < fs)%nat -> rs_mem s (i * fs + c)%nat = value node c)) /\
    exists more g', run_ (sched ++ more) = Ok g' /\ length g' = length ranks /\ forall r s, nth_error g' r = Some s -> rs_pc s = PDone.

(** * lemmas *)
Lemma Sum_app A (l l' : list A) f : Sum (l ++ l') f = Sum l f + Sum l' f.
Proof. unfold Sum. induction l as [|a l IH]; cbn; [ring|rewrite IH; ring]. Qed.
Lemma Sum_perm A (l l' : list A) f : Permutation l l' -> Sum l f = Sum l' f.
Proof. unfold Sum. induction 1; cbn; lra. Qed.
Lemma Sum_ext A (l : list A) f g : (forall a, In a l -> f a = g a) -> Sum l f = Sum l g.
Proof. unfold Sum. induction l as [|a l IH]; intros H; cbn; auto. rewrite H, IH; auto; intros; [apply H; now right|now left]. Qed.
Lemma Sum_zero A (l : list A) f : (forall a, In a l -> f a = 0) -> Sum l f = 0.
Proof. unfold Sum. induction l as [|a l IH]; intros H; cbn; auto. rewrite H, IH; [ring|intros; apply H; now right|now left]. Qed.
Lemma Sum_concat A (ls : list (list A)) f : Sum (List.concat ls) f = Sum ls (fun l => Sum l f).
Proof. induction ls as [|l ls IH]; auto. cbn [List.concat]. rewrite Sum_app, IH. reflexivity. Qed.
Lemma Sum_seq A (l : list A) (f : nat -> R) g : (forall k a, nth_error l k = Some a -> f k = g a) -> lsum (seq 0 (length l)) f = Sum l g.
Proof.
  assert (G : forall l s, (forall k a, nth_error l k = Some a -> f (s + k)%nat = g a) -> lsum (seq s (length l)) f = Sum l g).
  { clear l. induction l as [|a l IH]; intros s H; cbn; auto. fold (Sum l g). rewrite <- (IH (S s)).
    - rewrite <- (H 0%nat a eq_refl), Nat.add_0_r. reflexivity.
    - intros k b Hk. rewrite <- (H (S k) b Hk). f_equal. lia. }
  intros H. apply G. intros k a Hk. now apply H.
Qed.
Lemma index_nth l g i : NoDup l -> nth_error l i = Some g -> index_of g l = Some i.
Proof.
  intros N H. assert (L : (i < length l)%nat) by (apply nth_error_Some; congruence).
  rewrite <- (@index_of_nth l i N L). f_equal. symmetry. now apply nth_error_nth.
Qed.
Lemma nodup_inj (l : list Z) i j g : NoDup l -> nth_error l i = Some g -> nth_error l j = Some g -> i = j.
Proof. intros N H1 H2. pose proof (@index_nth l g i N H1). pose proof (@index_nth l g j N H2). congruence. Qed.

(** the sum over the holders of a node is a sum over all ranks *)
Lemma holder_sum fs (ids : list (list Z)) (data : list (nat -> R)) g c (T : nat -> R) : length data = length ids ->
  (forall r m, nth_error data r = Some m -> match index_of g (nth r ids []) with Some i => m (i * fs + c)%nat = T r | None => T r = 0 end) ->
  rsum (holder_values fs ids data g c) = lsum (seq 0 (length ids)) T.
Proof.
  intros L H. unfold holder_values.
  assert (G : forall l, (forall r, In r l -> (r < length ids)%nat) ->
    rsum (flat_map (fun r => match node_value fs ids data r g c with Some v => [v] | None => [] end) l) = lsum l T).
  { induction l as [|r l IH]; intros Hl; cbn [flat_map lsum]; auto. unfold rsum in *. rewrite fold_right_app, IH by (intros; apply Hl; now right).
    unfold node_value at 1. specialize (Hl r (or_introl eq_refl)).
    destruct (nth_error data r) as [m|] eqn:Em; [|apply nth_error_None in Em; lia]. specialize (H r m Em).
    destruct (index_of g (nth r ids [])) as [i|]; cbn [fold_right]; rewrite H; ring. }
  apply G. intros r Hr. apply in_seq in Hr. lia.
Qed.

(** what an element adds to local node i is the share of its id *)
Lemma local_share ids b es k E (i : nat) g v : NoDup ids -> block_of ids b es -> nth_error es k = Some E -> nth_error ids i = Some g ->
  Rsum 8 (fun n => if (i =? hb_conn b (k * 8 + n)%nat)%nat then v n else 0) = share E g v.
Proof.
  intros N B Hk Hi. unfold share. apply Rsum_ext. intros n Hn. pose proof (bo_conn B k Hk Hn) as Hc.
  destruct (Nat.eqb_spec i (hb_conn b (k * 8 + n)%nat)) as [->|Ne].
  - rewrite Hi in Hc. injection Hc as ->. now rewrite Z.eqb_refl.
  - destruct (Z.eqb_spec (ge_nodes E n) g) as [Eg|]; auto. exfalso. apply Ne. rewrite Eg in Hc. exact (@nodup_inj ids _ _ g N Hi Hc).
Qed.
Lemma no_share ids b es k E g v : block_of ids b es -> nth_error es k = Some E -> ~ In g ids -> share E g v = 0.
Proof.
  intros B Hk Hg. unfold share. apply Rsum_zero. intros n Hn. destruct (Z.eqb_spec (ge_nodes E n) g) as [<-|]; auto.
  exfalso. apply Hg. eapply nth_error_In. exact (bo_conn B k Hk Hn).
Qed.
Lemma pos_local X U r bs b es k E n i : rank_of X U r bs -> block_of (hr_ids r) b es -> nth_error es k = Some E -> (n < 8)%nat -> (i < 3)%nat ->
  pos X E n i = enodes (hb_conn b) (hr_ref r) k n i /\ pos (fun g i => X g i + U g i) E n i = enodes (hb_conn b) (fun k => hr_ref r k + hr_disp r k) k n i.
Proof.
  intros RO B Hk Hn Hi. unfold pos, enodes. pose proof (bo_conn B k Hk Hn) as Hc.
  rewrite (ro_ref RO _ Hc Hi), (ro_disp RO _ Hc Hi). auto.
Qed.

(** ** masses *)
Lemma mass_scatter_at conn e mass l k : mass_scatter conn e mass l k = l k + Rsum 8 (fun n => if (k =? conn (e * 8 + n)%nat)%nat then mass n else 0).
Proof.
  unfold mass_scatter.
  pose (P := fun m (l' : arr) => forall k, l' k = l k + Rsum m (fun n => if (k =? conn (e * 8 + n)%nat)%nat then mass n else 0)).
  match goal with |- ?x k = _ => enough (G : P 8%nat x) by apply G end.
  apply (@floop_ind arr P); [lia|intros ?; simpl; ring|]. clear k. intros m l' Hm IH k. cbv zeta. change (Rsum (1 + m)) with (Rsum (S m)). cbn [Rsum].
  unfold upd. destruct (Nat.eqb_spec k (conn (e * 8 + m)%nat)) as [->|]; rewrite IH; ring.
Qed.
Lemma nodal_mass_ext rho x y n : (forall n i, (n < 8)%nat -> (i < 3)%nat -> x n i = y n i) -> nodal_mass rho x n = nodal_mass rho y n.
Proof. intros H. unfold nodal_mass. f_equal. apply Rsum_ext. intros q Hq. f_equal. apply mdet_proper. now apply jac_ext. Qed.
Lemma block_mass_at X U r bs b es l0 : rank_of X U r bs -> block_of (hr_ids r) b es -> (forall E, In E es -> well_shaped (pos X E)) ->
  exists l, block_lumped_mass (hb_density b) (hr_ref r) (hb_num b) (hb_conn b) (hr_junk r) l0 = Ok l /\
    forall i g, nth_error (hr_ids r) i = Some g -> l i = l0 i + Sum es (fun E => share E g (nodal_mass (ge_density E) (pos X E))).
Proof.
  intros RO B Hw. unfold block_lumped_mass. cbv zeta. rewrite (bo_num B).
  match goal with |- context [oloop 0 ?N ?f ?s] =>
    destruct (@oloop_ind (nat -> R) (fun m l => forall i g, nth_error (hr_ids r) i = Some g ->
        l i = l0 i + lsum (seq 0 m) (fun k => match nth_error es k with Some E => share E g (nodal_mass (ge_density E) (pos X E)) | None => 0 end)) 0%nat N f s) as (l & El & H) end; [lia| | |].
  - intros i g _. cbn. ring.
  - intros k l Hk IH. destruct (nth_error es k) as [E|] eqn:EE; [|apply nth_error_None in EE; lia].
    assert (Hx : forall n i, (n < 8)%nat -> (i < 3)%nat -> pos X E n i = nodes (gather (hb_conn b) k (hr_ref r) (hr_junk r)) n i).
    { intros n i Hn Hi. rewrite gather_at by assumption. exact (proj1 (@pos_local X U r bs b es k E n i RO B EE Hn Hi)). }
    destruct (@lumped_ok (hb_density b) (gather (hb_conn b) k (hr_ref r) (hr_junk r)) (hr_junk r)) as (ma & Em & Hm & _).
    { apply (@shaped_ext _ _ Hx). apply Hw. eapply nth_error_In; eauto. }
    rewrite Em. cbn [obind]. eexists. split; [reflexivity|]. intros i g Hi. fold (mass_scatter (hb_conn b) k ma l). rewrite mass_scatter_at, (IH i g Hi).
    change (1 + k)%nat with (S k). rewrite seq_S. cbn [plus].
    assert (La : forall (f : nat -> R) a c, lsum (a ++ [c]) f = lsum a f + f c) by (intros f a c; induction a as [|z a IHa]; cbn; [ring|rewrite IHa; ring]).
    rewrite La. rewrite EE. rewrite <- (@local_share _ b es k E i g _ (ro_nodup RO) B EE Hi).
    rewrite Rplus_assoc. f_equal. f_equal. apply Rsum_ext. intros n Hn. destruct (i =? hb_conn b (k * 8 + n)%nat)%nat; auto.
    rewrite Hm by assumption. rewrite (@nodal_mass_ext _ _ _ n Hx). unfold nodal_mass. rewrite (bo_density B E) by (eapply nth_error_In; eauto). reflexivity.
  - exists l. split; [exact El|]. intros i g Hi. rewrite (H i g Hi). f_equal. apply Sum_seq. intros k a ->. reflexivity.
Qed.
Lemma rank_mass_at X U r bs : rank_of X U r bs -> (forall E, In E (List.concat bs) -> well_shaped (pos X E)) -> forall l0,
  exists l, rank_lumped_mass r l0 = Ok l /\
    forall i g, nth_error (hr_ids r) i = Some g -> l i = l0 i + Sum (List.concat bs) (fun E => share E g (nodal_mass (ge_density E) (pos X E))).
Proof.
  intros RO. pose proof (ro_blocks RO) as F. unfold rank_lumped_mass. revert F. generalize (hr_blocks r) as hb. generalize bs at 1 2 3 as bs1. intros bs1 hb F.
  induction F as [|b es blocks bs' B F IH]; intros Hw l0.
  - exists l0. split; auto. intros. cbn. ring.
  - cbn [ofold]. assert (G : forall E, In E es -> well_shaped (pos X E)) by (intros; apply Hw; cbn; apply in_or_app; now left).
    destruct (@block_mass_at X U r bs b es l0 RO B G) as (l1 & E1 & H1). rewrite E1. cbn [obind].
    destruct (IH ltac:(intros; apply Hw; cbn; apply in_or_app; now right) l1) as (l & El & H). exists l. split; auto.
    intros i g Hi. rewrite (H i g Hi), (H1 i g Hi). cbn [List.concat]. rewrite Sum_app. ring.
Qed.

(** ** forces *)
Lemma contract_ext S S' G : meq S S' -> contract S G = contract S' G.
Proof. intros H. unfold contract. apply Rsum_ext. intros i Hi. apply Rsum_ext. intros j Hj. now rewrite (H i j Hi Hj). Qed.
Lemma sym_ext s s' : (forall k, (k < 6)%nat -> s k = s' k) -> meq (sym s) (sym s').
Proof.
  intros H i j Hi Hj. unfold sym. idx3 i; idx3 j; cbn; apply H; lia.
Qed.
Lemma force_unique X U E f f' : law E -> well_shaped (pos X E) -> well_shaped (pos (fun g i => X g i + U g i) E) ->
  is_force X U E f -> is_force X U E f' -> forall n i, (n < 8)%nat -> (i < 3)%nat -> f n i = f' n i.
Proof.
  intros Hl W1 W2 (G & HG & HF) (G' & HG' & HF') n i Hn Hi. set (x := pos (fun g i => X g i + U g i) E) in *.
  set (xa := fun k => x (k / 3)%nat (k mod 3)%nat). set (va := fun k => if (k =? 3 * n + i)%nat then 1 else 0).
  assert (Xa : forall m c, (m < 8)%nat -> (c < 3)%nat -> nodes xa m c = x m c).
  { intros m c _ Hc. unfold nodes, xa. replace ((3 * m + c) / 3)%nat with m by (rewrite Nat.mul_comm, Nat.div_add_l by lia; rewrite (Nat.div_small c 3) by lia; lia).
    replace ((3 * m + c) mod 3)%nat with c by (rewrite Nat.add_comm, Nat.mul_comm, Nat.mod_add by lia; now rewrite Nat.mod_small by lia). reflexivity. }
  destruct (@def_grad_ok xa va (fun _ => 0)) as (out & _ & HH & _).
  { apply (@shaped_ext x); [intros; symmetry; now apply Xa|exact W2]. }
  set (H := fun q => full (fun k => out (9 * q + k)%nat)) in HH.
  assert (HH' : gradient_of x (nodes va) H) by (apply (@gradient_ext (nodes xa) x (nodes va) (nodes va) H); auto).
  pose proof (HF _ _ HH') as E1. pose proof (HF' _ _ HH') as E2.
  assert (P : forall f : nat -> nat -> R, Rsum 8 (fun m => Rsum 3 (fun c => nodes va m c * f m c)) = f n i).
  { intros f0. rewrite (@Rsum_single 8 _ n Hn).
    - rewrite (@Rsum_single 3 _ i Hi).
      + unfold nodes, va. rewrite Nat.eqb_refl. ring.
      + intros c Hc Ne. unfold nodes, va. destruct (Nat.eqb_spec (3 * n + c) (3 * n + i)); [lia|ring].
    - intros m Hm Ne. apply Rsum_zero. intros c Hc. unfold nodes, va. destruct (Nat.eqb_spec (3 * m + c) (3 * n + i)); [lia|ring]. }
  rewrite P in E1, E2. rewrite E1, E2. f_equal. apply Rsum_ext. intros q Hq. f_equal. apply contract_ext. apply sym_ext. intros k Hk.
  apply Hl; auto. intros p Hp. exact (gradient_unique W1 HG HG' Hp).
Qed.
(** the force computed for a local element is the force of the element *)
Lemma local_force X U r bs b es k E force : rank_of X U r bs -> block_of (hr_ids r) b es -> nth_error es k = Some E ->
  element_force (hb_stress b) (hr_ref r) (hr_disp r) (hb_conn b) (hr_junk r) k = Ok force -> is_force X U E (nodes force).
Proof.
  intros RO B Hk Ef. destruct (@element_force_work _ _ _ _ _ _ _ Ef) as (_ & _ & F & s & Es & HG & HW).
  assert (P1 : forall n i, (n < 8)%nat -> (i < 3)%nat -> enodes (hb_conn b) (hr_ref r) k n i = pos X E n i) by (intros n i Hn Hi; symmetry; exact (proj1 (@pos_local X U r bs b es k E n i RO B Hk Hn Hi))).
  assert (P2 : forall n i, (n < 8)%nat -> (i < 3)%nat -> enodes (hb_conn b) (fun k => hr_ref r k + hr_disp r k) k n i = pos (fun g i => X g i + U g i) E n i)
    by (intros n i Hn Hi; symmetry; exact (proj2 (@pos_local X U r bs b es k E n i RO B Hk Hn Hi))).
  exists (fun q => full (fun k => F (9 * q + k)%nat)). split; [exact (@gradient_ext _ _ _ _ _ P1 P2 HG)|].
  intros v H HH. rewrite (HW v H); [|apply (@gradient_ext _ _ v v H (fun n i Hn Hi => eq_sym (P2 n i Hn Hi))); auto].
  f_equal. apply Rsum_ext. intros q Hq. rewrite (mdet_proper (@jac_ext _ _ q P2)). f_equal. apply contract_ext. unfold stress_at. apply sym_ext. intros c Hc.
  destruct (bo_stress B k Hk F) as (s' & Es' & Hs'). rewrite Es in Es'. injection Es' as <-. now apply Hs'.
Qed.
Lemma local_force_ok X U r bs b es k E : rank_of X U r bs -> block_of (hr_ids r) b es -> nth_error es k = Some E ->
  well_shaped (pos X E) -> well_shaped (pos (fun g i => X g i + U g i) E) ->
  exists force, element_force (hb_stress b) (hr_ref r) (hr_disp r) (hb_conn b) (hr_junk r) k = Ok force.
Proof.
  intros RO B Hk W1 W2. unfold element_force. cbv zeta.
  destruct (@def_grad_ok (gather (hb_conn b) k (hr_ref r) (hr_junk r)) (gather (hb_conn b) k (fun k => hr_ref r k + hr_disp r k) (hr_junk r)) (hr_junk r)) as (F & EF & _).
  { apply (@shaped_ext (pos X E)); auto. intros n i Hn Hi. rewrite gather_at by assumption. exact (proj1 (@pos_local X U r bs b es k E n i RO B Hk Hn Hi)). }
  rewrite EF. cbn [obind]. destruct (bo_stress B k Hk F) as (s & Es & _). rewrite Es. cbn [obind].
  destruct (@forces_ok (gather (hb_conn b) k (fun k => hr_ref r k + hr_disp r k) (hr_junk r)) s (hr_junk r)) as (f & Ef & _).
  { apply (@shaped_ext (pos (fun g i => X g i + U g i) E)); auto. intros n i Hn Hi. rewrite gather_at by assumption. exact (proj2 (@pos_local X U r bs b es k E n i RO B Hk Hn Hi)). }
  rewrite Ef. eauto.
Qed.
Lemma contribution_share ids b es k E i g c force : NoDup ids -> block_of ids b es -> nth_error es k = Some E -> nth_error ids i = Some g -> (c < 3)%nat ->
  contribution (hb_conn b) k force (3 * i + c)%nat = share E g (fun n => nodes force n c).
Proof.
  intros N B Hk Hi Hc. unfold contribution. rewrite <- (@local_share ids b es k E i g _ N B Hk Hi). apply Rsum_ext. intros n Hn.
  rewrite (@Rsum_single 3 _ c Hc).
  - destruct (Nat.eqb_spec i (hb_conn b (k * 8 + n)%nat)) as [<-|Ne]; [now rewrite Nat.eqb_refl|].
    destruct (Nat.eqb_spec (3 * i + c) (3 * hb_conn b (k * 8 + n)%nat + c)); [lia|reflexivity].
  - intros d Hd Ne. destruct (Nat.eqb_spec (3 * i + c) (3 * hb_conn b (k * 8 + n)%nat + d)); [lia|reflexivity].
Qed.
Lemma share_ext E g v w : (forall n, (n < 8)%nat -> v n = w n) -> share E g v = share E g w.
Proof. intros H. unfold share. apply Rsum_ext. intros n Hn. now rewrite H. Qed.
Section Force.
  Variables X U : Z -> nat -> R.
  Variable fo : gelem -> nat -> nat -> R.
  Notation good E := (law E /\ well_shaped (pos X E) /\ well_shaped (pos (fun g i => X g i + U g i) E) /\ is_force X U E (fo E)).
  Lemma block_force_at r bs b es f0 : rank_of X U r bs -> block_of (hr_ids r) b es -> (forall E, In E es -> good E) ->
    exists f, block_internal_force (hb_stress b) (hr_ref r) (hr_disp r) (hb_order b) (hb_conn b) (hr_junk r) f0 = Ok f /\
      forall i g c, nth_error (hr_ids r) i = Some g -> (c < 3)%nat -> f (3 * i + c)%nat = f0 (3 * i + c)%nat + Sum es (fun E => share E g (fun n => fo E n c)).
  Proof.
    intros RO B HE.
    set (force := fun k => match element_force (hb_stress b) (hr_ref r) (hr_disp r) (hb_conn b) (hr_junk r) k with Ok f => f | _ => fun _ => 0 end).
    assert (Hf : forall k, In k (hb_order b) -> element_force (hb_stress b) (hr_ref r) (hr_disp r) (hb_conn b) (hr_junk r) k = Ok (force k)).
    { intros k Hk. apply (Permutation_in _ (bo_order B)) in Hk. apply in_seq in Hk. destruct (nth_error es k) as [E|] eqn:EE; [|apply nth_error_None in EE; lia].
      destruct (HE E (nth_error_In _ _ EE)) as (_ & W1 & W2 & _). destruct (@local_force_ok X U r bs b es k E RO B EE W1 W2) as (fk & Ek). unfold force. now rewrite Ek. }
    destruct (@block_force_intro _ _ _ _ _ (hb_order b) f0 force Hf) as (f & Ef). exists f. split; auto.
    intros i g c Hi Hc. destruct (@block_force_ok _ _ _ _ _ _ _ _ Ef) as (force' & Hf' & H). rewrite H. f_equal.
    rewrite (lsum_perm _ (bo_order B)). apply Sum_seq. intros k E EE.
    assert (Ik : In k (hb_order b)). { apply (Permutation_in _ (Permutation_sym (bo_order B))). apply in_seq. split; [lia|]. cbn. apply nth_error_Some. congruence. }
    rewrite (@contribution_share _ b es k E i g c _ (ro_nodup RO) B EE Hi Hc). apply share_ext. intros n Hn.
    destruct (HE E (nth_error_In _ _ EE)) as (Hl & W1 & W2 & Hfo).
    exact (@force_unique X U E _ _ Hl W1 W2 (@local_force X U r bs b es k E _ RO B EE (Hf' k Ik)) Hfo n c Hn Hc).
  Qed.
  Lemma rank_force_at r bs : rank_of X U r bs -> (forall E, In E (List.concat bs) -> good E) ->
    exists f, rank_internal_force r = Ok f /\
      forall i g c, nth_error (hr_ids r) i = Some g -> (c < 3)%nat -> f (3 * i + c)%nat = Sum (List.concat bs) (fun E => share E g (fun n => fo E n c)).
  Proof.
    intros RO HE. unfold rank_internal_force.
    assert (G : forall f0, exists f, ofold (fun f b => block_internal_force (hb_stress b) (hr_ref r) (hr_disp r) (hb_order b) (hb_conn b) (hr_junk r) f) (hr_blocks r) f0 = Ok f /\
      forall i g c, nth_error (hr_ids r) i = Some g -> (c < 3)%nat -> f (3 * i + c)%nat = f0 (3 * i + c)%nat + Sum (List.concat bs) (fun E => share E g (fun n => fo E n c))).
    { pose proof (ro_blocks RO) as F. revert F HE. generalize (hr_blocks r) as hb. generalize bs at 1 2 3 as bs1. intros bs1 hb F HE. induction F as [|b es blocks bs' B F IH]; intros f0.
      - exists f0. split; auto. intros. cbn. ring.
      - cbn [ofold]. destruct (@block_force_at r bs b es f0 RO B) as (f1 & E1 & H1); [intros; apply HE; cbn; apply in_or_app; now left|]. rewrite E1. cbn [obind].
        destruct (IH ltac:(intros; apply HE; cbn; apply in_or_app; now right) f1) as (f & Ef & H). exists f. split; auto.
        intros i g c Hi Hc. rewrite (H i g c Hi Hc), (H1 i g c Hi Hc). cbn [List.concat]. rewrite Sum_app. ring. }
    destruct (G (fun _ => 0)) as (f & Ef & H). exists f. split; auto. intros i g c Hi Hc. rewrite (H i g c Hi Hc). ring.
  Qed.
End Force.

(** ** the forces exist *)
Definition own_force (X U : Z -> nat -> R) (E : gelem) : nat -> nat -> R :=
  match element_force (fun _ F => Ok (fun i => ge_stress E (fun q => full (fun k => F (9 * q + k)%nat)) (i / 6) (i mod 6)))
      (fun k => X (ge_nodes E (k / 3)) (k mod 3)) (fun k => U (ge_nodes E (k / 3)) (k mod 3)) (fun k => k) (fun _ => 0) 0 with
  | Ok f => nodes f | _ => fun _ _ => 0 end.
Lemma div3 m c : (c < 3)%nat -> ((3 * m + c) / 3 = m /\ (3 * m + c) mod 3 = c)%nat.
Proof. intros H. rewrite (Nat.mul_comm 3 m). split; [rewrite Nat.div_add_l by lia; rewrite (Nat.div_small c 3) by lia; lia|]. rewrite Nat.add_comm, Nat.mod_add by lia. now apply Nat.mod_small. Qed.
Lemma div6 m c : (c < 6)%nat -> ((6 * m + c) / 6 = m /\ (6 * m + c) mod 6 = c)%nat.
Proof. intros H. rewrite (Nat.mul_comm 6 m). split; [rewrite Nat.div_add_l by lia; rewrite (Nat.div_small c 6) by lia; lia|]. rewrite Nat.add_comm, Nat.mod_add by lia. now apply Nat.mod_small. Qed.
Lemma ok_inj A (a b : A) : Ok a = Ok b -> a = b.
Proof. congruence. Qed.
Lemma own_force_ok X U E : well_shaped (pos X E) -> well_shaped (pos (fun g i => X g i + U g i) E) -> is_force X U E (own_force X U E).
Proof.
  intros W1 W2. unfold own_force.
  set (gs := fun _ F => Ok _). set (ref := fun k => X _ _). set (disp := fun k => U _ _).
  assert (P1 : forall n i, (n < 8)%nat -> (i < 3)%nat -> enodes (fun k => k) ref 0 n i = pos X E n i).
  { intros n i _ Hi. unfold enodes, ref, pos. rewrite Nat.mul_0_l, Nat.add_0_l. destruct (@div3 n i Hi) as (-> & ->). reflexivity. }
  assert (P2 : forall n i, (n < 8)%nat -> (i < 3)%nat -> enodes (fun k => k) (fun k => ref k + disp k) 0 n i = pos (fun g i => X g i + U g i) E n i).
  { intros n i _ Hi. unfold enodes, ref, disp, pos. rewrite Nat.mul_0_l, Nat.add_0_l. destruct (@div3 n i Hi) as (-> & ->). reflexivity. }
  assert (Ok1 : exists f, element_force gs ref disp (fun k => k) (fun _ => 0) 0 = Ok f).
  { unfold element_force. cbv zeta.
    destruct (@def_grad_ok (gather (fun k => k) 0 ref (fun _ => 0)) (gather (fun k => k) 0 (fun k => ref k + disp k) (fun _ => 0)) (fun _ => 0)) as (F & EF & _).
    { apply (@shaped_ext (pos X E)); auto. intros n i Hn Hi. rewrite gather_at by assumption. symmetry. now apply P1. }
    rewrite EF. cbn [obind]. unfold gs. cbn [obind].
    match goal with |- exists f, compute_nodal_forces _ ?s _ = _ => destruct (@forces_ok (gather (fun k => k) 0 (fun k => ref k + disp k) (fun _ => 0)) s (fun _ => 0)) as (f & Ef & _) end.
    { apply (@shaped_ext (pos (fun g i => X g i + U g i) E)); auto. intros n i Hn Hi. rewrite gather_at by assumption. symmetry. now apply P2. }
    rewrite Ef. eauto. }
  destruct Ok1 as (f & Ef). rewrite Ef. destruct (@element_force_work _ _ _ _ _ _ _ Ef) as (_ & _ & F & s & Es & HG & HW).
  exists (fun q => full (fun k => F (9 * q + k)%nat)). split; [exact (@gradient_ext _ _ _ _ _ P1 P2 HG)|].
  intros v H HH. rewrite (HW v H); [|apply (@gradient_ext _ _ v v H (fun n i Hn Hi => eq_sym (P2 n i Hn Hi))); auto].
  f_equal. apply Rsum_ext. intros q Hq. rewrite (mdet_proper (@jac_ext _ _ q P2)). f_equal. apply contract_ext. unfold stress_at. apply sym_ext. intros c Hc.
  unfold gs in Es. apply ok_inj in Es. rewrite <- Es. cbv beta. destruct (@div6 q c Hc) as (-> & ->). reflexivity.
Qed.

(** ** the reduction *)
Lemma run_len T (red : list T -> T) fs cls sched : forall g, length (run red fs cls g sched) = length g.
Proof.
  unfold run. induction sched as [|(r, a) l IH]; intros g; cbn [fold_left]; auto. rewrite IH. unfold step.
  destruct (nth_error g r); auto. now rewrite list_set_length.
Qed.
Lemma Forall2_nth A B (P : A -> B -> Prop) l l' r a : Forall2 P l l' -> nth_error l r = Some a -> exists b, nth_error l' r = Some b /\ P a b.
Proof. intros F. revert r. induction F as [|x y l l' H F IH]; intros [|r] E; cbn in E; try discriminate; [injection E as <-; cbn; eauto|]. exact (IH r E). Qed.
Lemma F2_len A B (P : A -> B -> Prop) l l' : Forall2 P l l' -> length l = length l'.
Proof. induction 1; cbn; auto. Qed.
Lemma F2_flip A B (P : A -> B -> Prop) l l' : Forall2 P l l' -> Forall2 (fun b a => P a b) l' l.
Proof. induction 1; constructor; auto. Qed.
Lemma omapM_list A B (f : A -> outcome B) (P : A -> B -> Prop) l : (forall a, In a l -> exists b, f a = Ok b /\ P a b) -> exists l', omapM f l = Ok l' /\ Forall2 P l l'.
Proof.
  induction l as [|a l IH]; intros H; [exists []; split; [reflexivity|constructor]|].
  destruct (H a (or_introl eq_refl)) as (b & E & Hb). destruct IH as (l' & El & F); [intros; apply H; now right|].
  exists (b :: l'). cbn [omapM]. rewrite E. cbn [obind]. rewrite El. split; [reflexivity|now constructor].
Qed.
Lemma reduce_gets fs X U ranks parts (data : list arr) (val : gelem -> Z -> nat -> R) : (1 <= fs <= 3)%nat ->
  Forall2 (rank_of X U) ranks parts ->
  Forall2 (fun rk m => forall bs, rank_of X U rk bs -> In bs parts -> forall i g c, nth_error (hr_ids rk) i = Some g -> (c < fs)%nat -> m (i * fs + c)%nat = Sum (List.concat bs) (fun E => val E g c)) ranks data ->
  (forall E g c, (forall n, (n < 8)%nat -> ge_nodes E n <> g) -> val E g c = 0) ->
  all_get fs ranks (reduce_all fs ranks data) (fun g c => Sum (List.concat (List.concat parts)) (fun E => val E g c)).
Proof.
  intros Hfs FP FD Hz. unfold all_get, reduce_all.
  assert (LD : length data = length (map hr_ids ranks)) by (rewrite map_length; symmetry; eapply F2_len; eauto).
  assert (LP : length parts = length (map hr_ids ranks)) by (rewrite map_length; symmetry; eapply F2_len; eauto).
  assert (ND : all_nodup (map hr_ids ranks)).
  { unfold all_nodup. apply Forall_forall. intros l Hl. apply in_map_iff in Hl. destruct Hl as (rk & <- & Hr). apply In_nth_error in Hr. destruct Hr as (k & Ek).
    destruct (@Forall2_nth _ _ _ _ _ k rk FP Ek) as (bs & _ & RO). exact (ro_nodup RO). }
  destruct (@C01_reduction_sums_shared_nodes (map hr_ids ranks) data fs ND LD Hfs) as (cls & Ec & H). rewrite Ec. cbn [obind].
  intros sched. destruct (H sched) as (g & Eg & H1 & sched' & H2). exists g. split; [exact Eg|].
  assert (Ep : forall l, perform_reduction rsum fs cls data l = Ok (run rsum fs cls (start data) l)) by (intros l; clear - Hfs; destruct fs as [|[|[|[|fs]]]]; try lia; reflexivity).
  assert (Ls : forall l, length (run rsum fs cls (start data) l) = length ranks) by (intros l; rewrite !run_len; unfold start; exact (eq_trans (map_length _ data) (eq_trans LD (map_length _ _)))).
  split; [rewrite Ep in Eg; apply ok_inj in Eg; rewrite <- Eg; apply Ls|]. split.
  - intros r s Hs. destruct (H1 r s Hs) as (Nf & Hv). split; auto. intros Hd rk i node c Hr Hi Hc.
    assert (En : nth r (map hr_ids ranks) [] = hr_ids rk) by (apply nth_error_nth; now apply map_nth_error).
    rewrite (Hv Hd i node c) by (rewrite ?En; assumption). clear Hv Hi Hr En rk i.
    rewrite (@holder_sum fs (map hr_ids ranks) data node c (fun r => match nth_error parts r with Some bs => Sum (List.concat bs) (fun E => val E node c) | None => 0 end) LD).
    + rewrite <- LP, Sum_concat, Sum_concat. apply Sum_seq. intros k bs ->. apply Sum_concat.
    + intros k m Em. assert (Lk : (k < length ranks)%nat) by (rewrite map_length in LD; rewrite <- LD; apply nth_error_Some; intros Q; discriminate (eq_trans (eq_sym Q) Em)).
      destruct (nth_error ranks k) as [rk|] eqn:Ek; [|apply nth_error_None in Ek; lia].
      destruct (@Forall2_nth _ _ _ _ _ k rk FP Ek) as (bs & Eb & RO). destruct (@Forall2_nth _ _ _ _ _ k rk FD Ek) as (m' & Em' & Hm). rewrite Em in Em'. injection Em' as <-.
      rewrite Eb. assert (En : nth k (map hr_ids ranks) [] = hr_ids rk) by (apply nth_error_nth; now apply map_nth_error). rewrite En.
      destruct (index_of node (hr_ids rk)) as [i|] eqn:Ei.
      * apply index_of_Some in Ei. destruct Ei as (Li & Ei). apply Hm; auto; [eapply nth_error_In; eauto|]. rewrite (nth_error_nth' _ 0%Z Li). now rewrite Ei.
      * apply Sum_zero. intros E HE. apply Hz. intros n Hn Eq.
        apply in_concat in HE. destruct HE as (es & Hes & HE). apply In_nth_error in HE. destruct HE as (q & Eq').
        apply In_nth_error in Hes. destruct Hes as (p & Epp). pose proof (ro_blocks RO) as FB. apply F2_flip in FB.
        destruct (@Forall2_nth _ _ _ _ _ p es FB Epp) as (b & _ & B). pose proof (bo_conn B q Eq' Hn) as Hc'. apply nth_error_In in Hc'. rewrite Eq in Hc'.
        exact (@index_of_None _ _ Ei Hc').
  - exists sched', (run rsum fs cls g sched').
    rewrite Ep in Eg |- *. injection Eg as <-. split; [|split].
    + f_equal. unfold run. now rewrite fold_left_app.
    + rewrite run_len. apply Ls.
    + exact H2.
Qed.

(** * Theorems *)
(** Every rank ends with the row-sum mass of the undistributed mesh at each of its nodes *)
Theorem C82_mass_of_the_whole_mesh X U ranks es :
  distributed X U ranks es -> (forall E, In E es -> well_shaped (pos X E)) ->
  all_get 1 ranks (all_lumped_mass ranks) (fun g _ => Sum es (fun E => share E g (nodal_mass (ge_density E) (pos X E)))).
Proof.
  intros (parts & FP & PE) HW. unfold all_lumped_mass.
  destruct (@omapM_list _ _ (fun r => rank_lumped_mass r (fun _ => 0))
     (fun rk m => forall bs, rank_of X U rk bs -> In bs parts -> forall i g c, nth_error (hr_ids rk) i = Some g -> (c < 1)%nat -> m (i * 1 + c)%nat = Sum (List.concat bs) (fun E => share E g (nodal_mass (ge_density E) (pos X E)))) ranks) as (data & Ed & FD).
  { intros rk Hr. apply In_nth_error in Hr. destruct Hr as (k & Ek). destruct (@Forall2_nth _ _ _ _ _ k rk FP Ek) as (bs & Eb & RO).
    assert (W : forall bs', In bs' parts -> forall E, In E (List.concat bs') -> well_shaped (pos X E)).
    { intros bs' Hb E HE. apply HW. apply (Permutation_in _ (Permutation_sym PE)). apply in_concat in HE. destruct HE as (l & Hl & HE). apply in_concat. exists l. split; auto.
      apply in_concat. eauto. }
    destruct (@rank_mass_at X U rk bs RO (W bs (nth_error_In _ _ Eb)) (fun _ => 0)) as (m & Em & Hm). exists m. split; auto.
    intros bs' RO' Hb i g c Hi Hc. destruct (@rank_mass_at X U rk bs' RO' (W bs' Hb) (fun _ => 0)) as (m' & Em' & Hm'). rewrite Em in Em'. apply ok_inj in Em'. subst m'.
    replace (i * 1 + c)%nat with i by lia. rewrite (Hm' i g Hi). ring. }
  rewrite Ed. cbn [obind]. intros sched.
  destruct (@reduce_gets 1 X U ranks parts data (fun E g _ => share E g (nodal_mass (ge_density E) (pos X E))) ltac:(lia) FP FD) with (sched := sched) as (g & Eg & Lg & H1 & H2).
  { intros E g _ Hn. apply Rsum_zero. intros n Hn'. destruct (Z.eqb_spec (ge_nodes E n) g) as [Eq|]; auto. now apply Hn in Eq. }
  exists g. split; [exact Eg|]. split; [exact Lg|]. split; [|exact H2]. intros r s Hs. destruct (H1 r s Hs) as (Nf & Hv). split; auto.
  intros Hd rk i node c Hr Hi Hc. rewrite (Hv Hd rk i node c Hr Hi Hc). symmetry. now apply Sum_perm.
Qed.
Print Assumptions C82_mass_of_the_whole_mesh.

Lemma force_gets X U es fo ranks : (forall E, In E es -> law E /\ well_shaped (pos X E) /\ well_shaped (pos (fun g i => X g i + U g i) E) /\ is_force X U E (fo E)) ->
  distributed X U ranks es -> all_get 3 ranks (all_internal_force ranks) (fun g c => Sum es (fun E => share E g (fun n => fo E n c))).
Proof.
  intros HW (parts & FP & PE). unfold all_internal_force.
  destruct (@omapM_list _ _ rank_internal_force
     (fun rk m => forall bs, rank_of X U rk bs -> In bs parts -> forall i g c, nth_error (hr_ids rk) i = Some g -> (c < 3)%nat -> m (i * 3 + c)%nat = Sum (List.concat bs) (fun E => share E g (fun n => fo E n c))) ranks) as (data & Ed & FD).
  { intros rk Hr. apply In_nth_error in Hr. destruct Hr as (k & Ek). destruct (@Forall2_nth _ _ _ _ _ k rk FP Ek) as (bs & Eb & RO).
    assert (W : forall bs', In bs' parts -> forall E, In E (List.concat bs') -> law E /\ well_shaped (pos X E) /\ well_shaped (pos (fun g i => X g i + U g i) E) /\ is_force X U E (fo E)).
    { intros bs' Hb E HE. apply HW.
      apply (Permutation_in _ (Permutation_sym PE)). apply in_concat in HE. destruct HE as (l & Hl & HE). apply in_concat. exists l. split; auto. apply in_concat. eauto. }
    destruct (@rank_force_at X U fo rk bs RO (W bs (nth_error_In _ _ Eb))) as (m & Em & Hm). exists m. split; auto.
    intros bs' RO' Hb i g c Hi Hc. destruct (@rank_force_at X U fo rk bs' RO' (W bs' Hb)) as (m' & Em' & Hm'). rewrite Em in Em'. apply ok_inj in Em'. subst m'.
    replace (i * 3 + c)%nat with (3 * i + c)%nat by lia. exact (Hm' i g c Hi Hc). }
  rewrite Ed. cbn [obind]. intros sched.
  destruct (@reduce_gets 3 X U ranks parts data (fun E g c => share E g (fun n => fo E n c)) ltac:(lia) FP FD) with (sched := sched) as (g & Eg & Lg & H1 & H2).
  { intros E g c Hn. apply Rsum_zero. intros n Hn'. destruct (Z.eqb_spec (ge_nodes E n) g) as [Eq|]; auto. now apply Hn in Eq. }
  exists g. split; [exact Eg|]. split; [exact Lg|]. split; [|exact H2]. intros r s Hs. destruct (H1 r s Hs) as (Nf & Hv). split; auto.
  intros Hd rk i node c Hr Hi Hc. rewrite (Hv Hd rk i node c Hr Hi Hc). symmetry. now apply Sum_perm.
Qed.
(** Every rank ends with the internal force of the undistributed mesh at each of its nodes: the sum over
    all elements of the forces that satisfy the principle of virtual work *)
Theorem C82_force_of_the_whole_mesh X U es :
  (forall E, In E es -> law E /\ well_shaped (pos X E) /\ well_shaped (pos (fun g i => X g i + U g i) E)) ->
  exists fo, (forall E, In E es -> is_force X U E (fo E)) /\
    forall ranks, distributed X U ranks es -> all_get 3 ranks (all_internal_force ranks) (fun g c => Sum es (fun E => share E g (fun n => fo E n c))).
Proof.
  intros HW. exists (own_force X U). split; [intros E HE; destruct (HW E HE) as (_ & W1 & W2); now apply own_force_ok|].
  intros ranks HD. apply (@force_gets X U es (own_force X U) ranks); auto. intros E HE. destruct (HW E HE) as (Hl & W1 & W2). repeat (split; auto). now apply own_force_ok.
Qed.
Print Assumptions C82_force_of_the_whole_mesh.

(** The element forces of C82_force_of_the_whole_mesh are determined *)
Theorem C82_element_force_unique X U E f f' : law E -> well_shaped (pos X E) -> well_shaped (pos (fun g i => X g i + U g i) E) ->
  is_force X U E f -> is_force X U E f' -> forall n i, (n < 8)%nat -> (i < 3)%nat -> f n i = f' n i.
Proof. apply force_unique. Qed.
Print Assumptions C82_element_force_unique.

(** Two stacked cubes, one per rank, sharing four nodes; rank 1 numbers its nodes from the shared ones *)
Definition ex_elem (k : nat) : gelem := GElem (fun n => Z.of_nat (4 * k + n)) 3 (fun _ _ c => INR c).
Definition ex_block : hblock := HBlock 3 1 (fun k => k) (fun _ _ => Ok (fun i => INR (i mod 6))) [0%nat].
Definition ex_X : Z -> nat -> R := fun g i => two_ref (3 * Z.to_nat g + i)%nat.
Definition ex_rank (k : nat) : hrank :=
  HRank (map (fun n => Z.of_nat (4 * k + n)) (seq 0 8)) [ex_block] (fun j => ex_X (Z.of_nat (4 * k + j / 3)) (j mod 3)) (fun _ => 0) (fun _ => 0).
Lemma ex_shaped k : (k < 2)%nat -> well_shaped (pos ex_X (ex_elem k)).
Proof.
  intros Hk. refine (@shaped_ext _ _ _ (two_shaped Hk)). intros n i Hn Hi. unfold enodes, pos, ex_X. cbn [ge_nodes ex_elem]. rewrite Nat2Z.id.
  f_equal. f_equal. f_equal. assert (k = 0 \/ k = 1)%nat as [-> | ->] by lia; idx8 n; reflexivity.
Qed.
Lemma ex_rank_of k : (k < 2)%nat -> rank_of ex_X (fun _ _ => 0) (ex_rank k) [[ex_elem k]].
Proof.
  intros Hk.
  assert (Nth : forall i g, nth_error (hr_ids (ex_rank k)) i = Some g -> g = Z.of_nat (4 * k + i) /\ (i < 8)%nat).
  { intros i g H. assert (L : (i < 8)%nat) by (change 8%nat with (length (hr_ids (ex_rank k))); apply nth_error_Some; congruence).
    split; auto. cbn [hr_ids ex_rank] in H. idx8 i; cbn [seq map nth_error] in H; congruence. }
  constructor.
  - cbn [hr_ids ex_rank]. apply FinFun.Injective_map_NoDup; [|apply seq_NoDup]. intros a b E. lia.
  - cbn [hr_blocks ex_rank]. constructor; [|constructor]. constructor; auto.
    + intros E [<-|[]]. reflexivity.
    + intros j E Ej n Hn. destruct j as [|[|j]]; try discriminate. injection Ej as <-. idx8 n; reflexivity.
    + intros j E Ej F. destruct j as [|[|j]]; try discriminate. injection Ej as <-. eexists. split; [reflexivity|]. intros q c Hq Hc. cbv beta. destruct (@div6 q c Hc) as (_ & ->). reflexivity.
  - intros i g c Hi Hc. apply Nth in Hi. destruct Hi as (-> & Hi). cbn [hr_ref ex_rank]. destruct (@div3 i c Hc) as (-> & ->). reflexivity.
  - reflexivity.
Qed.
Example C82_example : let es := [ex_elem 1; ex_elem 0] in
  distributed ex_X (fun _ _ => 0) [ex_rank 0; ex_rank 1] es /\
  forall E, In E es -> law E /\ well_shaped (pos ex_X E) /\ well_shaped (pos (fun g i => ex_X g i + 0) E).
Proof.
  intros es. split.
  - exists [[[ex_elem 0]]; [[ex_elem 1]]]. split; [apply Forall2_cons; [apply ex_rank_of; lia|apply Forall2_cons; [apply ex_rank_of; lia|apply Forall2_nil]]|]. cbn. apply perm_swap.
  - intros E HE. assert (exists k, (k < 2)%nat /\ E = ex_elem k) as (k & Hk & ->) by (destruct HE as [<-|[<-|[]]]; [exists 1%nat|exists 0%nat]; auto).
    split; [intros G G' _ q c _ _; reflexivity|]. split; [now apply ex_shaped|].
    refine (@shaped_ext _ _ _ (ex_shaped Hk)). intros n i _ _. unfold pos. ring.
Qed.
