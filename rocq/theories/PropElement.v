(** Properties of the hexahedral element and of the loops over a block's elements
    (C26-C30, C45, C54).  Arithmetic is exact real arithmetic; the vocabulary is in
    ElementSpec.v and TensorSpec.v.  [junk] arrays stand for uninitialised memory. *)
From Verif Require Import Base Loops ListLemmas TensorModel TensorSpec TensorProofs PolarProofs ElementModel ElementSpec ElementProofs ElementProofs2 ElementProofs3 ElementProofs4 ElementProofs5 BlockModel BlockProofs BlockProofs2 ElementProofs6 ElementProofs7.
From Coq Require Import Reals Lra Psatz Permutation.
Set Implicit Arguments.
Local Open Scope R_scope.

(** C26: at each of the eight points handed in (arbitrary reals) the values written sum to one,
    the derivatives written sum to zero, and interpolating the corners returns the point. *)
Theorem C26_partition_of_unity : forall (points v : arr) i k, (i < 8)%nat -> (k < 3)%nat ->
  Rsum 8 (fun n => shape_function_values points v (8 * i + n)%nat) = 1 /\
  Rsum 8 (fun n => shape_function_derivatives points v (24 * i + 3 * n + k)%nat) = 0 /\
  Rsum 8 (fun n => corner n k * shape_function_values points v (8 * i + n)%nat) = points (3 * i + k)%nat.
Proof.
  intros points v i k Hi Hk. split; [|split].
  - rewrite <- (shape_sum (fun k => points (3 * i + k)%nat)). apply Rsum_ext. intros n Hn. now apply values_table.
  - rewrite <- (@dshape_sum k (fun k => points (3 * i + k)%nat) Hk). apply Rsum_ext. intros n Hn. now apply derivs_table.
  - rewrite <- (@shape_linear k (fun k => points (3 * i + k)%nat) Hk). apply Rsum_ext. intros n Hn. f_equal. now apply values_table.
Qed.
Print Assumptions C26_partition_of_unity.
(** C26: at corner m the value written for node n is one if n = m and zero otherwise. *)
Theorem C26_interpolates_nodes : forall (points v : arr) i m n, (i < 8)%nat -> (m < 8)%nat -> (n < 8)%nat ->
  (forall k, (k < 3)%nat -> points (3 * i + k)%nat = corner m k) ->
  shape_function_values points v (8 * i + n)%nat = if (n =? m)%nat then 1 else 0.
Proof.
  intros points v i m n Hi Hm Hn H. rewrite values_table by assumption. rewrite <- shape_own by assumption. apply shape_ext. exact H.
Qed.
Print Assumptions C26_interpolates_nodes.
(** C26: the derivatives written are the derivatives of the values written. *)
Theorem C26_derivatives_of_values : forall (points v w : arr) i n k, (i < 8)%nat -> (n < 8)%nat -> (k < 3)%nat ->
  derivable_pt_lim (fun t => shape_function_values (upd points (3 * i + k)%nat t) v (8 * i + n)%nat) (points (3 * i + k)%nat)
    (shape_function_derivatives points w (24 * i + 3 * n + k)%nat).
Proof.
  intros points v w i n k Hi Hn Hk. rewrite derivs_table by assumption.
  intros eps He. destruct (@dshape_derivative n k (fun k => points (3 * i + k)%nat) Hk eps He) as [d Hd]. exists d.
  intros h Hh1 Hh2. rewrite !values_table by assumption.
  specialize (Hd h Hh1 Hh2).
  assert (U : forall t, shape n (fun k0 => upd points (3 * i + k)%nat t (3 * i + k0)%nat) = shape n (upd (fun k0 => points (3 * i + k0)%nat) k t)).
  { intros t. apply shape_ext. intros k0 Hk0. unfold upd. destruct (Nat.eqb_spec (3 * i + k0) (3 * i + k)), (Nat.eqb_spec k0 k); try lia; reflexivity. }
  rewrite !U. exact Hd.
Qed.
Print Assumptions C26_derivatives_of_values.
(** C26: the tables used by all other routines hold these values at the integration points. *)
Theorem C26_tables : forall q n k, (q < 8)%nat -> (n < 8)%nat -> (k < 3)%nat ->
  shape_fcn_vals (8 * q + n)%nat = shape n (gauss q) /\ shape_fcn_deriv (24 * q + 3 * n + k)%nat = dshape n k (gauss q).
Proof. intros. split; [now apply value_at|now apply deriv_at]. Qed.
Print Assumptions C26_tables.
Example C26_example : shape 6 (gauss 6) > 0 /\ shape 6 (corner 6) = 1.
Proof. split; [apply shape_gauss_pos|]. rewrite shape_own by lia. reflexivity. Qed.

(** C27: for every reference element that is not inverted and every current configuration the
    routine writes the gradient of the current positions with respect to the reference ones. *)
Theorem C27_deformation_gradient : forall ref cur out0, well_shaped (nodes ref) ->
  exists out, compute_deformation_gradients ref cur out0 = Ok out /\
    gradient_of (nodes ref) (nodes cur) (fun q => full (fun k => out (9 * q + k)%nat)) /\
    forall k, (72 <= k)%nat -> out k = out0 k.
Proof. exact def_grad_ok. Qed.
Print Assumptions C27_deformation_gradient.
(** C27: for an affine motion y = b + A x it is A at every integration point; with A the identity
    this covers rigid translations. *)
Theorem C27_affine_motion : forall ref cur out0 A b, well_shaped (nodes ref) ->
  (forall n i, (n < 8)%nat -> (i < 3)%nat -> nodes cur n i = b i + mvec A (nodes ref n) i) ->
  exists out, compute_deformation_gradients ref cur out0 = Ok out /\ forall q, (q < 8)%nat -> meq (full (fun k => out (9 * q + k)%nat)) A.
Proof.
  intros ref cur out0 A b Hw H. destruct (@def_grad_ok ref cur out0 Hw) as (out & E & HG & _). exists out. split; [exact E|].
  intros q Hq. apply (@gradient_unique _ _ _ (fun _ => A) q Hw HG); [|assumption]. now apply affine_gradient with (b := b).
Qed.
Print Assumptions C27_affine_motion.
(** C27: superposing an affine (e.g. rigid) motion on the current configuration multiplies every
    deformation gradient by its matrix. *)
Theorem C27_superposed_motion : forall ref cur cur' out0 out1 Q b, well_shaped (nodes ref) ->
  (forall n i, (n < 8)%nat -> (i < 3)%nat -> nodes cur' n i = b i + mvec Q (nodes cur n) i) ->
  exists out out', compute_deformation_gradients ref cur out0 = Ok out /\ compute_deformation_gradients ref cur' out1 = Ok out' /\
    forall q, (q < 8)%nat -> meq (full (fun k => out' (9 * q + k)%nat)) (mmul Q (full (fun k => out (9 * q + k)%nat))).
Proof.
  intros ref cur cur' out0 out1 Q b Hw H.
  destruct (@def_grad_ok ref cur out0 Hw) as (out & E & HG & _). destruct (@def_grad_ok ref cur' out1 Hw) as (out' & E' & HG' & _).
  exists out, out'. split; [exact E|]. split; [exact E'|]. intros q Hq.
  apply (@gradient_unique _ _ _ (fun q => mmul Q (full (fun k => out (9 * q + k)%nat))) q Hw HG'); [|assumption].
  intros p Hp. cbv beta. rewrite <- mmul_assoc. rewrite (HG p Hp). symmetry. now apply (@jac_affine (nodes cur) (nodes cur') Q b p).
Qed.
Print Assumptions C27_superposed_motion.
(** C27: an inverted or flat reference element is reported, never silently used. *)
Theorem C27_inverted_element_aborts : forall ref cur out0, ~ well_shaped (nodes ref) -> compute_deformation_gradients ref cur out0 = Abort.
Proof. exact def_grad_abort. Qed.
Print Assumptions C27_inverted_element_aborts.
(** every parallelepiped with positively oriented edges meets the hypothesis *)
Example C27_parallelepiped : forall x A b, 0 < mdet A -> (forall n i, (n < 8)%nat -> (i < 3)%nat -> nodes x n i = b i + mvec A (corner n) i) -> well_shaped (nodes x).
Proof. intros. now apply (@corner_shaped A b). Qed.
Definition cube : arr := fun k => corner (k / 3) (k mod 3).
Lemma cube_nodes n i : (i < 3)%nat -> nodes cube n i = corner n i.
Proof.
  intros Hi. unfold nodes, cube. destruct (divmod3 n Hi) as [-> ->]. reflexivity.
Qed.
Example C27_cube : well_shaped (nodes cube) /\ element_volume (nodes cube) = 8 /\ ~ well_shaped (fun _ _ => 0).
Proof.
  assert (H : forall n i, (n < 8)%nat -> (i < 3)%nat -> nodes cube n i = 0 + mvec mone (corner n) i).
  { intros n i Hn Hi. rewrite cube_nodes by assumption. idx3 i; cbv [mvec mone Nat.eqb Rsum]; ring. }
  split; [|split].
  - apply (@corner_shaped mone (fun _ => 0) _ H). cbv [mdet mone Nat.eqb]. lra.
  - rewrite (@corner_volume mone (fun _ => 0) _ H). cbv [mdet mone Nat.eqb]. ring.
  - intros Hw. pose proof (Hw 0%nat ltac:(lia)) as H0. unfold mdet, jac in H0. cbv [Rsum] in H0. ring_simplify in H0. lra.
Qed.

(** C28: the nodal forces of an element do, on every virtual velocity field v with gradient G,
    the (negative) work of the stresses on G. *)
Theorem C28_virtual_work : forall cur s f0, well_shaped (nodes cur) ->
  exists f, compute_nodal_forces cur s f0 = Ok f /\
    forall v G, gradient_of (nodes cur) v G ->
      Rsum 8 (fun n => Rsum 3 (fun i => v n i * nodes f n i)) = - Rsum 8 (fun q => mdet (jac (nodes cur) q) * contract (stress_at s q) (G q)).
Proof.
  intros cur s f0 Hw. destruct (@forces_ok cur s f0 Hw) as (f & E & Hf & _). exists f. split; [exact E|].
  intros v G HG. now apply virtual_work.
Qed.
Print Assumptions C28_virtual_work.
(** C28: they sum to zero and have no resultant moment, for every stress (the storage makes it
    symmetric); and an inverted element is reported. *)
Theorem C28_element_equilibrium : forall cur s f0 f, compute_nodal_forces cur s f0 = Ok f ->
  (forall i, (i < 3)%nat -> Rsum 8 (fun n => nodes f n i) = 0) /\
  (forall i j, (i < 3)%nat -> (j < 3)%nat -> moment (nodes cur) (nodes f) i j = 0).
Proof.
  intros cur s f0 f E. destruct (shaped_dec (nodes cur)) as [Hw|(q & Hq & Hd)].
  2:{ rewrite forces_abort in E; [discriminate|]. intros Hw. pose proof (Hw q Hq). lra. }
  destruct (C28_virtual_work s f0 Hw) as (f' & E' & H). rewrite E in E'. injection E' as <-. split.
  - intros i Hi. rewrite <- (along_work (nodes f) Hi). rewrite (H _ _ (along_gradient (nodes cur) i)).
    rewrite Rsum_zero; [ring|]. intros q Hq. rewrite contract_zero. ring.
  - intros i j Hi Hj. rewrite <- spin_work by assumption. rewrite (H _ _ (spin_gradient (nodes cur) i j)).
    rewrite Rsum_zero; [ring|]. intros q Hq. rewrite contract_spin by assumption. ring.
Qed.
Print Assumptions C28_element_equilibrium.
Theorem C28_inverted_element_aborts : forall cur s f0, ~ well_shaped (nodes cur) -> compute_nodal_forces cur s f0 = Abort.
Proof. exact forces_abort. Qed.
Print Assumptions C28_inverted_element_aborts.
(** C28: whatever material is used, assembling a block's internal forces changes neither the
    resultant force nor the resultant moment about the origin (current positions) of the vector
    they are added to. *)
Theorem C28_block_equilibrium : forall get_stress ref disp order conn junk f0 f N,
  block_internal_force get_stress ref disp order conn junk f0 = Ok f ->
  (forall e n, In e order -> (n < 8)%nat -> (conn (e * 8 + n) < N)%nat) ->
  let x := fun k => ref k + disp k in
  (forall i, (i < 3)%nat -> Rsum N (fun n => f (3 * n + i)%nat) = Rsum N (fun n => f0 (3 * n + i)%nat)) /\
  (forall i j, (i < 3)%nat -> (j < 3)%nat ->
     Rsum N (fun n => x (3 * n + i)%nat * f (3 * n + j)%nat - x (3 * n + j)%nat * f (3 * n + i)%nat) =
     Rsum N (fun n => x (3 * n + i)%nat * f0 (3 * n + j)%nat - x (3 * n + j)%nat * f0 (3 * n + i)%nat)).
Proof.
  intros gs ref disp order conn junk f0 f N E Hc x.
  split.
  - intros i Hi.
    pose proof (@block_affine_work gs ref disp order conn junk f0 f N (fun k => along i (k mod 3)) mzero (along i) E Hc) as H.
    assert (Pick : forall g : arr, Rsum N (fun n => Rsum 3 (fun c => along i ((3 * n + c) mod 3) * g (3 * n + c)%nat)) = Rsum N (fun n => g (3 * n + i)%nat)).
    { intros g. apply Rsum_ext. intros n Hn. transitivity (Rsum 3 (fun c => along i c * g (3 * n + c)%nat)).
      - apply Rsum_ext. intros c Hc'. destruct (divmod3 n Hc') as [_ ->]. reflexivity.
      - idx3 i; cbv [along Rsum Nat.eqb]; ring. }
    rewrite !Pick in H. apply H; [intros; apply contract_zero|]. intros n c Hc'. destruct (divmod3 n Hc') as [_ ->].
    unfold mvec, mzero. cbv [Rsum]. ring.
  - intros i j Hi Hj.
    pose proof (@block_affine_work gs ref disp order conn junk f0 f N (fun k => mvec (spin i j) (fun c => x (3 * (k / 3) + c)%nat) (k mod 3)) (spin i j) (fun _ => 0) E Hc) as H.
    assert (Pick : forall g : arr, Rsum N (fun n => Rsum 3 (fun c => mvec (spin i j) (fun c0 => x (3 * ((3 * n + c) / 3) + c0)%nat) ((3 * n + c) mod 3) * g (3 * n + c)%nat)) =
       Rsum N (fun n => x (3 * n + i)%nat * g (3 * n + j)%nat - x (3 * n + j)%nat * g (3 * n + i)%nat)).
    { intros g. apply Rsum_ext. intros n Hn. transitivity (Rsum 3 (fun c => mvec (spin i j) (fun c0 => x (3 * n + c0)%nat) c * g (3 * n + c)%nat)).
      - apply Rsum_ext. intros c Hc'. destruct (divmod3 n Hc') as [-> ->]. reflexivity.
      - clearbody x. idx3 i; idx3 j; cbv [along spin mvec Rsum Nat.eqb]; ring. }
    rewrite !Pick in H. apply H; [intros; now apply contract_spin|]. intros n c Hc'. destruct (divmod3 n Hc') as [-> ->].
    rewrite Rplus_0_l. reflexivity.
Qed.
Print Assumptions C28_block_equilibrium.
(** C28: the elements may be processed in any order (as the parallel version does): the result is
    the same vector, or in both orders some element is rejected. *)
Theorem C28_any_element_order : forall get_stress ref disp order order' conn junk f0 f, Permutation order order' ->
  block_internal_force get_stress ref disp order conn junk f0 = Ok f ->
  exists f', block_internal_force get_stress ref disp order' conn junk f0 = Ok f' /\ forall k, f' k = f k.
Proof.
  intros gs ref disp order order' conn junk f0 f Hp E. destruct (@block_force_ok _ _ _ _ _ _ _ _ E) as (force & Hf & Hk).
  destruct (@block_force_intro gs ref disp conn junk order' f0 force) as (f' & E').
  { intros e He. apply Hf. eapply Permutation_in; [apply Permutation_sym; exact Hp|exact He]. }
  exists f'. split; [exact E'|]. destruct (@block_force_ok _ _ _ _ _ _ _ _ E') as (force' & Hf' & Hk').
  intros k. rewrite Hk, Hk'. f_equal. rewrite (lsum_perm _ (Permutation_sym Hp)). apply lsum_ext. intros e He.
  f_equal. specialize (Hf _ He). assert (In e order') by (eapply Permutation_in; eassumption). specialize (Hf' _ H). congruence.
Qed.
Print Assumptions C28_any_element_order.
(** C28: the power of the assembled forces on any nodal velocity is the stress power, element by
    element, with the stress the material returned for that element's deformation gradients. *)
Theorem C28_block_power : forall get_stress ref disp order conn junk f0 f N V,
  block_internal_force get_stress ref disp order conn junk f0 = Ok f ->
  (forall e n, In e order -> (n < 8)%nat -> (conn (e * 8 + n) < N)%nat) ->
  let x e := enodes conn (fun k => ref k + disp k) e in
  exists power : nat -> R,
   Rsum (3 * N) (fun k => V k * f k) = Rsum (3 * N) (fun k => V k * f0 k) - fold_right (fun e t => power e + t) 0 order /\
   forall e, In e order -> exists F s, get_stress e F = Ok s /\
     gradient_of (enodes conn ref e) (x e) (fun q => full (fun k => F (9 * q + k)%nat)) /\
     forall G, gradient_of (x e) (enodes conn V e) G -> power e = Rsum 8 (fun q => mdet (jac (x e) q) * contract (stress_at s q) (G q)).
Proof.
  intros gs ref disp order conn junk f0 f N V E Hc x. destruct (@block_work _ _ _ _ _ _ _ _ N V E Hc) as (force & Hf & Hw).
  exists (fun e => - Rsum 8 (fun n => Rsum 3 (fun i => enodes conn V e n i * nodes (force e) n i))). split.
  - rewrite Hw. match goal with |- ?a + ?b = ?a - ?c => enough (b = - c) by lra end. clear. induction order as [|e l IH]; cbn [fold_right lsum]; [ring|]. rewrite IH. set (A := fold_right _ _ _). ring.
  - intros e He. destruct (@element_force_work _ _ _ _ _ _ _ (Hf e He)) as (_ & _ & F & s & E1 & E2 & H).
    exists F, s. split; [exact E1|]. split; [exact E2|]. intros G HG. rewrite (H _ _ HG). rewrite Ropp_involutive. reflexivity.
Qed.
Print Assumptions C28_block_power.
(** a block of two cubes sharing a face, with a constant stress *)
Definition two_conn : nat -> nat := fun k => nth k [0; 1; 2; 3; 4; 5; 6; 7; 4; 5; 6; 7; 8; 9; 10; 11]%nat 0%nat.
Definition two_ref : arr := fun k => if (k / 3 <? 8)%nat then corner (k / 3) (k mod 3) else corner (k / 3 - 4) (k mod 3) + if (k mod 3 =? 2)%nat then 2 else 0.
Lemma two_shaped : forall e, (e < 2)%nat -> well_shaped (enodes two_conn two_ref e).
Proof.
  intros e He. apply (@corner_shaped mone (fun k => if (k =? 2)%nat then 2 * INR e else 0)).
  - intros n i Hn Hi. assert (e = 0 \/ e = 1)%nat as [-> | ->] by lia; idx8 n; idx3 i; cbv [enodes two_ref two_conn mvec mone corner nth Nat.mul Nat.add Nat.eqb Nat.sub Nat.div Nat.modulo Nat.divmod fst snd Nat.ltb Nat.leb existsb orb Rsum INR]; ring.
  - cbv [mdet mone Nat.eqb]. lra.
Qed.
Example C28_example : exists f, block_internal_force (fun _ _ => Ok (fun k => INR k)) two_ref (fun _ => 0) [1; 0]%nat two_conn (fun _ => 0) (fun _ => 0) = Ok f.
Proof.
  assert (W : forall e, (e < 2)%nat -> well_shaped (nodes (gather two_conn e two_ref (fun _ => 0)))).
  { intros e He. refine (@shaped_ext _ _ _ (two_shaped He)). intros n i Hn Hi. symmetry. now apply gather_at. }
  assert (W' : forall e, (e < 2)%nat -> well_shaped (nodes (gather two_conn e (fun k => two_ref k + 0) (fun _ => 0)))).
  { intros e He. refine (@shaped_ext _ _ _ (two_shaped He)). intros n i Hn Hi. rewrite gather_at by assumption. unfold enodes. ring. }
  assert (X : forall e, (e < 2)%nat -> exists fo, element_force (fun _ _ => Ok (fun k => INR k)) two_ref (fun _ => 0) two_conn (fun _ => 0) e = Ok fo).
  { intros e He. unfold element_force. cbv zeta.
    destruct (@def_grad_ok (gather two_conn e two_ref (fun _ => 0)) (gather two_conn e (fun k => two_ref k + 0) (fun _ => 0)) (fun _ => 0) (W e He)) as (F & -> & _).
    cbn [obind]. destruct (@forces_ok (gather two_conn e (fun k => two_ref k + 0) (fun _ => 0)) (fun k => INR k) (fun _ => 0) (W' e He)) as (fo & -> & _). eauto. }
  destruct (X 0%nat ltac:(lia)) as [a Ha], (X 1%nat ltac:(lia)) as [b Hb].
  apply (@block_force_intro _ _ _ _ _ _ _ (fun e => if (e =? 0)%nat then a else b)). intros e [<-|[<-|[]]]; assumption.
Qed.

(** C29: the lumped masses of an element are positive and sum to density times volume. *)
Theorem C29_element_mass : forall rho coords l0, well_shaped (nodes coords) ->
  exists l, compute_lumped_mass rho coords l0 = Ok l /\ Rsum 8 l = rho * element_volume (nodes coords) /\
    (0 < rho -> forall i, (i < 8)%nat -> 0 < l i) /\ forall k, (8 <= k)%nat -> l k = l0 k.
Proof. exact lumped_total. Qed.
Print Assumptions C29_element_mass.
(** C29: the volume is that of the parallelepiped when the element is one (edge vectors 2 A e_k). *)
Theorem C29_volume_of_parallelepiped : forall A b x, (forall n i, (n < 8)%nat -> (i < 3)%nat -> x n i = b i + mvec A (corner n) i) -> element_volume x = 8 * mdet A.
Proof. exact corner_volume. Qed.
Print Assumptions C29_volume_of_parallelepiped.
(** C29: assembly adds the mass of every element, whichever nodes they share; every node of every
    element gets a positive mass. *)
Theorem C29_block_mass : forall rho ref num_elem conn junk l0 N,
  (forall e, (e < num_elem)%nat -> well_shaped (enodes conn ref e)) ->
  (forall e n, (e < num_elem)%nat -> (n < 8)%nat -> (conn (e * 8 + n) < N)%nat) ->
  exists l, block_lumped_mass rho ref num_elem conn junk l0 = Ok l /\
    Rsum N l = Rsum N l0 + rho * Rsum num_elem (fun e => element_volume (enodes conn ref e)) /\
    (0 < rho -> (forall k, l0 k <= l k) /\ forall e n, (e < num_elem)%nat -> (n < 8)%nat -> l0 (conn (e * 8 + n)%nat) < l (conn (e * 8 + n)%nat)).
Proof. exact block_mass. Qed.
Print Assumptions C29_block_mass.
Theorem C29_inverted_element_aborts : forall rho coords l0, ~ well_shaped (nodes coords) -> compute_lumped_mass rho coords l0 = Abort.
Proof. exact lumped_abort. Qed.
Print Assumptions C29_inverted_element_aborts.
Example C29_example : exists l, block_lumped_mass 3 two_ref 2 two_conn (fun _ => 0) (fun _ => 0) = Ok l /\ Rsum 12 l = 48.
Proof.
  destruct (@C29_block_mass 3 two_ref 2 two_conn (fun _ => 0) (fun _ => 0) 12 two_shaped) as (l & E & H & _).
  - intros e n He Hn. assert (e = 0 \/ e = 1)%nat as [-> | ->] by lia; idx8 n; cbv; lia.
  - exists l. split; [exact E|]. rewrite H. rewrite (Rsum_zero 12 (fun _ => 0)) by reflexivity. cbn [Rsum].
    assert (V : forall e, (e < 2)%nat -> element_volume (enodes two_conn two_ref e) = 8).
    { intros e He. rewrite (@corner_volume mone (fun k => if (k =? 2)%nat then 2 * INR e else 0)).
      - cbv [mdet mone Nat.eqb]. ring.
      - intros n i Hn Hi. assert (e = 0 \/ e = 1)%nat as [-> | ->] by lia; idx8 n; idx3 i; cbv [enodes two_ref two_conn mvec mone corner nth Nat.mul Nat.add Nat.eqb Nat.sub Nat.div Nat.modulo Nat.divmod fst snd Nat.ltb Nat.leb existsb orb Rsum INR]; ring. }
    rewrite !V by lia. ring.
Qed.

(** C30: u . K v is the integral of strain(u) : C : strain(v) by the quadrature rule, for all
    nodal vectors u, v and whatever the output array held. *)
Theorem C30_tangent_form : forall coords C t0, well_shaped (nodes coords) ->
  exists K, compute_tangent coords C t0 = Ok K /\
   forall u v Gu Gv, gradient_of (nodes coords) (nodes u) Gu -> gradient_of (nodes coords) (nodes v) Gv ->
     quad 24 K u v = Rsum 8 (fun q => mdet (jac (nodes coords) q) * Rsum 6 (fun k => Rsum 6 (fun l => eng_strain (Gu q) k * cmat C q k l * eng_strain (Gv q) l))).
Proof. exact tangent_form. Qed.
Print Assumptions C30_tangent_form.
(** C30: symmetric for a symmetric material tangent; positive semidefinite for a positive
    semidefinite one; infinitesimal rigid motions (translations b and rotations W) produce no
    force, whatever the material tangent. *)
Theorem C30_tangent_properties : forall coords C t0 K, compute_tangent coords C t0 = Ok K ->
  ((forall q k l, (q < 8)%nat -> (k < 6)%nat -> (l < 6)%nat -> cmat C q k l = cmat C q l k) ->
     forall i j, (i < 24)%nat -> (j < 24)%nat -> K (i * 24 + j)%nat = K (j * 24 + i)%nat) /\
  ((forall q eps, (q < 8)%nat -> 0 <= Rsum 6 (fun k => Rsum 6 (fun l => eps k * cmat C q k l * eps l))) -> forall u, 0 <= quad 24 K u u) /\
  (forall W b u, (forall i j, (i < 3)%nat -> (j < 3)%nat -> W i j = - W j i) ->
     (forall n i, (n < 8)%nat -> (i < 3)%nat -> nodes u n i = b i + mvec W (nodes coords n) i) ->
     forall i, (i < 24)%nat -> Rsum 24 (fun j => K (i * 24 + j)%nat * u j) = 0).
Proof.
  intros coords C t0 K E. destruct (shaped_dec (nodes coords)) as [Hw|(q & Hq & Hd)].
  2:{ rewrite tangent_abort in E; [discriminate|]. intros Hw. pose proof (Hw q Hq). lra. }
  destruct (@tangent_form coords C t0 Hw) as (K' & E' & HK). rewrite E in E'. injection E' as <-.
  split; [|split].
  - intros HC i j Hi Hj. pose proof (@tangent_form_sym _ C K Hw HK HC (along i) (along j)) as H.
    rewrite !quad_basis in H by assumption.
    assert (P : forall a b, (b < 24)%nat -> Rsum 24 (fun k => K (a * 24 + k)%nat * along b k) = K (a * 24 + b)%nat).
    { intros a b Hb. rewrite (@Rsum_single 24 _ b Hb); [unfold along; rewrite Nat.eqb_refl; ring|]. intros k Hk Hne. unfold along. destruct (Nat.eqb_spec k b); [contradiction|ring]. }
    rewrite !P in H by assumption. exact H.
  - intros HC. exact (@tangent_form_psd _ C K Hw HK HC).
  - intros W b u HW Hu i Hi. rewrite <- quad_basis by assumption. exact (proj1 (@tangent_form_rigid _ C K W b Hw HK HW (along i) u Hu)).
Qed.
Print Assumptions C30_tangent_properties.
Theorem C30_inverted_element_aborts : forall coords C t0, ~ well_shaped (nodes coords) -> compute_tangent coords C t0 = Abort.
Proof. exact tangent_abort. Qed.
Print Assumptions C30_inverted_element_aborts.
(** C30: assembling a block adds the strain energy of its elements to the bilinear form of the
    global matrix ([gid] maps a node to its number in the matrix). *)
Theorem C30_block_tangent : forall C ref disp num_elem conn gid junk K N,
  let x e := enodes conn (fun k => ref k + disp k) e in
  (forall e, (e < num_elem)%nat -> well_shaped (x e)) ->
  (forall e n, (e < num_elem)%nat -> (n < 8)%nat -> (gid (conn (e * 8 + n)%nat) < N)%nat) ->
  exists K', block_tangent C ref disp num_elem conn gid junk K = Ok K' /\
   (forall u v (Gu Gv : nat -> nat -> mat3),
     (forall e, (e < num_elem)%nat -> gradient_of (x e) (enodes (fun k => gid (conn k)) u e) (Gu e) /\ gradient_of (x e) (enodes (fun k => gid (conn k)) v e) (Gv e)) ->
     bil (3 * N) K' u v = bil (3 * N) K u v +
       Rsum num_elem (fun e => Rsum 8 (fun q => mdet (jac (x e) q) * Rsum 6 (fun k => Rsum 6 (fun l => eng_strain (Gu e q) k * cmat C q k l * eng_strain (Gv e q) l))))).
Proof.
  intros C ref disp E conn gid junk K N x Hw Hc.
  destruct (@block_tangent_ok C ref disp E conn gid junk K N Hw Hc) as (K' & T & EK & HT & HB).
  exists K'. split; [exact EK|]. intros u v Gu Gv HG. rewrite HB. f_equal. apply Rsum_ext. intros e He.
  assert (Hx : forall n i, (n < 8)%nat -> (i < 3)%nat -> x e n i = nodes (gather conn e (fun k => ref k + disp k) junk) n i) by (intros; symmetry; now apply gather_at).
  destruct (@tangent_form (gather conn e (fun k => ref k + disp k) junk) C junk (@shaped_ext _ _ Hx (Hw e He))) as (Te & ET & HF).
  rewrite HT in ET by assumption. injection ET as <-. destruct (HG e He) as [H1 H2].
  rewrite (HF _ _ (Gu e) (Gv e)).
  - apply Rsum_ext. intros q Hq. rewrite <- (mdet_proper (@jac_ext _ _ q Hx)). reflexivity.
  - apply (@gradient_ext (x e) _ (enodes (fun k => gid (conn k)) u e) _ (Gu e) Hx); [|exact H1]. intros n i Hn Hi. unfold nodes. rewrite evec_at by assumption. reflexivity.
  - apply (@gradient_ext (x e) _ (enodes (fun k => gid (conn k)) v e) _ (Gv e) Hx); [|exact H2]. intros n i Hn Hi. unfold nodes. rewrite evec_at by assumption. reflexivity.
Qed.
Print Assumptions C30_block_tangent.
(** C30: assembly keeps symmetry and positive semidefiniteness and leaves the action of the
    matrix on rigid motions unchanged. *)
Theorem C30_block_properties : forall C ref disp num_elem conn gid junk K K' N,
  let x e := enodes conn (fun k => ref k + disp k) e in
  (forall e, (e < num_elem)%nat -> well_shaped (x e)) ->
  (forall e n, (e < num_elem)%nat -> (n < 8)%nat -> (gid (conn (e * 8 + n)%nat) < N)%nat) ->
  block_tangent C ref disp num_elem conn gid junk K = Ok K' ->
  ((forall q k l, (q < 8)%nat -> (k < 6)%nat -> (l < 6)%nat -> cmat C q k l = cmat C q l k) ->
   (forall i j, (i < 3 * N)%nat -> (j < 3 * N)%nat -> K i j = K j i) ->
   forall i j, (i < 3 * N)%nat -> (j < 3 * N)%nat -> K' i j = K' j i) /\
  ((forall q eps, (q < 8)%nat -> 0 <= Rsum 6 (fun k => Rsum 6 (fun l => eps k * cmat C q k l * eps l))) ->
   (forall u, 0 <= bil (3 * N) K u u) -> forall u, 0 <= bil (3 * N) K' u u) /\
  (forall W b u, (forall i j, (i < 3)%nat -> (j < 3)%nat -> W i j = - W j i) ->
     (forall e n i, (e < num_elem)%nat -> (n < 8)%nat -> (i < 3)%nat -> enodes (fun k => gid (conn k)) u e n i = b i + mvec W (x e n) i) ->
     forall v, bil (3 * N) K' v u = bil (3 * N) K v u).
Proof.
  intros C ref disp E conn gid junk K K' N x Hw Hc EK.
  destruct (@block_tangent_ok C ref disp E conn gid junk K N Hw Hc) as (K1 & T & EK1 & HT & HB). rewrite EK in EK1. injection EK1 as <-.
  assert (Hx : forall e n i, (n < 8)%nat -> (i < 3)%nat -> x e n i = nodes (gather conn e (fun k => ref k + disp k) junk) n i) by (intros; symmetry; now apply gather_at).
  assert (HF : forall e, (e < E)%nat -> well_shaped (nodes (gather conn e (fun k => ref k + disp k) junk))).
  { intros e He. exact (@shaped_ext _ _ (Hx e) (Hw e He)). }
  assert (HQ : forall e, (e < E)%nat -> forall u v Gu Gv, gradient_of (nodes (gather conn e (fun k => ref k + disp k) junk)) (nodes u) Gu -> gradient_of (nodes (gather conn e (fun k => ref k + disp k) junk)) (nodes v) Gv ->
     quad 24 (T e) u v = Rsum 8 (fun q => mdet (jac (nodes (gather conn e (fun k => ref k + disp k) junk)) q) * Rsum 6 (fun k => Rsum 6 (fun l => eng_strain (Gu q) k * cmat C q k l * eng_strain (Gv q) l)))).
  { intros e He. destruct (@tangent_form (gather conn e (fun k => ref k + disp k) junk) C junk (HF e He)) as (Te & ET & H). rewrite HT in ET by assumption. injection ET as <-. exact H. }
  split; [|split].
  - intros HC HK i j Hi Hj. rewrite <- (@bil_basis (3 * N) K' i j), <- (@bil_basis (3 * N) K' j i) by assumption. rewrite !HB, !bil_basis by assumption.
    rewrite (HK i j) by assumption. f_equal. apply Rsum_ext. intros e He. apply (@tangent_form_sym _ C _ (HF e He) (HQ e He) HC).
  - intros HC HK u. rewrite HB. pose proof (HK u).
    pose proof (@Rsum_nonneg E (fun e => quad 24 (T e) (evec conn gid u e) (evec conn gid u e)) (fun e He => @tangent_form_psd _ C _ (HF e He) (HQ e He) HC (evec conn gid u e))). lra.
  - intros W b u HW Hu v. rewrite HB. rewrite Rsum_zero; [ring|]. intros e He.
    refine (proj1 (@tangent_form_rigid _ C _ W b (HF e He) (HQ e He) HW _ _ _)). intros n i Hn Hi. unfold nodes at 1. rewrite evec_at by assumption.
    specialize (Hu e n i He Hn Hi). unfold enodes at 1 in Hu. etransitivity; [exact Hu|]. f_equal. unfold mvec. apply Rsum_ext. intros k Hk. now rewrite Hx.
Qed.
Print Assumptions C30_block_properties.
Example C30_example : exists K, block_tangent (fun k => if ((k / 6) mod 6 =? k mod 6)%nat then 1 else 0) two_ref (fun _ => 0) 2 two_conn (fun n => (11 - n)%nat) (fun _ => 0) (fun _ _ => 0) = Ok K.
Proof.
  destruct (@C30_block_tangent (fun k => if ((k / 6) mod 6 =? k mod 6)%nat then 1 else 0) two_ref (fun _ => 0) 2 two_conn (fun n => (11 - n)%nat) (fun _ => 0) (fun _ _ => 0) 12) as (K & E & _).
  - intros e He. refine (@shaped_ext _ _ _ (two_shaped He)). intros n i Hn Hi. unfold enodes. ring.
  - intros; lia.
  - eauto.
Qed.

(** C54: the volume average reports the element volume and, for every quantity, the mean weighted
    by the volume at the integration points: it lies between bounds of the values, and is the
    common value if they are equal; other output entries are untouched. *)
Theorem C54_volume_average : forall coords nq values out0, well_shaped (nodes coords) ->
  exists vol out, compute_volume_average coords nq values out0 = Ok (vol, out) /\
    vol = element_volume (nodes coords) /\ 0 < vol /\
    (forall i, (i < nq)%nat -> vol * out i = Rsum 8 (fun q => mdet (jac (nodes coords) q) * values (nq * q + i)%nat)) /\
    (forall i lo hi, (i < nq)%nat -> (forall q, (q < 8)%nat -> lo <= values (nq * q + i)%nat <= hi) -> lo <= out i <= hi) /\
    forall k, (nq <= k)%nat -> out k = out0 k.
Proof.
  intros coords nq values out0 Hw. destruct (@average_ok coords nq values out0 Hw) as (vol & out & E & Hv & Ho & Hk).
  pose proof (volume_pos Hw) as Hp. rewrite <- Hv in Hp.
  exists vol, out. split; [exact E|]. split; [exact Hv|]. split; [exact Hp|].
  assert (M : forall i, (i < nq)%nat -> vol * out i = Rsum 8 (fun q => mdet (jac (nodes coords) q) * values (nq * q + i)%nat)).
  { intros i Hi. rewrite Ho by assumption. transitivity (Rsum 8 (fun q => values (nq * q + i)%nat * mdet (jac (nodes coords) q))); [field; lra|]. apply Rsum_ext. intros; ring. }
  split; [exact M|]. split; [|exact Hk].
  intros i lo hi Hi Hb. specialize (M i Hi).
  assert (lo * vol <= vol * out i).
  { rewrite M. rewrite Hv at 1. rewrite Rsum_mul_l. apply Rsum_le. intros q Hq. pose proof (Hw q Hq). pose proof (Hb q Hq). nra. }
  assert (vol * out i <= hi * vol).
  { rewrite M. rewrite Hv at 1. rewrite Rsum_mul_l. apply Rsum_le. intros q Hq. pose proof (Hw q Hq). pose proof (Hb q Hq). nra. }
  nra.
Qed.
Print Assumptions C54_volume_average.
Theorem C54_inverted_element_aborts : forall coords nq values out0, ~ well_shaped (nodes coords) -> compute_volume_average coords nq values out0 = Abort.
Proof. exact average_abort. Qed.
Print Assumptions C54_inverted_element_aborts.

(** C45: for coordinates that are not negative (and sizes below the largest number) the
    characteristic length is the least of the extents of the element and the distances of its
    nodes.  The restriction to nonnegative coordinates cannot be dropped, see
    C45_location_independence_refuted. *)
Theorem C45_characteristic_length_partial : forall big c,
  (forall n i, (n < 8)%nat -> (i < 3)%nat -> 0 <= nodes c n i <= big) ->
  (forall n m, (n < 8)%nat -> (m < 8)%nat -> dsq (nodes c) n m <= big) ->
  least_size (nodes c) (compute_characteristic_length big c).
Proof. exact charlen_least. Qed.
Print Assumptions C45_characteristic_length_partial.
(** C45: so for two placements of an element at nonnegative coordinates it is the same. *)
Theorem C45_location_independence_partial : forall big c c' t,
  (forall n i, (n < 8)%nat -> (i < 3)%nat -> 0 <= nodes c n i <= big /\ 0 <= nodes c' n i <= big /\ nodes c' n i = nodes c n i + t i) ->
  (forall n m, (n < 8)%nat -> (m < 8)%nat -> dsq (nodes c) n m <= big) ->
  compute_characteristic_length big c' = compute_characteristic_length big c.
Proof.
  intros big c c' t H Hd. apply (@least_size_unique (nodes c')).
  - apply charlen_least; [intros; now apply H|]. intros n m Hn Hm. rewrite (@dsq_ext _ (moved (nodes c) t) n m Hn Hm).
    + replace (dsq (moved (nodes c) t) n m) with (dsq (nodes c) n m) by (unfold dsq, moved; ring). now apply Hd.
    + intros; now apply H.
  - apply (@least_size_ext (moved (nodes c) t)); [intros; symmetry; now apply H|]. apply least_size_moved. apply charlen_least; [intros; now apply H|assumption].
Qed.
Print Assumptions C45_location_independence_partial.
(** C45: it is positive for every element that is not inverted and has no coinciding nodes,
    wherever it is. *)
Theorem C45_positive : forall big c, 0 < big -> well_shaped (nodes c) ->
  (forall n i, (n < 8)%nat -> (i < 3)%nat -> nodes c n i < big) ->
  (forall n m, (n < 8)%nat -> (m < 8)%nat -> n <> m -> exists i, (i < 3)%nat /\ nodes c n i <> nodes c m i) ->
  0 < compute_characteristic_length big c.
Proof. exact charlen_pos. Qed.
Print Assumptions C45_positive.
(** C45: the critical time step of a block is the least over its elements of characteristic
    length (current configuration) over sound speed: it exceeds none, and equals one of them (or
    the largest number, if all exceed it). *)
Theorem C45_block_minimum : forall big bulk rho ref disp num_elem conn junk,
  let dt := block_critical_time_step big bulk rho ref disp num_elem conn junk in
  let len e := compute_characteristic_length big (gather conn e (fun k => ref k + disp k) junk) in
  (forall e n i, (n < 8)%nat -> (i < 3)%nat -> nodes (gather conn e (fun k => ref k + disp k) junk) n i = enodes conn (fun k => ref k + disp k) e n i) /\
  (forall e, (e < num_elem)%nat -> dt <= len e / sqrt (bulk / rho)) /\
  (dt = big \/ exists e, (e < num_elem)%nat /\ dt = len e / sqrt (bulk / rho)).
Proof.
  intros. destruct (@block_dt big bulk rho ref disp num_elem conn junk) as (H1 & H2 & H3). split; [|split; assumption].
  intros e n i Hn Hi. now apply gather_at.
Qed.
Print Assumptions C45_block_minimum.
(** C45 fails in general: the same element, moved ten units down, gets a length (hence a time
    step) more than seven times larger, because the running maximum of a coordinate starts at
    zero. *)
Definition thin_shape : mat3 := fun i j =>
  match i, j with 0%nat, 0%nat => 1 / 2 | 1%nat, 1%nat => 1 / 2 | 0%nat, 2%nat => 1 / 4 | 1%nat, 2%nat => 1 / 4 | 2%nat, 2%nat => 1 / 20 | _, _ => 0 end.
Definition thin_cell (t : R) : arr := fun k =>
  1 + mvec thin_shape (corner (k / 3)) (k mod 3) + if (k mod 3 =? 2)%nat then t else 0.
Lemma thin_nodes t n i : (n < 8)%nat -> (i < 3)%nat -> nodes (thin_cell t) n i =
  match i with 0%nat => 1 + corner n 0 / 2 + corner n 2 / 4 | 1%nat => 1 + corner n 1 / 2 + corner n 2 / 4 | _ => 1 + corner n 2 / 20 + t end.
Proof.
  intros Hn Hi. unfold nodes, thin_cell. destruct (divmod3 n Hi) as [-> ->]. idx3 i; cbv [mvec thin_shape Rsum Nat.eqb]; field.
Qed.
Theorem C45_location_independence_refuted :
  exists big c c' t, (forall n i, (n < 8)%nat -> (i < 3)%nat -> nodes c' n i = nodes c n i + t i) /\ well_shaped (nodes c) /\
    (forall n i, (n < 8)%nat -> (i < 3)%nat -> nodes c n i <= big /\ nodes c' n i <= big) /\
    7 * compute_characteristic_length big c <= compute_characteristic_length big c'.
Proof.
  exists 1000, (thin_cell 0), (thin_cell (-10)), (fun i => if (i =? 2)%nat then -10 else 0). split; [|split; [|split]].
  - intros n i Hn Hi. rewrite !thin_nodes by assumption. idx3 i; cbn [Nat.eqb]; ring.
  - apply (@corner_shaped thin_shape (fun i => 1)).
    + intros n i Hn Hi. rewrite thin_nodes by assumption. idx3 i; cbv [mvec thin_shape Rsum]; field.
    + cbv [mdet thin_shape]. lra.
  - intros n i Hn Hi. rewrite !thin_nodes by assumption. assert (C : forall k, corner n k = 1 \/ corner n k = -1) by (intros k; unfold corner; destruct (existsb _ _); auto).
    pose proof (C 0%nat). pose proof (C 1%nat). pose proof (C 2%nat). idx3 i; lra.
  - assert (U : compute_characteristic_length 1000 (thin_cell 0) <= 1 / 10).
    { destruct (charlen_parts 1000 (thin_cell 0)) as (-> & _). eapply Rle_trans; [apply Rmin_l|]. eapply Rle_trans; [apply Rmin_l|].
      destruct (@box_spread 1000 (thin_cell 0) 2) as [(n & m & Hn & Hm & ->) _]; [lia| |].
      - intros n Hn. rewrite thin_nodes by lia. assert (C : corner n 2 = 1 \/ corner n 2 = -1) by (unfold corner; destruct (existsb _ _); auto). destruct C as [-> | ->]; lra.
      - rewrite !thin_nodes by lia. assert (C : forall n, corner n 2 = 1 \/ corner n 2 = -1) by (intros k; unfold corner; destruct (existsb _ _); auto).
        destruct (C n) as [-> | ->], (C m) as [-> | ->]; lra. }
    enough (L : 7 / 10 <= compute_characteristic_length 1000 (thin_cell (-10))) by lra.
    destruct (charlen_parts 1000 (thin_cell (-10))) as (-> & C1 & C2 & C3).
    assert (B : forall i, (i < 3)%nat -> 7 / 10 <= box 1000 (thin_cell (-10)) i).
    { intros i Hi. idx3 i.
      - eapply Rle_trans; [|apply (@box_ge 1000 (thin_cell (-10)) 0 1 0); lia]. rewrite !thin_nodes by lia. cbv [corner existsb Nat.eqb orb]. lra.
      - eapply Rle_trans; [|apply (@box_ge 1000 (thin_cell (-10)) 1 3 0); lia]. rewrite !thin_nodes by lia. cbv [corner existsb Nat.eqb orb]. lra.
      - unfold box. pose proof (@maxf_init 8 (fun n => nodes (thin_cell (-10)) n 2%nat) 0).
        pose proof (@minf_le 8 (fun n => nodes (thin_cell (-10)) n 2%nat) 1000 0 ltac:(lia)) as M. cbv beta in M. rewrite thin_nodes in M by lia. cbv [corner existsb Nat.eqb orb] in M. lra. }
    assert (D : 49 / 100 <= closest 1000 (thin_cell (-10))).
    { destruct C3 as [-> | (n & m & Hn & Hm & ->)]; [lra|]. unfold dsq. rewrite !thin_nodes by lia.
      assert (n < 8)%nat as Hn8 by lia. idx8 n; idx8 m; try lia; cbv [corner existsb Nat.eqb orb]; lra. }
    apply Rmin_glb; [apply Rmin_glb; [|apply Rmin_glb]; apply B; lia|].
    rewrite <- (sqrt_square (7 / 10)) by lra. apply sqrt_le_1_alt. lra.
Qed.
Print Assumptions C45_location_independence_refuted.
Example C45_example : least_size (nodes (thin_cell 0)) (compute_characteristic_length 1000 (thin_cell 0)) /\ 0 < compute_characteristic_length 1000 (thin_cell 0).
Proof.
  assert (C : forall n k, corner n k = 1 \/ corner n k = -1) by (intros n k; unfold corner; destruct (existsb _ _); auto).
  assert (B : forall n i, (n < 8)%nat -> (i < 3)%nat -> 0 <= nodes (thin_cell 0) n i <= 2).
  { intros n i Hn Hi. rewrite thin_nodes by assumption. pose proof (C n 0%nat). pose proof (C n 1%nat). pose proof (C n 2%nat). idx3 i; lra. }
  split.
  - apply charlen_least.
    + intros n i Hn Hi. pose proof (B n i Hn Hi). lra.
    + intros n m Hn Hm. unfold dsq. pose proof (B n 0%nat Hn ltac:(lia)). pose proof (B n 1%nat Hn ltac:(lia)). pose proof (B n 2%nat Hn ltac:(lia)).
      pose proof (B m 0%nat Hm ltac:(lia)). pose proof (B m 1%nat Hm ltac:(lia)). pose proof (B m 2%nat Hm ltac:(lia)).
      assert (S : forall a b, 0 <= a <= 2 -> 0 <= b <= 2 -> (a - b) * (a - b) <= 4) by (intros; nra).
      pose proof (S (nodes (thin_cell 0) n 0%nat) (nodes (thin_cell 0) m 0%nat) ltac:(lra) ltac:(lra)).
      pose proof (S (nodes (thin_cell 0) n 1%nat) (nodes (thin_cell 0) m 1%nat) ltac:(lra) ltac:(lra)).
      pose proof (S (nodes (thin_cell 0) n 2%nat) (nodes (thin_cell 0) m 2%nat) ltac:(lra) ltac:(lra)). lra.
  - apply charlen_pos; [lra| | |].
    + apply (@corner_shaped thin_shape (fun i => 1)).
      * intros n i Hn Hi. rewrite thin_nodes by assumption. idx3 i; cbv [mvec thin_shape Rsum]; field.
      * cbv [mdet thin_shape]. lra.
    + intros n i Hn Hi. pose proof (B n i Hn Hi). lra.
    + intros n m Hn Hm Hne. idx8 n; idx8 m; try (exfalso; lia);
        first [exists 2%nat; split; [lia|]; rewrite !thin_nodes by lia; cbv [corner existsb Nat.eqb orb]; lra
              |exists 0%nat; split; [lia|]; rewrite !thin_nodes by lia; cbv [corner existsb Nat.eqb orb]; lra
              |exists 1%nat; split; [lia|]; rewrite !thin_nodes by lia; cbv [corner existsb Nat.eqb orb]; lra].
Qed.
