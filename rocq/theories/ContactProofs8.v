(** Distributed contact: the forces of every rank. *)
From Verif Require Import Base ListLemmas Loops ContactModel ContactParModel ContactSpec ContactProofs ContactProofs2 ContactProofs3 ContactProofs5 ContactProofs6 ContactProofs7.
From Coq Require Import Reals Lra Permutation.
Set Implicit Arguments.
Local Open Scope R_scope.

Section Ranks.
  Variable penalty : R.
  Variables nodes faces : list (nat * entity).
  Variable pairs : list (nat * nat).
  Hypothesis Hp : 0 < penalty.
  Hypothesis Hn : Forall (fun n => entity_type_ (snd n) = NODE) nodes.
  Hypothesis Hf : Forall (fun f => entity_type_ (snd f) = TRIANGLE) faces.
  Hypothesis HP : Forall (fun p => (fst p < length nodes)%nat /\ (snd p < length faces)%nat) pairs.
  (** the two halves as they arise *)
  Definition nside (r k : nat) (p : nat * nat) : V3 :=
    match nth_error nodes (fst p) with Some (rn, node) => if Nat.eqb rn r then vscal (- hit (node_id_for_node_1_ node) k) (pforce penalty nodes faces p) else vzero | None => vzero end.
  Definition fside (r k : nat) (p : nat * nat) : V3 :=
    match nth_error faces (snd p) with Some (rf, face) => if Nat.eqb rf r && pin nodes faces p then vscal (share face (pbary nodes faces p) k) (pforce penalty nodes faces p) else vzero | None => vzero end.
  Lemma parallel_main dist0 : NoDup dist0 -> (forall p, In p dist0 <-> In p pairs) ->
    exists nodes' faces' force, parallel_contact penalty nodes faces pairs = Ok (nodes', faces', force) /\
      (forall r k, node_vec (force r) k = vadd (vsum (map (nside r k) pairs)) (vsum (map (fside r k) dist0))) /\
      length nodes' = length nodes /\ length faces' = length faces /\
      (forall i rn e, nth_error nodes i = Some (rn, e) -> exists e', nth_error nodes' i = Some (rn, e') /\ contact_status_ e' = existsb (fun p => Nat.eqb (fst p) i && pin nodes faces p) pairs) /\
      (forall j rf e, nth_error faces j = Some (rf, e) -> exists e', nth_error faces' j = Some (rf, e') /\ contact_status_ e' = existsb (fun p => Nat.eqb (snd p) j && pin nodes faces p) pairs).
  Proof.
    intros ND0 M0. destruct (@par_run penalty nodes faces Hf pairs HP) as (s & dist & E & (ND & M) & L & LF & F & RS).
    assert (PD : Permutation dist dist0) by (apply NoDup_Permutation; auto; intros x; rewrite M, M0; reflexivity).
    unfold parallel_contact. destruct (Rlt_dec 0 penalty) as [Hpp|]; [|lra]. cbv zeta. rewrite E. cbn [obind]. eexists _, _, _. split; [reflexivity|].
    assert (HR : Forall (fun n => entity_type_ (snd n) = NODE) (map reset_node nodes)) by (apply Forall_map; exact Hn).
    split; [|split; [|split; [exact LF|split]]].
    - intros r k. rewrite (@update_faces_ok penalty nodes faces dist faces Hf (ps_faces s) r k 0%nat); [|split; [exact LF|exact F]].
      rewrite (@update_nodes_ok (ps_results s) _ HR). rewrite RS, map_map.
      replace (node_vec zero_force k) with vzero by reflexivity. rewrite vadd_zero_l. f_equal.
      + apply vsum_map_ext. intros p _. unfold res_gain, nside. rewrite Nat.sub_0_r. cbn [Nat.leb]. rewrite nth_error_map. destruct (nth_error nodes (fst p)) as [[rn node]|] eqn:En; cbn [option_map reset_node fst snd]; [|reflexivity].
        destruct (Nat.eqb rn r); cbn [andb]; [|reflexivity]. cbn [with_status with_forces node_id_for_node_1_]. destruct (pin nodes faces p) eqn:EP.
        * apply V3_eq; unfold vscal, vneg; cbn [vx vy vz]; ring.
        * assert (pforce penalty nodes faces p = vzero) as ->; [|now rewrite vscal_zero].
          unfold pforce, pin in *. destruct (pres nodes faces p) as [[[? ?] rr]|]; [now rewrite EP|reflexivity].
      + rewrite (vsum_perm (Permutation_map _ PD)). apply vsum_map_ext. intros p _. unfold face_gain, fside. rewrite Nat.sub_0_r. cbn [Nat.leb]. destruct (nth_error faces (snd p)) as [[rf face]|]; reflexivity.
    - rewrite map_length, combine_length, seq_length, map_length. lia.
    - intros i rn e He.
      assert (HC : nth_error (combine (seq 0 (length (map reset_node nodes))) (map reset_node nodes)) i = Some (i, (rn, snd (reset_node (rn, e))))).
      { assert (Hi : (i < length (map reset_node nodes))%nat) by (rewrite map_length; apply nth_error_Some; congruence).
        assert (nth_error (map reset_node nodes) i = Some (rn, snd (reset_node (rn, e)))) as Hx by (rewrite (map_nth_error reset_node _ _ He); reflexivity).
        clear - Hi Hx. set (l := map reset_node nodes) in *. clearbody l.
        assert (G : forall a l, (i < length l)%nat -> nth_error l i = Some (rn, snd (reset_node (rn, e))) -> nth_error (combine (seq a (length l)) l) i = Some ((a + i)%nat, (rn, snd (reset_node (rn, e))))).
        { clear. induction i as [|i IH]; intros a l Hi Hx; destruct l as [|x l]; try discriminate; cbn [length seq combine nth_error] in *.
          - injection Hx as ->. now rewrite Nat.add_0_r.
          - rewrite (IH (S a) l) by (auto; cbn [length] in Hi; lia). do 2 f_equal. lia. }
        exact (G 0%nat l Hi Hx). }
      rewrite (map_nth_error _ _ _ HC). eexists. split; [reflexivity|].
      + cbn [fst snd]. unfold update_node. rewrite update_node_status. cbn [reset_node snd with_status contact_status_ orb]. rewrite RS.
        clear. induction pairs as [|p l IH]; [reflexivity|]. cbn [map existsb fst snd]. now rewrite IH.
    - intros j rf e He. eexists. split; [exact (F _ _ _ He)|]. cbn [face_after with_status contact_status_]. apply eq_true_iff_eq. rewrite !existsb_exists. split; intros (p & Hp' & HQ); exists p; (split; [now apply M|exact HQ]).
  Qed.
  Lemma pres_at p : In p pairs -> exists rn node rf face, pair_at nodes faces p rn node rf face /\ pres nodes faces p = Some (node, face, projection node face 0 vzero vzero default_tol).
  Proof.
    intros Hi. rewrite Forall_forall in HP. destruct (HP p Hi) as [X1 X2].
    destruct (nth_error nodes (fst p)) as [[rn node]|] eqn:En; [|apply nth_error_None in En; lia].
    destruct (nth_error faces (snd p)) as [[rf face]|] eqn:Ef; [|apply nth_error_None in Ef; lia].
    exists rn, node, rf, face. split; [split; assumption|]. unfold pres. now rewrite En, Ef.
  Qed.
  Lemma pin_iff p rn node rf face : pair_at nodes faces p rn node rf face -> (pin nodes faces p = true <-> exists b, penetrates contact_tol node face b).
  Proof. intros (E1 & E2). unfold pin, pres. rewrite E1, E2, tol_eq. cbn [snd]. apply projection_spec. Qed.
  Lemma halves p rn node rf face : pair_at nodes faces p rn node rf face -> forall w : V3 -> R,
    half_force penalty node face w (if pin nodes faces p then vscal (w (pbary nodes faces p)) (pforce penalty nodes faces p) else vzero).
  Proof.
    intros (E1 & E2) w. unfold pin, pbary, pforce, pres. rewrite E1, E2, tol_eq. cbn [snd].
    destruct (projection_spec node face 0 vzero vzero contact_tol) as (P1 & P2 & _). set (r := projection node face 0 vzero vzero contact_tol) in *. clearbody r.
    unfold half_force. destruct (pr_in r).
    - left. destruct P1 as [P1 _]. destruct (P1 eq_refl) as (b & Hb). pose proof Hb as (H1 & H2 & H3 & _). destruct (P2 b H1 H2 H3) as (-> & -> & ->).
      exists b. split; [exact Hb|]. apply V3_eq; unfold vscal; cbn [vx vy vz]; ring.
    - right. split; [|reflexivity]. intros b Hb. destruct P1 as [_ P1]. discriminate P1. now exists b.
  Qed.
  Lemma pforce_out p : pin nodes faces p = false -> pforce penalty nodes faces p = vzero.
  Proof. unfold pforce, pin. destruct (pres nodes faces p) as [[[? ?] rr]|]; [intros ->; reflexivity|reflexivity]. Qed.
  Lemma bary_one p : In p pairs -> pin nodes faces p = true -> bary_sum (pbary nodes faces p) = 1.
  Proof.
    intros Hi H. destruct (pres_at p Hi) as (rn & node & rf & face & (E1 & E2) & E). unfold pin, pbary in *. rewrite E, tol_eq in *.
    destruct (projection_spec node face 0 vzero vzero contact_tol) as (P1 & P2 & _). apply P1 in H as (b & K1 & K2 & K3 & _). destruct (P2 b K1 K2 K3) as (_ & _ & ->). apply K2.
  Qed.
End Ranks.

(** Sums over ranks *)
Lemma vsum_ranks_pick R r0 (v : V3) : (r0 < R)%nat -> vsum (map (fun r => if Nat.eqb r0 r then v else vzero) (seq 0 R)) = v.
Proof.
  intros H. rewrite <- vsum_nodes_list. induction R as [|R IH]; [lia|]. cbn [vsum_nodes]. destruct (Nat.eqb_spec r0 R) as [->|Hne].
  - rewrite vsum_nodes_ext with (g := fun _ => vzero); [rewrite vsum_nodes_zero; apply vadd_zero_l|]. intros k Hk. destruct (Nat.eqb_spec R k); [lia|reflexivity].
  - rewrite IH by lia. apply vadd_zero.
Qed.
