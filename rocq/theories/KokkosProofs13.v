(** ModelData::ComputeLumpedMass: the loops of a block. *)
From Coq Require Import Reals Lra Sorted Permutation FunctionalExtensionality.
From Verif Require Import Base Strings ListLemmas DataModel DataProofs Loops TensorModel TensorSpec ElementModel ElementSpec ElementProofs BlockModel BlockProofs KokkosModel KokkosProofs KokkosSpec KokkosProofs2 KokkosProofs3 KokkosProofs4 KokkosProofs5.
Set Implicit Arguments.
Local Open Scope nat_scope.
Local Open Scope list_scope.
Local Notation length := List.length.

Section Block.
  Variables (n : nat) (conn : list nat) (N : nat) (rho : R).
  Hypothesis Hlen : length conn = n * 8.
  Hypothesis Hnode : forall k, k < n * 8 -> conn_of conn k < N.
  Let c := conn_of conn.
  Definition elem_mass (ref : list R) (e : nat) : outcome arr := compute_lumped_mass rho (gather (conn_of conn) e (arr_of ref) zeros) zeros.
  Definition new_mass (ref : list R) : list R := map (fun j => val (elem_mass ref (j / 8)) (j mod 8)) (seq 0 (n * 8)).
  Definition mass_amount (ref : list R) (j : nat) : R := lsum (seq 0 n) (fun e => Rsum 8 (fun k => if (j =? conn_of conn (e * 8 + k)) then val (elem_mass ref e) k else 0%R)).
  Section Loop.
    Variables (sched : scheduler) (q : list nat) (h : heap) (gref gmass : view) (ref d : list R).
    Hypothesis Hs : valid_sched sched.
    Hypothesis Hr : nth_error h (v_id gref) = Some (gath n conn ref).
    Hypothesis Hg : nth_error h (v_id gmass) = Some d.
    Hypothesis Ld : length d = n * 8.
    Hypothesis N1 : v_id gref <> v_id gmass.
    Let its e k := Act (v_id gmass, e * 8 + k) false (range gref (e * 24) 24)
      (fun vs => do out <- compute_lumped_mass rho (arr_of vs) zeros; Ok (out k)).
    Lemma mass_value e k : e < n -> value h (its e k) = do o <- elem_mass ref e; Ok (o k).
    Proof. clear c Hlen Hnode N.
      intros He. unfold value. cbn [a_reads its].
      rewrite (@read_range h gref (gath n conn ref) (e * 24) 24 Hr) by (rewrite gath_length; nia). cbn [obind a_val its].
      unfold gath. rewrite element_values by assumption. reflexivity.
    Qed.
    Lemma mass_loop_ok : (forall e, e < n -> okv (elem_mass ref e)) ->
      parallel_for sched q (mass_loop rho gref gmass n) h = Ok (list_set h (v_id gmass) (new_mass ref)).
    Proof. clear c Hlen Hnode N.
      intros H. apply (@elementwise_ok n 8 its (elem_mass ref) (v_id gmass)) with (d := d); auto; try lia.
      - intros e k r Hin. apply range_id in Hin. congruence.
      - intros; now apply mass_value.
    Qed.
    Lemma mass_loop_inv h' : parallel_for sched q (mass_loop rho gref gmass n) h = Ok h' -> forall e, e < n -> okv (elem_mass ref e).
    Proof. clear c Hlen Hnode N.
      intros H. eapply (@elementwise_inv n 8 its (elem_mass ref) (v_id gmass)) with (d := d); auto; try lia; try exact H; auto.
      - intros e k r Hin. apply range_id in Hin. congruence.
      - intros; now apply mass_value.
    Qed.
  End Loop.
  (** the host code *)
  Lemma scatter_mass_at e (mass l : arr) j : 
    floop 0 8 (fun node l => let node_id := conn_of conn (e * 8 + node) in upd l node_id (l node_id + mass node)%R) l j =
    (l j + Rsum 8 (fun k => if (j =? conn_of conn (e * 8 + k)) then mass k else 0))%R.
  Proof. clear c Hlen Hnode N.
    match goal with |- floop 0 8 ?f l j = _ => enough (G : (fun m (x : arr) => x j = (l j + Rsum m (fun k => if (j =? conn_of conn (e * 8 + k)) then mass k else 0))%R) 8 (floop 0 8 f l)) by exact G end.
    apply (@floop_ind arr (fun m (x : arr) => x j = (l j + Rsum m (fun k => if (j =? conn_of conn (e * 8 + k)) then mass k else 0))%R)); [lia|simpl; lra|]. intros m x Hm IH. cbv zeta. unfold upd. change (1 + m) with (Datatypes.S m). cbn [Rsum].
    destruct (Nat.eqb_spec j (conn_of conn (e * 8 + m))) as [E|E]; [rewrite <- E|]; rewrite IH; lra.
  Qed.
  Lemma block_mass_ok ref l : (forall e, e < n -> okv (elem_mass ref e)) ->
    exists l', block_lumped_mass rho (arr_of ref) n (conn_of conn) zeros l = Ok l' /\ forall j, l' j = (l j + mass_amount ref j)%R.
  Proof. clear c Hlen Hnode N.
    intros H. unfold block_lumped_mass.
    match goal with |- context [oloop 0 n ?f l] => destruct (@oloop_ind arr (fun m (x : arr) => forall j, x j = (l j + lsum (seq 0 m) (fun e => Rsum 8 (fun k => if (j =? conn_of conn (e * 8 + k)) then val (elem_mass ref e) k else 0)))%R) 0 n f l) as (l' & E & Hl) end.
    - lia.
    - intros j. simpl. lra.
    - intros e x He IH. cbv beta zeta. change (compute_lumped_mass _ _ _) with (elem_mass ref e). assert (Hm : elem_mass ref e = Ok (val (elem_mass ref e))) by (apply val_ok, H; lia). rewrite Hm. cbn [obind].
      eexists. split; [reflexivity|]. intros j. rewrite scatter_mass_at, IH. change (1 + e) with (Datatypes.S e). rewrite lsum_snoc. lra.
    - exists l'. split; [exact E|]. exact Hl.
  Qed.
  Lemma oloop_inv {A} (f : nat -> A -> outcome A) : forall m a b s s', oloop a (a + m) f s = Ok s' -> a <= b < a + m -> exists x y, f b x = Ok y.
  Proof. clear c Hlen Hnode N.
    unfold oloop. intros m a b s s'. replace (a + m - a) with m by lia. revert a s. induction m as [|m IH]; intros a s H Hb; [lia|].
    simpl in H. destruct (f a s) as [y| | |] eqn:E; try discriminate. cbn [obind] in H.
    destruct (Nat.eq_dec b a) as [->|]; [eauto|]. eapply IH; [exact H|lia].
  Qed.
  Lemma block_mass_inv ref l l' : block_lumped_mass rho (arr_of ref) n (conn_of conn) zeros l = Ok l' -> forall e, e < n -> okv (elem_mass ref e).
  Proof. clear c Hlen Hnode N.
    intros H e He. unfold block_lumped_mass in H. replace n with (0 + n) in H by lia. destruct (@oloop_inv arr _ n 0 e _ _ H ltac:(lia)) as (x & y & E).
    cbv beta zeta in E. change (compute_lumped_mass _ _ _) with (elem_mass ref e) in E at 1. destruct (elem_mass ref e) as [o| | |]; try discriminate. now exists o.
  Qed.
End Block.

(** * Folds over the blocks with any state *)
Fixpoint grun {S} (upd : nat -> S -> S) (k : nat) (s : S) : S := match k with 0 => s | Datatypes.S k => upd k (grun upd k s) end.
Lemma gphase {S B} (f : S -> nat * B -> outcome S) (upd : nat -> S -> S) (ok : nat -> Prop) (l : list B) s0 :
  (forall k b, nth_error l k = Some b -> (forall j, j < k -> ok j) -> (ok k -> f (grun upd k s0) (k, b) = Ok (upd k (grun upd k s0))) /\
    (forall s', f (grun upd k s0) (k, b) = Ok s' -> ok k)) ->
  ((forall k, k < length l -> ok k) -> ofold f (numbered l) s0 = Ok (grun upd (length l) s0)) /\
  (forall s', ofold f (numbered l) s0 = Ok s' -> s' = grun upd (length l) s0 /\ forall k, k < length l -> ok k).
Proof.
  intros H. split.
  - intros Hok. destruct (@numbered_ind S B (fun k h => h = grun upd k s0) f l s0) as (h' & E & ->); auto.
    intros k b s Hk ->. exists (upd k (grun upd k s0)). split; [|now rewrite Nat.add_1_r].
    assert (k < length l) by (eapply nth_some_lt; eauto). apply (H k b Hk); [intros; apply Hok; lia|]. now apply Hok.
  - intros h' E. apply (@numbered_inv S B (fun k h => h = grun upd k s0 /\ forall j, j < k -> ok j) f l s0 h'); auto.
    + split; auto. intros; lia.
    + intros k b s s' Hk [-> Hj] Hf. destruct (H k b Hk Hj) as [H1 H2]. specialize (H2 _ Hf). rewrite (H1 H2) in Hf. injection Hf as <-.
      rewrite Nat.add_1_r. split; auto. intros j Hj'. destruct (Nat.eq_dec j k) as [->|]; auto. apply Hj. lia.
Qed.
