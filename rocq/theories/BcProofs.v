(** Proofs about boundary conditions. *)
From Verif Require Import Base ListLemmas Loops LinModel LinSpec CrsProofs CgProofs BcModel BcSpec.
From Coq Require Import Reals Lra.
Local Open Scope nat_scope.
Set Implicit Arguments.

Lemma is_quasistatic_spec s : is_quasistatic s = quasistatic_scheme s.
Proof. destruct s; reflexivity. Qed.

Lemma assoc_set_other {V} k k' (v : V) m : k <> k' -> assoc Z.eqb k (assoc_set Z.eqb k' v m) = assoc Z.eqb k m.
Proof.
  intros H. induction m as [|[a b] m IH]; simpl.
  - apply Z.eqb_neq in H. now rewrite H.
  - destruct (Z.eqb_spec k' a) as [<-|Ha]; simpl.
    + apply Z.eqb_neq in H. now rewrite H.
    + now rewrite IH.
Qed.
Lemma assoc_set_same {V} k (v : V) m : assoc Z.eqb k (assoc_set Z.eqb k v m) = Some v.
Proof.
  induction m as [|[a b] m IH]; simpl; [now rewrite Z.eqb_refl|].
  destruct (Z.eqb_spec k a); simpl; [now rewrite Z.eqb_refl|].
  destruct (Z.eqb_spec k a); congruence.
Qed.

Lemma map_index_spec k mg :
  let '(nodes, sets) := map_index k (mg_node_sets mg) in
  nodes = node_set mg k /\ (forall id, node_set (with_sets mg sets) id = node_set mg id) /\
  (forall id, assoc Z.eqb id (mg_node_sets mg) <> None -> assoc Z.eqb id sets <> None) /\
  assoc Z.eqb k sets <> None.
Proof.
  unfold map_index, node_set. destruct (assoc Z.eqb k (mg_node_sets mg)) as [l|] eqn:E; simpl.
  - repeat split; auto. congruence.
  - repeat split; auto.
    + intros id. destruct (Z.eq_dec id k) as [->|Hne].
      * now rewrite assoc_set_same, E.
      * now rewrite assoc_set_other.
    + intros id Hid. destruct (Z.eq_dec id k) as [->|Hne]; [rewrite assoc_set_same; discriminate|].
      now rewrite assoc_set_other.
    + rewrite assoc_set_same. discriminate.
Qed.

Lemma view_set_ok N D v n c x : shaped N D v -> n < N -> c < D ->
  view_set v n c x = Ok (View N D (upd2 (v_at v) n c x)).
Proof.
  intros [<- <-] Hn Hc. unfold view_set.
  apply Nat.ltb_lt in Hn. apply Nat.ltb_lt in Hc. now rewrite Hn, Hc.
Qed.
Lemma view_get_ok N D v n c : shaped N D v -> n < N -> c < D -> view_get v n c = Ok (v_at v n c).
Proof.
  intros [<- <-] Hn Hc. unfold view_get.
  apply Nat.ltb_lt in Hn. apply Nat.ltb_lt in Hc. now rewrite Hn, Hc.
Qed.
Lemma set_all_ok N D vs n c x : Forall (shaped N D) vs -> n < N -> c < D ->
  set_all_views vs n c x = Ok (map (fun v => View N D (upd2 (v_at v) n c x)) vs).
Proof.
  intros H Hn Hc. unfold set_all_views. apply omapM_ok. intros v Hv.
  apply view_set_ok; auto. eapply Forall_forall in H; eauto.
Qed.

Lemma bc_eval_ok mg N ref t n b : mg_dim mg = 2 \/ mg_dim mg = 3 -> shaped N (mg_dim mg) ref -> n < N ->
  bc_eval (mg_dim mg) ref t n (bc_val b) = Ok (value_at mg ref t n b).
Proof.
  intros Hd Hr Hn. unfold bc_eval, value_at. destruct (bc_val b) as [m|f]; auto.
  rewrite (view_get_ok Hr) by (auto; lia). simpl obind.
  rewrite (view_get_ok Hr) by (auto; lia). simpl obind.
  destruct (Nat.eqb_spec (mg_dim mg) 3).
  - rewrite (view_get_ok Hr) by (auto; lia). reflexivity.
  - reflexivity.
Qed.

(** v' is v with every entry (n, c) replaced by F n c (old value) *)
Definition vrel (N D : nat) (F : nat -> nat -> R -> R) (v v' : view) : Prop :=
  shaped N D v' /\ forall n c, v_at v' n c = F n c (v_at v n c).

Definition krel (N D : nat) (G : nat -> nat -> R * R -> R * R) (F : nat -> nat -> R -> R) (s s' : kin) : Prop :=
  shaped N D (k_disp s') /\ shaped N D (k_vel s') /\
  (forall n c, (v_at (k_disp s') n c, v_at (k_vel s') n c) = G n c (v_at (k_disp s) n c, v_at (k_vel s) n c)) /\
  Forall2 (vrel N D F) (k_off s) (k_off s').

Definition kshaped N D (s : kin) : Prop := shaped N D (k_disp s) /\ shaped N D (k_vel s) /\ Forall (shaped N D) (k_off s).

Lemma krel_refl N D s : kshaped N D s -> krel N D (fun _ _ dv => dv) (fun _ _ v => v) s s.
Proof.
  intros (H1 & H2 & H3). split; auto. split; auto. split; auto.
  induction H3; constructor; auto. split; auto.
Qed.

Lemma krel_kshaped N D G F s s' : krel N D G F s s' -> kshaped N D s'.
Proof.
  intros (H1 & H2 & _ & H3). split; auto. split; auto.
  induction H3 as [|? ? ? ? [Hs _]]; constructor; auto.
Qed.

Lemma krel_trans N D G F G' F' s1 s2 s3 : krel N D G F s1 s2 -> krel N D G' F' s2 s3 ->
  krel N D (fun n c x => G' n c (G n c x)) (fun n c x => F' n c (F n c x)) s1 s3.
Proof.
  intros (_ & _ & A3 & A4) (B1 & B2 & B3 & B4). split; auto. split; auto. split.
  - intros n c. now rewrite B3, A3.
  - clear - A4 B4. revert B4. generalize (k_off s3). induction A4 as [|u v l l' [_ Hu] _ IH]; intros l3 B4; inversion B4; subst; constructor; auto.
    destruct H1 as [Hs Hw]. split; auto. intros n c. now rewrite Hw, Hu.
Qed.

Lemma krel_ext N D G F G' F' s s' : (forall n c x, G n c x = G' n c x) -> (forall n c x, F n c x = F' n c x) ->
  krel N D G F s s' -> krel N D G' F' s s'.
Proof.
  intros HG HF (B1 & B2 & B3 & B4). split; auto. split; auto. split.
  - intros n c. now rewrite B3.
  - induction B4 as [|u v l l' [Hs Hu] _ IH]; constructor; auto. split; auto. intros n c. now rewrite Hu.
Qed.

(** a single entry update *)
Lemma krel_point N D s s' n c d v o g h : kshaped N D s ->
  shaped N D (k_disp s') -> shaped N D (k_vel s') ->
  (forall n' c', v_at (k_disp s') n' c' = if (n' =? n) && (c' =? c) then d else v_at (k_disp s) n' c') ->
  (forall n' c', v_at (k_vel s') n' c' = if (n' =? n) && (c' =? c) then v else v_at (k_vel s) n' c') ->
  k_off s' = match o with Some x => map (fun v => View N D (upd2 (v_at v) n c x)) (k_off s) | None => k_off s end ->
  g (v_at (k_disp s) n c, v_at (k_vel s) n c) = (d, v) ->
  (forall y, h y = match o with Some x => x | None => y end) ->
  krel N D (fun n' c' x => if (n' =? n) && (c' =? c) then g x else x)
           (fun n' c' x => if (n' =? n) && (c' =? c) then h x else x) s s'.
Proof.
  intros (H1 & H2 & H3) S1 S2 Hd Hv Ho Hg Hh. split; auto. split; auto. split.
  - intros n' c'. rewrite Hd, Hv. destruct (Nat.eqb_spec n' n) as [->|]; simpl; auto.
    destruct (Nat.eqb_spec c' c) as [->|]; simpl; auto.
  - rewrite Ho. clear - H3 Hh. induction H3 as [|u l Hu _ IH]; destruct o; simpl; constructor; auto.
    + split; [split; reflexivity|]. intros n' c'. simpl. unfold upd2. now rewrite Hh.
    + split; auto. intros n' c'. destruct (_ && _); auto.
Qed.

Lemma existsb_eqb_In n l : existsb (Nat.eqb n) l = true <-> In n l.
Proof.
  rewrite existsb_exists. split.
  - intros (x & Hx & E). apply Nat.eqb_eq in E. now subst.
  - intros H. exists n. split; auto. apply Nat.eqb_refl.
Qed.
Lemma existsb_snoc n l x : existsb (Nat.eqb n) (l ++ [x]) = existsb (Nat.eqb n) l || (n =? x).
Proof. rewrite existsb_app. simpl. now rewrite orb_false_r. Qed.

(** A loop over a duplicate-free node list that updates the entry (n, c0) of each node from its
    own old value. *)
Lemma node_loop N D (f : kin -> nat -> outcome kin) c0 (g : nat -> R * R -> R * R) (h : nat -> R -> R) nodes s :
  NoDup nodes -> (forall n, In n nodes -> n < N) -> c0 < D -> kshaped N D s ->
  (forall s n, kshaped N D s -> n < N -> exists s', f s n = Ok s' /\
     krel N D (fun n' c' x => if (n' =? n) && (c' =? c0) then g n x else x)
              (fun n' c' x => if (n' =? n) && (c' =? c0) then h n x else x) s s') ->
  exists s', ofold f nodes s = Ok s' /\
    krel N D (fun n c x => if (c0 =? c) && existsb (Nat.eqb n) nodes then g n x else x)
             (fun n c x => if (c0 =? c) && existsb (Nat.eqb n) nodes then h n x else x) s s'.
Proof.
  intros Hnd HN Hc Hs Hf.
  apply (@ofold_ind _ _ (fun pre s' => krel N D
     (fun n c x => if (c0 =? c) && existsb (Nat.eqb n) pre then g n x else x)
     (fun n c x => if (c0 =? c) && existsb (Nat.eqb n) pre then h n x else x) s s')).
  - eapply krel_ext; [| |apply (krel_refl Hs)]; intros n c x; simpl; now rewrite andb_false_r.
  - intros pre n post s1 E H1.
    destruct (Hf s1 n (krel_kshaped H1)) as (s2 & E2 & H2).
    { apply HN. rewrite E. apply in_or_app. right. now left. }
    exists s2. split; auto.
    assert (Hnin : existsb (Nat.eqb n) pre = false).
    { destruct (existsb (Nat.eqb n) pre) eqn:Eb; auto. apply existsb_eqb_In in Eb.
      rewrite E in Hnd. apply NoDup_app_inv in Hnd as (_ & _ & Hd). exfalso. apply (Hd n); auto. now left. }
    eapply krel_ext; [| |apply (krel_trans H1 H2)]; intros n' c' x; simpl; rewrite existsb_snoc;
      destruct (Nat.eqb_spec n' n) as [->|Hne]; simpl;
      rewrite ?Hnin, ?orb_false_r, ?andb_false_r; simpl; auto;
      rewrite (Nat.eqb_sym c' c0); destruct (c0 =? c'); simpl; auto.
Qed.

Section Kin.
  Variables (mg0 : manager) (N : nat) (ref : view) (dt t : R).
  Hypothesis Hin : bc_input_ok mg0 N.
  Hypothesis Href : shaped N (mg_dim mg0) ref.
  Let D := mg_dim mg0.

  (** managers that differ from the initial one only by empty node sets *)
  Definition same_mgr (mg : manager) : Prop :=
    mg_bcs mg = mg_bcs mg0 /\ mg_dim mg = mg_dim mg0 /\ mg_scheme mg = mg_scheme mg0 /\
    (forall id, node_set mg id = node_set mg0 id) /\
    (forall id, assoc Z.eqb id (mg_node_sets mg0) <> None -> assoc Z.eqb id (mg_node_sets mg) <> None).

  Lemma value_same mg n b t' : same_mgr mg -> value_at mg ref t' n b = value_at mg0 ref t' n b.
  Proof. intros (_ & E & _). unfold value_at. now rewrite E. Qed.

  Lemma same_with_sets mg k : same_mgr mg -> let '(nodes, sets) := map_index k (mg_node_sets mg) in
    nodes = node_set mg0 k /\ same_mgr (with_sets mg sets) /\ assoc Z.eqb k sets <> None.
  Proof.
    intros (H1 & H2 & H3 & H4 & H5). pose proof (map_index_spec k mg) as H.
    destruct (map_index k (mg_node_sets mg)) as [nodes sets]. destruct H as (-> & Ha & Hb & Hc).
    split; [apply H4|]. split; auto. split; auto. split; auto. split; auto. split.
    - intros id. now rewrite Ha.
    - intros id Hid. apply Hb. now apply H5.
  Qed.

  Lemma kinematic_one_ok mg s b : same_mgr mg -> kshaped N D s -> In b (mg_bcs mg0) ->
    exists mg' s', kinematic_one dt t ref (mg, s) b = Ok (mg', s') /\ same_mgr mg' /\
      assoc Z.eqb (bc_node_set b) (mg_node_sets mg') <> None /\
      (forall id, assoc Z.eqb id (mg_node_sets mg) <> None -> assoc Z.eqb id (mg_node_sets mg') <> None) /\
      krel N D (fun n c x => entry_effect mg0 dt t ref n c x b) (fun n c x => off_effect mg0 t ref n c x b) s s'.
  Proof.
    intros Hm Hs Hb. unfold kinematic_one. pose proof (map_index_spec (bc_node_set b) mg) as Hmi.
    pose proof (same_with_sets (bc_node_set b) Hm) as H.
    destruct (map_index (bc_node_set b) (mg_node_sets mg)) as [nodes sets]. destruct H as (-> & Hm' & Hk).
    destruct Hmi as (_ & _ & Hmono & _).
    assert (Hc : bc_coord b < D) by (apply (bi_coord Hin); auto).
    pose proof Hm as (E1 & E2 & E3 & _).
    assert (Hdim : mg_dim mg = 2 \/ mg_dim mg = 3) by (rewrite E2; apply (bi_dim Hin)).
    assert (Hev : forall n, n < N -> bc_eval (mg_dim mg) ref t n (bc_val b) = Ok (value_at mg0 ref t n b)).
    { intros n Hn. rewrite <- (value_same n b t Hm). apply (@bc_eval_ok mg N); auto. now rewrite E2. }
    assert (Hskip : bc_kind b = INITIAL_VELOCITY \/ bc_kind b = PRESCRIBED_TRACTION \/
        (bc_kind b = PRESCRIBED_DISPLACEMENT /\ ~ (0 < dt)%R) ->
        krel N D (fun n c x => entry_effect mg0 dt t ref n c x b) (fun n c x => off_effect mg0 t ref n c x b) s s).
    { intros Hkd. eapply krel_ext; [| |apply (krel_refl Hs)].
      - intros n c [d v]. unfold entry_effect. destruct (covers mg0 b n c); auto.
        destruct Hkd as [->|[->|[-> Hdt]]]; auto. destruct (Rlt_dec 0 dt); [contradiction|auto].
      - intros n c v. unfold off_effect. destruct (covers mg0 b n c); auto. destruct Hkd as [->|[->|[-> Hdt]]]; auto. }
    destruct (bc_kind b) eqn:Ek.
    - exists (with_sets mg sets), s. split; [reflexivity|split; [exact Hm'|split; [exact Hk|split; [exact Hmono|apply Hskip; auto]]]].
    - destruct (@node_loop N D (kin_velocity mg dt t ref b) (bc_coord b)
        (fun n dv => ((if quasistatic_scheme (mg_scheme mg0) then fst dv + value_at mg0 ref t n b * dt else fst dv)%R, value_at mg0 ref t n b))
        (fun n _ => value_at mg0 ref t n b) (node_set mg0 (bc_node_set b)) s) as (s' & Es & Hs'); auto.
      + apply (bi_nodup Hin).
      + intros n Hn. apply (bi_nodes Hin) in Hn. auto.
      + intros s1 n Hs1 Hn. unfold kin_velocity. rewrite Hev by auto. simpl obind.
        destruct Hs1 as (S1 & S2 & S3).
        rewrite (view_set_ok _ S2) by auto. simpl obind. rewrite (set_all_ok _ S3) by auto. simpl obind.
        rewrite E3, is_quasistatic_spec. destruct (quasistatic_scheme (mg_scheme mg0)).
        * rewrite (view_get_ok S1) by auto. simpl obind. rewrite (view_set_ok _ S1) by auto. simpl obind.
          eexists. split; [reflexivity|].
          apply (@krel_point N D s1 _ n (bc_coord b) (v_at (k_disp s1) n (bc_coord b) + value_at mg0 ref t n b * dt)%R
             (value_at mg0 ref t n b) (Some (value_at mg0 ref t n b))); try (split; auto; fail); simpl; auto; split; auto.
        * eexists. split; [reflexivity|].
          apply (@krel_point N D s1 _ n (bc_coord b) (v_at (k_disp s1) n (bc_coord b))
             (value_at mg0 ref t n b) (Some (value_at mg0 ref t n b))); try (split; auto; fail); simpl; auto; try (split; auto; fail).
          intros n' c'. destruct (Nat.eqb_spec n' n) as [->|]; simpl; auto. destruct (Nat.eqb_spec c' (bc_coord b)) as [->|]; auto.
      + rewrite Es. simpl. exists (with_sets mg sets), s'. split; [reflexivity|split; [exact Hm'|split; [exact Hk|split; [exact Hmono|]]]].
        eapply krel_ext; [| |exact Hs']; intros n c x; unfold entry_effect, off_effect, covers; rewrite Ek;
          destruct ((bc_coord b =? c) && _); auto; destruct x; auto.
    - destruct (Rlt_dec 0 dt) as [Hdt|Hdt].
      2:{ exists (with_sets mg sets), s. split; [reflexivity|split; [exact Hm'|split; [exact Hk|split; [exact Hmono|apply Hskip; auto]]]]. }
      destruct (@node_loop N D (kin_displacement mg dt t ref b) (bc_coord b)
        (fun n dv => ((if quasistatic_scheme (mg_scheme mg0) then value_at mg0 ref t n b else fst dv)%R, ((value_at mg0 ref t n b - fst dv) / dt)%R))
        (fun n v => v) (node_set mg0 (bc_node_set b)) s) as (s' & Es & Hs'); auto.
      + apply (bi_nodup Hin).
      + intros n Hn. apply (bi_nodes Hin) in Hn. auto.
      + intros s1 n Hs1 Hn. unfold kin_displacement. rewrite Hev by auto. simpl obind.
        destruct Hs1 as (S1 & S2 & S3).
        rewrite (view_get_ok S1) by auto. simpl obind.
        rewrite (view_set_ok _ S2) by auto. simpl obind.
        rewrite E3, is_quasistatic_spec. destruct (quasistatic_scheme (mg_scheme mg0)).
        * rewrite (view_set_ok _ S1) by auto. simpl obind.
          eexists. split; [reflexivity|].
          apply (@krel_point N D s1 _ n (bc_coord b) (value_at mg0 ref t n b)
             ((value_at mg0 ref t n b - v_at (k_disp s1) n (bc_coord b)) / dt)%R None); try (split; auto; fail); simpl; auto; split; auto.
        * eexists. split; [reflexivity|].
          apply (@krel_point N D s1 _ n (bc_coord b) (v_at (k_disp s1) n (bc_coord b))
             ((value_at mg0 ref t n b - v_at (k_disp s1) n (bc_coord b)) / dt)%R None); try (split; auto; fail); simpl; auto; try (split; auto; fail).
          intros n' c'. destruct (Nat.eqb_spec n' n) as [->|]; simpl; auto. destruct (Nat.eqb_spec c' (bc_coord b)) as [->|]; auto.
      + rewrite Es. simpl. exists (with_sets mg sets), s'. split; [reflexivity|split; [exact Hm'|split; [exact Hk|split; [exact Hmono|]]]].
        eapply krel_ext; [| |exact Hs']; intros n c x; unfold entry_effect, off_effect, covers; rewrite Ek;
          destruct ((bc_coord b =? c) && _); auto; destruct x; auto. destruct (Rlt_dec 0 dt); [auto|contradiction].
    - exists (with_sets mg sets), s. split; [reflexivity|split; [exact Hm'|split; [exact Hk|split; [exact Hmono|apply Hskip; auto]]]].
  Qed.

  Lemma same_refl : same_mgr mg0.
  Proof. repeat split; auto. Qed.

  Lemma apply_kinematic_ok s t0 : (t - t0)%R = dt -> kshaped N D s ->
    exists mg' s', apply_kinematic mg0 t t0 ref s = Ok (mg', s') /\ same_mgr mg' /\
      (forall b, In b (mg_bcs mg0) -> assoc Z.eqb (bc_node_set b) (mg_node_sets mg') <> None) /\
      krel N D (fun n c x => fold_left (entry_effect mg0 dt t ref n c) (mg_bcs mg0) x)
               (fun n c x => fold_left (off_effect mg0 t ref n c) (mg_bcs mg0) x) s s'.
  Proof.
    intros Hdt Hs. unfold apply_kinematic. rewrite Hdt.
    destruct (@ofold_ind _ _ (fun pre st => same_mgr (fst st) /\
      (forall b, In b pre -> assoc Z.eqb (bc_node_set b) (mg_node_sets (fst st)) <> None) /\
      krel N D (fun n c x => fold_left (entry_effect mg0 dt t ref n c) pre x)
               (fun n c x => fold_left (off_effect mg0 t ref n c) pre x) s (snd st))
      (kinematic_one dt t ref) (mg_bcs mg0) (mg0, s)) as ([mg' s'] & E & H1 & H2 & H3).
    - split; [apply same_refl|]. split; [intros b []|]. apply (krel_refl Hs).
    - intros pre b post [mg1 s1] El (H1 & H2 & H3). simpl in *.
      destruct (@kinematic_one_ok mg1 s1 b H1 (krel_kshaped H3)) as (mg2 & s2 & E2 & A & B & C & K).
      { rewrite El. apply in_or_app. right. now left. }
      exists (mg2, s2). split; auto. simpl. split; auto. split.
      + intros b' Hb'. apply in_app_or in Hb' as [Hb'|[<-|[]]]; auto.
      + eapply krel_ext; [| |apply (krel_trans H3 K)]; intros n c x; simpl; now rewrite fold_left_app.
    - exists mg', s'. auto.
  Qed.
End Kin.

(** ** Initial conditions *)
Section Init.
  Variables (mg0 : manager) (N : nat) (ref : view).
  Hypothesis Hin : bc_input_ok mg0 N.
  Hypothesis Href : shaped N (mg_dim mg0) ref.
  Let D := mg_dim mg0.

  Lemma initial_one_ok mg s b : same_mgr mg0 mg -> kshaped N D s -> In b (mg_bcs mg0) ->
    exists mg' s', initial_one ref (mg, s) b = Ok (mg', s') /\ same_mgr mg0 mg' /\
      krel N D (fun n c x => (fst x, init_effect mg0 ref n c (snd x) b)) (fun n c x => init_effect mg0 ref n c x b) s s'.
  Proof.
    intros Hm Hs Hb. unfold initial_one.
    assert (Hskip : bc_kind b <> INITIAL_VELOCITY ->
      krel N D (fun n c x => (fst x, init_effect mg0 ref n c (snd x) b)) (fun n c x => init_effect mg0 ref n c x b) s s).
    { intros Hk. eapply krel_ext; [| |apply (krel_refl Hs)].
      - intros n c [d v]. unfold init_effect. simpl. destruct (covers mg0 b n c); auto. destruct (bc_kind b); congruence.
      - intros n c v. unfold init_effect. destruct (covers mg0 b n c); auto. destruct (bc_kind b); congruence. }
    destruct (bc_kind b) eqn:Ek; try (exists mg, s; split; [reflexivity|split; [exact Hm|apply Hskip; discriminate]]).
    pose proof (same_with_sets (bc_node_set b) Hm) as H.
    destruct (map_index (bc_node_set b) (mg_node_sets mg)) as [nodes sets]. destruct H as (-> & Hm' & _).
    assert (Hc : bc_coord b < D) by (apply (bi_coord Hin); auto).
    pose proof Hm as (E1 & E2 & E3 & _).
    assert (Hdim : mg_dim mg = 2 \/ mg_dim mg = 3) by (rewrite E2; apply (bi_dim Hin)).
    assert (Hev : forall n, n < N -> bc_eval (mg_dim mg) ref 0%R n (bc_val b) = Ok (value_at mg0 ref 0%R n b)).
    { intros n Hn. rewrite <- (value_same ref n b 0%R Hm). apply (@bc_eval_ok mg N); auto. now rewrite E2. }
    destruct (@node_loop N D (init_velocity mg ref b) (bc_coord b)
        (fun n dv => (fst dv, value_at mg0 ref 0%R n b))
        (fun n _ => value_at mg0 ref 0%R n b) (node_set mg0 (bc_node_set b)) s) as (s' & Es & Hs'); auto.
    - apply (bi_nodup Hin).
    - intros n Hn. apply (bi_nodes Hin) in Hn. auto.
    - intros s1 n Hs1 Hn. unfold init_velocity. rewrite Hev by auto. simpl obind.
      destruct Hs1 as (S1 & S2 & S3).
      rewrite (view_set_ok _ S2) by auto. simpl obind. rewrite (set_all_ok _ S3) by auto. simpl obind.
      eexists. split; [reflexivity|].
      apply (@krel_point N D s1 _ n (bc_coord b) (v_at (k_disp s1) n (bc_coord b))
             (value_at mg0 ref 0%R n b) (Some (value_at mg0 ref 0%R n b))); try (split; auto; fail); simpl; auto; try (split; auto; fail).
      intros n' c'. destruct (Nat.eqb_spec n' n) as [->|]; simpl; auto. destruct (Nat.eqb_spec c' (bc_coord b)) as [->|]; auto.
    - rewrite Es. simpl. exists (with_sets mg sets), s'. split; [reflexivity|split; [exact Hm'|]].
      eapply krel_ext; [| |exact Hs']; intros n c x; unfold init_effect, covers; rewrite Ek;
          destruct ((bc_coord b =? c) && _); auto; destruct x; auto.
  Qed.

  Lemma apply_initial_ok s : kshaped N D s ->
    exists mg' s', apply_initial mg0 ref s = Ok (mg', s') /\ same_mgr mg0 mg' /\
      krel N D (fun n c x => (fst x, fold_left (init_effect mg0 ref n c) (mg_bcs mg0) (snd x)))
               (fun n c x => fold_left (init_effect mg0 ref n c) (mg_bcs mg0) x) s s'.
  Proof.
    intros Hs. unfold apply_initial.
    destruct (@ofold_ind _ _ (fun pre st => same_mgr mg0 (fst st) /\
      krel N D (fun n c x => (fst x, fold_left (init_effect mg0 ref n c) pre (snd x)))
               (fun n c x => fold_left (init_effect mg0 ref n c) pre x) s (snd st))
      (initial_one ref) (mg_bcs mg0) (mg0, s)) as ([mg' s'] & E & H1 & H3).
    - split; [apply same_refl|]. simpl. eapply krel_ext; [| |apply (krel_refl Hs)]; auto. intros n c [d v]. reflexivity.
    - intros pre b post [mg1 s1] El (H1 & H3). simpl in *.
      destruct (@initial_one_ok mg1 s1 b H1 (krel_kshaped H3)) as (mg2 & s2 & E2 & A & K).
      { rewrite El. apply in_or_app. right. now left. }
      exists (mg2, s2). split; auto. simpl. split; auto.
      eapply krel_ext; [| |apply (krel_trans H3 K)]; intros n c x; simpl; now rewrite fold_left_app.
    - exists mg', s'. auto.
  Qed.
End Init.

(** ** Tangent and right-hand side *)
Definition dofs_of (mg : manager) (gids : list nat) (b : bc) : list nat :=
  if constrains b then map (fun n => nth n gids 0 * mg_dim mg + bc_coord b) (node_set mg (bc_node_set b)) else [].
Definition all_dofs (mg : manager) (gids : list nat) : list nat := flat_map (dofs_of mg gids) (mg_bcs mg).

Lemma all_dofs_constrained mg gids i :
  (forall id n, In n (node_set mg id) -> n < length gids) ->
  In i (all_dofs mg gids) <-> constrained mg gids i.
Proof.
  intros Hg. unfold all_dofs, constrained. rewrite in_flat_map. split.
  - intros (b & Hb & Hi). unfold dofs_of in Hi. destruct (constrains b) eqn:Ec; [|destruct Hi].
    apply in_map_iff in Hi as (n & <- & Hn). exists b, n, (nth n gids 0). split; auto. split.
    { unfold constrains in Ec. destruct (bc_kind b); auto; discriminate. }
    split; auto. split; auto. apply nth_error_nth'. eauto.
  - intros (b & n & g & Hb & Hc & Hn & Hng & ->). exists b. split; auto. unfold dofs_of.
    assert (Ec : constrains b = true) by (unfold constrains; destruct Hc as [-> | ->]; reflexivity). rewrite Ec.
    apply in_map_iff. exists n. split; auto. now rewrite (@nth_error_nth_eq _ gids n 0 g Hng).
Qed.

(** the meaning of constraining one index *)
Definition constrain_meaning (diag : R) (D : nat -> nat -> R) (k : nat) : nat -> nat -> R :=
  op_meaning (op_meaning (op_meaning D (OSetRow k 0%R)) (OSetCol k 0%R)) (OWrite k k diag).

Lemma constrain_all diag ks : forall D i j,
  fold_left (constrain_meaning diag) ks D i j =
  if existsb (Nat.eqb i) ks || existsb (Nat.eqb j) ks then (if i =? j then diag else 0%R) else D i j.
Proof.
  induction ks as [|k ks IH] using rev_ind; intros D i j; simpl; auto.
  rewrite fold_left_app. simpl. rewrite !existsb_snoc. unfold constrain_meaning at 1. unfold op_meaning.
  rewrite IH. destruct (Nat.eqb_spec i k) as [->|Hi], (Nat.eqb_spec j k) as [->|Hj]; simpl;
    rewrite ?orb_true_r, ?Nat.eqb_refl; simpl; auto.
  - apply not_eq_sym, Nat.eqb_neq in Hj. now rewrite Hj.
  - apply Nat.eqb_neq in Hi. now rewrite Hi.
  - now rewrite !orb_false_r.
Qed.

Section Tangent.
  Context {M : Type} (call : M -> mat_op R -> outcome M) (rep : M -> (nat -> nat -> R) -> Prop)
          (valid : mat_op R -> Prop).
  Hypothesis Hcall : forall a D o, rep a D -> valid o -> exists a', call a o = Ok a' /\ rep a' (op_meaning D o).

  Lemma constrain_ok diag a D k : rep a D ->
    (forall v, valid (OSetRow k v) /\ valid (OSetCol k v) /\ valid (OWrite k k v)) ->
    exists a', constrain_dof call diag a k = Ok a' /\ rep a' (constrain_meaning diag D k).
  Proof.
    intros Ha Hv. unfold constrain_dof, constrain_meaning.
    destruct (Hcall Ha (proj1 (Hv 0%R))) as (a1 & E1 & H1). rewrite E1. simpl obind.
    destruct (Hcall H1 (proj1 (proj2 (Hv 0%R)))) as (a2 & E2 & H2). rewrite E2. simpl obind.
    destruct (Hcall H2 (proj2 (proj2 (Hv diag)))) as (a3 & E3 & H3). eauto.
  Qed.

  Lemma modify_tangent_ok mg gids diag a D : rep a D ->
    (forall b, In b (mg_bcs mg) -> assoc Z.eqb (bc_node_set b) (mg_node_sets mg) <> None) ->
    (forall id n, In n (node_set mg id) -> n < length gids) ->
    (forall k v, constrained mg gids k -> valid (OSetRow k v) /\ valid (OSetCol k v) /\ valid (OWrite k k v)) ->
    exists a', modify_tangent call mg gids diag a = Ok a' /\
      rep a' (fold_left (constrain_meaning diag) (all_dofs mg gids) D).
  Proof.
    intros Ha Hsets Hg Hv. unfold modify_tangent.
    destruct (@ofold_ind _ _ (fun pre a' => rep a' (fold_left (constrain_meaning diag) (flat_map (dofs_of mg gids) pre) D))
      (fun a b => do nodes <- node_set_at mg (bc_node_set b);
        if constrains b then
          ofold (fun a n => do g <- vget gids n; constrain_dof call diag a (g * mg_dim mg + bc_coord b)) nodes a
        else Ok a) (mg_bcs mg) a) as (a' & E & H); eauto.
    intros pre b post a1 El H1.
    assert (Hb : In b (mg_bcs mg)) by (rewrite El; apply in_or_app; right; now left).
    unfold node_set_at. destruct (assoc Z.eqb (bc_node_set b) (mg_node_sets mg)) as [nodes|] eqn:En.
    2:{ exfalso. now apply (Hsets b). }
    simpl obind. rewrite flat_map_app, fold_left_app. simpl. rewrite app_nil_r.
    assert (Ens : node_set mg (bc_node_set b) = nodes) by (unfold node_set; now rewrite En).
    unfold dofs_of. destruct (constrains b) eqn:Ec; [|eauto]. rewrite Ens.
    destruct (@ofold_ind _ _ (fun pre' a' => rep a' (fold_left (constrain_meaning diag)
        (map (fun n => nth n gids 0 * mg_dim mg + bc_coord b) pre')
        (fold_left (constrain_meaning diag) (flat_map (dofs_of mg gids) pre) D)))
      (fun a n => do g <- vget gids n; constrain_dof call diag a (g * mg_dim mg + bc_coord b)) nodes a1)
      as (a2 & E2 & H2); eauto.
    intros pre' n post' a3 El' H3.
    assert (Hn : In n nodes) by (rewrite El'; apply in_or_app; right; now left).
    assert (Hlt : n < length gids) by (apply (Hg (bc_node_set b)); now rewrite Ens).
    unfold vget. destruct (nth_error gids n) as [g|] eqn:Eg.
    2:{ apply nth_error_None in Eg. lia. }
    simpl obind. rewrite map_app, fold_left_app. simpl. rewrite (@nth_error_nth_eq _ gids n 0 g Eg).
    apply constrain_ok; auto. intros v. apply Hv. exists b, n, g. split; auto.
    split; [unfold constrains in Ec; destruct (bc_kind b); auto; discriminate|]. rewrite Ens. auto.
  Qed.
End Tangent.

Lemma modify_rhs_ok mg gids rhs :
  (forall b, In b (mg_bcs mg) -> assoc Z.eqb (bc_node_set b) (mg_node_sets mg) <> None) ->
  (forall id n, In n (node_set mg id) -> n < length gids) ->
  (forall k, constrained mg gids k -> k < length rhs) ->
  exists rhs', modify_rhs mg gids rhs = Ok rhs' /\ length rhs' = length rhs /\
    (forall k, constrained mg gids k -> nth_error rhs' k = Some 0%R) /\
    (forall k, ~ constrained mg gids k -> nth_error rhs' k = nth_error rhs k).
Proof.
  intros Hsets Hg Hv.
  assert (Hmain : exists rhs', modify_rhs mg gids rhs = Ok rhs' /\ length rhs' = length rhs /\
    forall k, k < length rhs -> nth_error rhs' k = if existsb (Nat.eqb k) (all_dofs mg gids) then Some 0%R else nth_error rhs k).
  { unfold modify_rhs.
    apply (@ofold_ind _ _ (fun pre r => length r = length rhs /\ forall k, k < length rhs ->
       nth_error r k = if existsb (Nat.eqb k) (flat_map (dofs_of mg gids) pre) then Some 0%R else nth_error rhs k)).
    - split; auto.
    - intros pre b post a1 El H1.
      assert (Hb : In b (mg_bcs mg)) by (rewrite El; apply in_or_app; right; now left).
      unfold node_set_at. destruct (assoc Z.eqb (bc_node_set b) (mg_node_sets mg)) as [nodes|] eqn:En.
      2:{ exfalso. now apply (Hsets b). }
      simpl obind. rewrite flat_map_app. simpl. rewrite app_nil_r.
      assert (Ens : node_set mg (bc_node_set b) = nodes) by (unfold node_set; now rewrite En).
      unfold dofs_of at 2. destruct (constrains b) eqn:Ec.
      2:{ exists a1. split; auto. now rewrite app_nil_r. }
      rewrite Ens.
      apply (@ofold_ind _ _ (fun pre' r => length r = length rhs /\ forall k, k < length rhs ->
         nth_error r k = if existsb (Nat.eqb k) (flat_map (dofs_of mg gids) pre ++ map (fun n => nth n gids 0 * mg_dim mg + bc_coord b) pre')
                         then Some 0%R else nth_error rhs k)).
      + simpl. now rewrite app_nil_r.
      + intros pre' n post' a3 El' [Hlen H3].
        assert (Hn : In n nodes) by (rewrite El'; apply in_or_app; right; now left).
        assert (Hlt : n < length gids) by (apply (Hg (bc_node_set b)); now rewrite Ens).
        unfold vget. destruct (nth_error gids n) as [g|] eqn:Eg.
        2:{ apply nth_error_None in Eg. lia. }
        simpl obind. assert (Hk : g * mg_dim mg + bc_coord b < length rhs).
        { apply Hv. exists b, n, g. split; auto.
    split; [unfold constrains in Ec; destruct (bc_kind b); auto; discriminate|]. rewrite Ens. auto. }
        unfold vset. rewrite Hlen.
        replace (g * mg_dim mg + bc_coord b <? length rhs) with true by (symmetry; now apply Nat.ltb_lt).
        eexists. split; [reflexivity|]. rewrite list_set_length. split; auto.
        intros k Hkk. rewrite nth_error_list_set, Hlen.
        replace (g * mg_dim mg + bc_coord b <? length rhs) with true by (symmetry; now apply Nat.ltb_lt).
        rewrite andb_true_r. rewrite map_app. simpl map. rewrite app_assoc, existsb_snoc.
        rewrite (@nth_error_nth_eq _ gids n 0 g Eg). rewrite H3 by auto.
        destruct (k =? g * mg_dim mg + bc_coord b); [now rewrite orb_true_r|now rewrite orb_false_r]. }
  destruct Hmain as (rhs' & E & Hl & H). exists rhs'. split; auto. split; auto. split.
  - intros k Hk. rewrite H by auto. apply (@all_dofs_constrained mg gids k Hg) in Hk. apply existsb_eqb_In in Hk. now rewrite Hk.
  - intros k Hk. destruct (Nat.lt_ge_cases k (length rhs)) as [Hlt|Hge].
    + rewrite H by auto. destruct (existsb (Nat.eqb k) (all_dofs mg gids)) eqn:Ex; auto.
      apply existsb_eqb_In in Ex. apply (@all_dofs_constrained mg gids k Hg) in Ex. contradiction.
    + rewrite !(proj2 (nth_error_None _ _)); auto. lia.
Qed.

(** ** Quasistatic residual *)
Lemma list_nth_ext (l l' : list R) : length l = length l' ->
  (forall k, k < length l -> nth k l 0%R = nth k l' 0%R) -> l = l'.
Proof. intros H1 H2. apply (nth_ext _ _ 0%R 0%R); auto. Qed.

(** sum of the internal forces of the nodes numbered [l] in the linear system *)
Definition gathered (dim : nat) (ls_ids : list nat) (force : view) (nn dd : nat) (k : nat) : R :=
  Rsum nn (fun n => Rsum dd (fun d => if nth n ls_ids 0 * dim + d =? k then v_at force n d else 0%R)).

Lemma assemble_ok dim ls_ids force residual : v_cols force = dim -> length ls_ids = v_nodes force ->
  (forall l, In l ls_ids -> l * dim + dim <= length residual) ->
  exists r, assemble_residual dim ls_ids force residual = Ok r /\ length r = length residual /\
    forall k, k < length residual -> nth k r 0%R = (- gathered dim ls_ids force (v_nodes force) dim k)%R.
Proof.
  intros Hd Hl Hb. unfold assemble_residual. set (N := v_nodes force) in *.
  apply (@oloop_ind _ (fun n r => length r = length residual /\ forall k, k < length residual ->
     nth k r 0%R = (- gathered dim ls_ids force n dim k)%R)); [lia| |].
  - split; [apply map_length|]. intros k Hk. unfold gathered. simpl.
    rewrite (@nth_error_nth_eq _ _ k 0%R 0%R); [ring|]. rewrite nth_error_map.
    destruct (nth_error residual k) eqn:E; auto. apply nth_error_None in E. lia.
  - intros n r Hn [Hlen Hr].
    assert (Hin : In (nth n ls_ids 0) ls_ids) by (apply nth_In; lia).
    destruct (@oloop_ind _ (fun dof r' => length r' = length residual /\ forall k, k < length residual ->
      nth k r' 0%R = (nth k r 0 - Rsum dof (fun d => if (nth n ls_ids 0 * dim + d =? k)%nat then v_at force n d else 0))%R)
      0 dim (fun dof r => do l <- vget ls_ids n; do old <- vget r (l * dim + dof);
         do f <- view_get force n dof; vset r (l * dim + dof) (old + (-1) * f)%R) r) as (r2 & E2 & Hl2 & H2); [lia| | |].
    + split; auto. intros k Hk. simpl. ring.
    + intros dof r1 Hdof [Hl1 H1]. unfold vget at 1.
      rewrite (@nth_error_nth' _ ls_ids n 0) by lia. simpl obind.
      specialize (Hb _ Hin). assert (Hidx : nth n ls_ids 0 * dim + dof < length residual) by lia.
      unfold vget. rewrite (@nth_error_nth' _ r1 _ 0%R) by lia. simpl obind.
      rewrite (@view_get_ok N dim) by (auto; try lia; split; auto). simpl obind.
      unfold vset. rewrite Hl1.
      replace (nth n ls_ids 0 * dim + dof <? length residual) with true by (symmetry; now apply Nat.ltb_lt).
      eexists. split; [reflexivity|]. split; [now rewrite list_set_length|].
      intros k Hk. rewrite nth_list_set, Hl1.
      replace (nth n ls_ids 0 * dim + dof <? length residual) with true by (symmetry; now apply Nat.ltb_lt).
      rewrite andb_true_r. simpl Rsum. rewrite (Nat.eqb_sym k).
      destruct (Nat.eqb_spec (nth n ls_ids 0 * dim + dof) k) as [<-|].
      * rewrite H1 by auto. ring.
      * rewrite H1 by auto. ring.
    + exists r2. split; auto. split; auto. intros k Hk. rewrite H2, Hr by auto. unfold gathered. simpl. ring.
Qed.

Local Open Scope R_scope.
Lemma linf_nonneg n v : 0 <= linf n v /\ forall i, (i < n)%nat -> Rabs (v i) <= linf n v.
Proof.
  unfold linf. apply (@floop_ind _ (fun k m => 0 <= m /\ forall i, (i < k)%nat -> Rabs (v i) <= m)); [lia| |].
  - split; [lra|intros; lia].
  - intros k m Hk [H1 H2]. split.
    + eapply Rle_trans; [exact H1|apply Rmax_l].
    + intros i Hi. destruct (Nat.eq_dec i k) as [->|]; [apply Rmax_r|].
      eapply Rle_trans; [apply H2; lia|apply Rmax_l].
Qed.
Lemma linf_zero n v : (forall i, (i < n)%nat -> v i = 0) -> linf n v = 0.
Proof.
  intros H. unfold linf. apply (@floop_ind _ (fun k m => m = 0)); [lia|auto|].
  intros k m Hk ->. rewrite H by lia. rewrite Rabs_R0. now apply Rmax_left, Rle_refl.
Qed.

Lemma residual_measure_zero n r : residual_measure n r = 0 <-> forall i, (i < n)%nat -> nth i r 0 = 0.
Proof.
  unfold residual_measure. set (v := fun i => nth i r 0). destruct (linf_nonneg n v) as [H1 H2].
  pose proof (sqrt_pos (inner n v v)). split.
  - intros E i Hi. assert (Hl : linf n v = 0) by lra. specialize (H2 i Hi). rewrite Hl in H2.
    pose proof (Rabs_pos (v i)). destruct (Req_dec (v i) 0) as [|Hne]; auto.
    apply Rabs_pos_lt in Hne. fold (v i). lra.
  - intros E. rewrite (@linf_zero n v) by auto. rewrite inner_dot. unfold dot.
    rewrite Rsum_zero, sqrt_0; [ring|]. intros k Hk. unfold v. rewrite E by auto. ring.
Qed.
