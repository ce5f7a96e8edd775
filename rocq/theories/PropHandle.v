(** C81: handles of shared arrays (View): copies share one array, which lives exactly as long as some
    variable holds it. *)
From Coq Require Import Reals Permutation.
From Verif Require Import Base ViewModel.
Set Implicit Arguments.
Local Open Scope Z_scope.

(** * What a program with handles means: variables name objects, objects are never freed.
    [None]: no such variable; [Some None]: it was moved from; [Some (Some (object, entries))]. *)
Record sstate := SState { s_vars : list (option (option (nat * Z))); s_mem : nat -> Z -> Z -> R; s_next : nat; s_read : list R }.
Section Spec.
  Variable comps : Z.
  Variable junk : nat -> Z -> R.
  Definition slot (s : sstate) (x : nat) (o : option (option (nat * Z))) : Prop := nth_error (s_vars s) x = Some o.
  Definition with_var (s : sstate) (x : nat) (o : option (option (nat * Z))) : sstate := SState (list_set (s_vars s) x o) (s_mem s) (s_next s) (s_read s).
  Inductive means : vop -> sstate -> sstate -> Prop :=
  | m_new s x n : slot s x None -> 0 <= n -> n * comps < 2 ^ 31 ->
      means (New x n) s (SState (list_set (s_vars s) x (Some (Some (s_next s, n))))
                                (fun o i c => if Nat.eqb o (s_next s) then junk o (i * comps + c) else s_mem s o i c) (S (s_next s)) (s_read s))
  | m_copy s x y r : slot s x None -> slot s y (Some r) -> means (CopyOf x y) s (with_var s x (Some r))
  | m_move s x y r : slot s x None -> slot s y (Some r) -> means (MoveOf x y) s (with_var (with_var s y (Some None)) x (Some r))
  | m_assign s x y old r : slot s x (Some old) -> slot s y (Some r) -> means (Assign x y) s (with_var s x (Some r))
  | m_destroy s x old : slot s x (Some old) -> means (Destroy x) s (with_var s x None)
  | m_get s x i c o n : slot s x (Some (Some (o, n))) -> 0 <= i < n -> 0 <= c < comps ->
      means (Get x i c) s (SState (s_vars s) (s_mem s) (s_next s) (s_read s ++ [s_mem s o i c]))
  | m_set s x i c u o n : slot s x (Some (Some (o, n))) -> 0 <= i < n -> 0 <= c < comps ->
      means (Set_ x i c u) s (SState (s_vars s) (fun o' i' c' => if Nat.eqb o' o && Z.eqb i' i && Z.eqb c' c then u else s_mem s o' i' c') (s_next s) (s_read s)).
  Inductive means_all : list vop -> sstate -> sstate -> Prop :=
  | ma_nil s : means_all [] s s
  | ma_cons o ops s s1 s2 : means o s s1 -> means_all ops s1 s2 -> means_all (o :: ops) s s2.
  Definition sinit (slots : nat) : sstate := SState (repeat None slots) (fun _ _ _ => 0%R) 0 [].
  Definition held (s : sstate) (o : nat) (n : Z) : Prop := exists x, slot s x (Some (Some (o, n))).
End Spec.

(** * lemmas *)
Local Arguments Nat.eq_dec : simpl never.
Definition own (v : handle) : list handle := if h_owns v then [v] else [].
Definition contrib (o : option handle) : list handle := match o with Some v => own v | None => [] end.
Definition owners (vars : list (option handle)) : list handle := flat_map contrib vars.
Lemma owners_set : forall vars x o old, nth_error vars x = Some old -> Permutation (contrib old ++ owners (list_set vars x o)) (contrib o ++ owners vars).
Proof.
  induction vars as [|a vars IH]; intros [|x] o old H; try discriminate; cbn in H.
  - injection H as ->. cbn. apply Permutation_app_swap_app.
  - cbn [list_set owners flat_map]. fold (owners (list_set vars x o)). fold (owners vars).
    etransitivity; [apply Permutation_app_swap_app|]. etransitivity; [apply Permutation_app_head, (IH x o old H)|]. apply Permutation_app_swap_app.
Qed.
Lemma owners_in vars v : In v (owners vars) <-> h_owns v = true /\ exists x, nth_error vars x = Some (Some v).
Proof.
  unfold owners. rewrite in_flat_map. split.
  - intros (o & Ho & Hv). destruct o as [w|]; [|destruct Hv]. cbn in Hv. unfold own in Hv. destruct (h_owns w) eqn:E; [|destruct Hv].
    destruct Hv as [->|[]]. split; auto. apply In_nth_error in Ho. exact Ho.
  - intros (E & x & H). exists (Some v). split; [eapply nth_error_In; eauto|]. cbn. unfold own. rewrite E. now left.
Qed.

Section Proofs.
  Variable comps : Z.
  Hypothesis Hc : 0 < comps.
  Variable junk : nat -> Z -> R.

  Definition block (mem : nat -> Z -> Z -> R) (v : handle) (z : Z) : option R :=
    if (0 <=? z) && (z <? h_num v * comps) then Some (mem (h_raw v) (z / comps) (z mod comps)) else None.
  Record pool_ok (pool : list handle) (h : heap) (refs : nat -> nat) (next : nat) (mem : nat -> Z -> Z -> R) : Prop := {
    po_cnt : forall a, refs a = count_occ Nat.eq_dec (map h_raw pool) a;
    po_mem : forall v, In v pool -> 0 <= h_num v /\ forall z, h (h_raw v) z = block mem v z;
    po_dead : forall a, ~ In a (map h_raw pool) -> forall z, h a z = None;
    po_low : forall v, In v pool -> (h_raw v < next)%nat }.
  Lemma pool_perm p q h r n m : Permutation p q -> pool_ok p h r n m -> pool_ok q h r n m.
  Proof.
    intros P [A B C D]. pose proof (Permutation_map h_raw P) as P'. split.
    - intros a. rewrite A. revert a. now apply (Permutation_count_occ Nat.eq_dec).
    - intros v Hv. apply B. eapply Permutation_in; [symmetry; exact P|exact Hv].
    - intros a Ha. apply C. intros H. apply Ha. eapply Permutation_in; eauto.
    - intros v Hv. apply D. eapply Permutation_in; [symmetry; exact P|exact Hv].
  Qed.
  Definition ok (pool : list handle) (s : vstate) (mem : nat -> Z -> Z -> R) : Prop := pool_ok pool (vs_heap s) (vs_refs s) (vs_next s) mem.
  Lemma acquire_ok pool v s mem : (h_owns v = true -> In v pool) -> ok pool s mem -> ok (own v ++ pool) (acquire v s) mem.
  Proof.
    intros Hv [A B C D]. unfold own, acquire, ok. destruct (h_owns v) eqn:E; [|now split]. specialize (Hv eq_refl). cbn. split; cbn.
    - intros a. unfold refs_set. destruct (Nat.eq_dec (h_raw v) a) as [->|N].
      + rewrite Nat.eqb_refl. now rewrite A.
      + replace (Nat.eqb a (h_raw v)) with false by (symmetry; apply Nat.eqb_neq; auto). apply A.
    - intros w [<-|Hw]; auto.
    - intros a Ha. apply C. tauto.
    - intros w [<-|Hw]; auto.
  Qed.
  Lemma release_ok pool v s mem : ok (own v ++ pool) s mem -> ok pool (release v s) mem.
  Proof.
    unfold own, release, ok. destruct (h_owns v) eqn:E; [|now cbn]. intros [A B C D]. cbn in *.
    pose proof (A (h_raw v)) as Av. destruct (Nat.eq_dec (h_raw v) (h_raw v)) as [_|]; [|congruence].
    destruct (vs_refs s (h_raw v)) as [|[|n]] eqn:Er; [lia| |].
    - injection Av as Av. symmetry in Av. apply count_occ_not_In in Av. split; cbn.
      + intros a. unfold refs_set. destruct (Nat.eqb_spec a (h_raw v)) as [->|N]; [symmetry; now apply count_occ_not_In|].
        rewrite A. destruct (Nat.eq_dec (h_raw v) a); congruence.
      + intros w Hw. destruct (B w (or_intror Hw)) as (B1 & B2). split; auto. intros z.
        replace (Nat.eqb (h_raw w) (h_raw v)) with false; auto. symmetry. apply Nat.eqb_neq. intros C'. apply Av. rewrite <- C'. now apply in_map.
      + intros a Ha z. destruct (Nat.eqb_spec a (h_raw v)) as [->|N]; auto. apply C. intros [C'|C']; auto.
      + auto.
    - injection Av as Av. split; cbn.
      + intros a. unfold refs_set. destruct (Nat.eqb_spec a (h_raw v)) as [->|N]; auto.
        rewrite A. destruct (Nat.eq_dec (h_raw v) a); congruence.
      + auto.
      + intros a Ha z. apply C. intros [<-|C']; auto. apply Ha. apply (count_occ_In Nat.eq_dec). lia.
      + auto.
  Qed.

  Definition abs (o : option handle) : option (option (nat * Z)) := match o with None => None | Some v => Some (if h_owns v then Some (h_raw v, h_num v) else None) end.
  Definition R_ (s : vstate) (t : sstate) : Prop :=
    s_vars t = map abs (vs_vars s) /\ s_next t = vs_next s /\ s_read t = vs_read s /\ ok (owners (vs_vars s)) s (s_mem t).
  Lemma slot_var s t x r : R_ s t -> slot t x (Some r) -> exists v, nth_error (vs_vars s) x = Some (Some v) /\ var s x = Some v /\ r = (if h_owns v then Some (h_raw v, h_num v) else None).
  Proof.
    intros (E & _) H. unfold slot in H. rewrite E, nth_error_map in H. unfold var. destruct (nth_error (vs_vars s) x) as [[v|]|]; try discriminate.
    cbn in H. injection H as <-. eauto.
  Qed.
  Lemma slot_none s t x : R_ s t -> slot t x None -> nth_error (vs_vars s) x = Some None /\ var s x = None /\ in_slot x s = true.
  Proof.
    intros (E & _) H. unfold slot in H. rewrite E, nth_error_map in H. unfold var, in_slot. destruct (nth_error (vs_vars s) x) as [[v|]|] eqn:En; try discriminate.
    split; auto. split; auto. apply Nat.ltb_lt. apply nth_error_Some. congruence.
  Qed.
  Lemma map_set A B (f : A -> B) l x a : map f (list_set l x a) = list_set (map f l) x (f a).
  Proof. revert x. induction l as [|b l IH]; intros [|x]; cbn; auto. now rewrite IH. Qed.
  Lemma owner_in s x v : nth_error (vs_vars s) x = Some (Some v) -> h_owns v = true -> In v (owners (vs_vars s)).
  Proof. intros. apply owners_in. eauto. Qed.
  Lemma acq_vars v s : vs_vars (acquire v s) = vs_vars s /\ vs_next (acquire v s) = vs_next s /\ vs_read (acquire v s) = vs_read s.
  Proof. unfold acquire. destruct (h_owns v); auto. Qed.
  Lemma rel_vars v s : vs_vars (release v s) = vs_vars s /\ vs_next (release v s) = vs_next s /\ vs_read (release v s) = vs_read s.
  Proof. unfold release. destruct (h_owns v); auto. destruct (vs_refs s (h_raw v)) as [|[|n]]; auto. Qed.
  Lemma cell_div i c : 0 <= c < comps -> (i * comps + c) / comps = i /\ (i * comps + c) mod comps = c.
  Proof.
    intros H. split.
    - rewrite Z.div_add_l by lia. rewrite Z.div_small by lia. lia.
    - rewrite Z.add_comm, Z.mod_add by lia. now apply Z.mod_small.
  Qed.

  Lemma step_ok o s t t' : R_ s t -> means comps junk o t t' -> exists s', vstep comps junk o s = Ok s' /\ R_ s' t'.
  Proof.
    intros HR H. pose proof HR as (Ev & En & Er & Hok). inversion H; subst; clear H.
    - (* New *) destruct (slot_none HR H0) as (E1 & E2 & E3). cbn [vstep]. rewrite E2, E3. cbn [negb].
      unfold int_mul. assert (0 <= n * comps) by nia. replace (- 2 ^ 31 <=? n * comps) with true by lia. replace (n * comps <? 2 ^ 31) with true by lia. cbn [andb obind].
      replace (n * comps <? 0) with false by lia. eexists. split; [reflexivity|]. unfold R_, bind_var. cbn. rewrite map_set, <- Ev, <- En. cbn. split; auto. split; auto. split; auto.
      destruct Hok as [A B C D]. eapply pool_perm.
      { symmetry. exact (@owners_set (vs_vars s) x (Some (Handle n true (s_next t))) None E1). }
      cbn. rewrite <- En in *. split; cbn.
      + intros a. unfold refs_set. destruct (Nat.eq_dec (s_next t) a) as [<-|N].
        * rewrite Nat.eqb_refl. f_equal. symmetry. apply count_occ_not_In. intros I. apply in_map_iff in I. destruct I as (v & Hv & Iv). apply D in Iv. lia.
        * replace (Nat.eqb a (s_next t)) with false by (symmetry; apply Nat.eqb_neq; auto). apply A.
      + intros v [<-|Hv].
        * cbn. split; auto. intros z. rewrite Nat.eqb_refl. unfold block. cbn. rewrite Nat.eqb_refl.
          destruct ((0 <=? z) && (z <? n * comps)); auto. f_equal. f_equal. rewrite Z.mul_comm. apply Z.div_mod. lia.
        * destruct (B v Hv) as (B1 & B2). split; auto. intros z. pose proof (D v Hv). unfold block.
          replace (Nat.eqb (h_raw v) (s_next t)) with false by (symmetry; apply Nat.eqb_neq; lia). apply B2.
      + intros a Ha z. destruct (Nat.eqb_spec a (s_next t)) as [->|N]; [exfalso; tauto|]. apply C. tauto.
      + intros v [<-|Hv]; cbn; [lia|]. pose proof (D v Hv). lia.
    - (* CopyOf *) destruct (slot_none HR H0) as (E1 & E2 & E3). destruct (slot_var HR H1) as (v & F1 & F2 & ->). cbn [vstep]. rewrite E2, F2, E3.
      eexists. split; [reflexivity|]. unfold R_, bind_var, with_var. cbn. destruct (acq_vars v s) as (V1 & V2 & V3). rewrite V1, V2, V3. rewrite map_set, <- Ev. split; auto. split; auto. split; auto.
      eapply pool_perm; [symmetry; exact (@owners_set (vs_vars s) x (Some v) None E1)|]. cbn. rewrite <- V2. apply (acquire_ok v); auto. intros; eapply owner_in; eauto.
    - (* MoveOf *) destruct (slot_none HR H0) as (E1 & E2 & E3). destruct (slot_var HR H1) as (v & F1 & F2 & ->). cbn [vstep]. rewrite E2, F2, E3.
      eexists. split; [reflexivity|]. unfold R_, bind_var, with_var. cbn. rewrite !map_set, <- Ev. cbn. split; auto. split; auto. split; auto.
      assert (Nxy : x <> y) by congruence.
      set (w := Some (Handle (h_num v) false (h_raw v))).
      assert (G1 : nth_error (list_set (vs_vars s) y w) x = Some None).
      { rewrite nth_error_list_set. destruct (Nat.eqb_spec x y); [congruence|]. auto. }
      eapply pool_perm; [|exact Hok]. symmetry.
      etransitivity; [exact (@owners_set (list_set (vs_vars s) y w) x (Some v) None G1)|]. cbn [contrib].
      exact (@owners_set (vs_vars s) y w (Some v) F1).
    - (* Assign *) destruct (slot_var HR H0) as (u & E1 & E2 & ->). destruct (slot_var HR H1) as (v & F1 & F2 & ->). cbn [vstep]. rewrite E2, F2.
      eexists. split; [reflexivity|]. unfold R_, with_var. destruct (rel_vars u (bind_var x (Some v) (acquire v s))) as (V1 & V2 & V3).
      rewrite V1, V2, V3. unfold bind_var at 1 2 3. cbn [vs_vars vs_next vs_read s_vars s_next s_read s_mem]. destruct (acq_vars v s) as (W1 & W2 & W3). rewrite W1, W2, W3.
      rewrite map_set, <- Ev. split; auto. split; auto. split; auto.
      apply release_ok. unfold bind_var. cbn. rewrite ?W1.
      eapply pool_perm; [symmetry; exact (@owners_set (vs_vars s) x (Some v) (Some u) E1)|]. cbn [contrib]. unfold ok. cbn. apply (acquire_ok v); auto. intros; eapply owner_in; eauto.
    - (* Destroy *) destruct (slot_var HR H0) as (u & E1 & E2 & ->). cbn [vstep]. rewrite E2.
      eexists. split; [reflexivity|]. unfold R_, with_var. destruct (rel_vars u (bind_var x None s)) as (V1 & V2 & V3).
      rewrite V1, V2, V3. unfold bind_var at 1 2 3. cbn [vs_vars vs_next vs_read s_vars s_next s_read s_mem]. rewrite map_set, <- Ev. split; auto. split; auto. split; auto.
      apply release_ok. unfold ok, bind_var. cbn.
      eapply pool_perm; [symmetry; exact (@owners_set (vs_vars s) x None (Some u) E1)|]. exact Hok.
    - (* Get *) destruct (slot_var HR H0) as (v & E1 & E2 & E3). cbn [vstep]. rewrite E2.
      destruct (h_owns v) eqn:Eo; [|discriminate]. injection E3 as -> ->.
      destruct (po_mem Hok v (@owner_in s x v E1 Eo)) as (_ & B). unfold load. cbn [p_alloc p_off]. rewrite Z.add_0_l, B. unfold block.
      assert (0 <= i * comps + c < h_num v * comps) by nia. replace (0 <=? i * comps + c) with true by lia. replace (i * comps + c <? h_num v * comps) with true by lia. cbn [andb obind].
      destruct (@cell_div i c H2) as (-> & ->). eexists. split; [reflexivity|]. unfold R_. cbn. rewrite <- Er. auto.
    - (* Set *) destruct (slot_var HR H0) as (v & E1 & E2 & E3). cbn [vstep]. rewrite E2.
      destruct (h_owns v) eqn:Eo; [|discriminate]. injection E3 as -> ->.
      destruct (po_mem Hok v (@owner_in s x v E1 Eo)) as (_ & B). unfold store. cbn [p_alloc p_off]. rewrite Z.add_0_l, B. unfold block.
      assert (0 <= i * comps + c < h_num v * comps) by nia. replace (0 <=? i * comps + c) with true by lia. replace (i * comps + c <? h_num v * comps) with true by lia. cbn [andb obind].
      eexists. split; [reflexivity|]. unfold R_. cbn. split; auto. split; auto. split; auto.
      assert (Kn : vs_heap s (h_raw v) (i * comps + c) <> None).
      { rewrite B. unfold block. replace (0 <=? i * comps + c) with true by lia. replace (i * comps + c <? h_num v * comps) with true by lia. discriminate. }
      destruct Hok as [A B' C D]. split; auto.
      + intros w Hw. destruct (B' w Hw) as (B1 & B2). split; auto. intros z. cbn [vs_heap]. unfold update, block.
        destruct (Nat.eqb_spec (h_raw w) (h_raw v)) as [Ew|Nw]; cbn [andb]; [|apply B2].
        destruct (Z.eqb_spec z (i * comps + c)) as [->|Nz].
        * rewrite <- Ew, B2 in Kn. unfold block in Kn. destruct ((0 <=? i * comps + c) && (i * comps + c <? h_num w * comps)); [|congruence].
          destruct (@cell_div i c H2) as (-> & ->). now rewrite !Z.eqb_refl.
        * rewrite B2. unfold block. destruct ((0 <=? z) && (z <? h_num w * comps)); auto. f_equal.
          destruct (Z.eqb_spec (z / comps) i) as [Ei|]; cbn [andb]; auto. destruct (Z.eqb_spec (z mod comps) c) as [Ec|]; auto. exfalso. apply Nz.
          rewrite <- Ei, <- Ec, (Z.mul_comm _ comps). apply Z.div_mod. lia.
      + intros a Ha z. cbn [vs_heap]. unfold update. destruct (Nat.eqb_spec a (h_raw v)) as [->|]; cbn [andb]; [|now apply C].
        exfalso. apply Ha. apply in_map. eapply owner_in; eauto.
  Qed.
  Lemma run_ok ops : forall s t t', R_ s t -> means_all comps junk ops t t' -> exists s', vrun comps junk ops s = Ok s' /\ R_ s' t'.
  Proof.
    induction ops as [|o ops IH]; intros s t t' HR H.
    - inversion H; subst. exists s. split; auto.
    - assert (G : exists t1, means comps junk o t t1 /\ means_all comps junk ops t1 t') by (inversion H; subst; eauto).
      destruct G as (t1 & G1 & G2). destruct (step_ok HR G1) as (s1 & E & R1). destruct (IH s1 t1 t' R1 G2) as (s' & E' & R').
      exists s'. split; auto. unfold vrun. cbn [ofold]. rewrite E. exact E'.
  Qed.
  Lemma init_ok slots : R_ (vinit slots) (sinit slots).
  Proof.
    assert (E : owners (repeat None slots) = []) by (induction slots; auto).
    split; [cbn; clear; induction slots as [|k IH]; cbn; f_equal; auto|]. split; [reflexivity|]. split; [reflexivity|].
    unfold ok. change (vs_vars (vinit slots)) with (repeat (@None handle) slots). rewrite E. split; cbn; auto; intros v [].
  Qed.
End Proofs.

(** * C81 *)
(** A program that declares, copies, moves, assigns and destroys handles and reads and writes entries
    through them, using moved-from handles only to be assigned to, copied, moved or destroyed and indices in
    range only, runs without error and reads exactly what it would if variables named objects; at the
    end (and so at every moment) the memory of an object is there, all of it, exactly if some variable
    holds it. *)
Theorem C81_handles :
  forall comps junk slots ops t, 0 < comps -> means_all comps junk ops (sinit slots) t ->
  exists s, vrun comps junk ops (vinit slots) = Ok s /\ vs_read s = s_read t /\
    (forall o n, held t o n -> forall z, vs_heap s o z <> None <-> 0 <= z < n * comps) /\
    (forall o, (forall n, ~ held t o n) -> forall z, vs_heap s o z = None).
Proof.
  intros comps junk slots ops t Hc H. destruct (@run_ok comps Hc junk ops _ _ _ (init_ok comps slots) H) as (s & E & HR).
  exists s. split; auto. pose proof HR as (Ev & _ & Er & Hok). split; auto. split.
  - intros o n (x & Hx) z. destruct (slot_var HR Hx) as (v & V1 & _ & V3). destruct (h_owns v) eqn:Eo; [|discriminate]. injection V3 as -> ->.
    destruct (po_mem Hok v (@owner_in s x v V1 Eo)) as (_ & B). rewrite B. unfold block.
    destruct ((0 <=? z) && (z <? h_num v * comps)) eqn:Eb; split; intros K; try congruence; try lia.
  - intros o Hn z. apply (po_dead Hok). intros I. apply in_map_iff in I. destruct I as (v & Hv & Iv). apply owners_in in Iv. destruct Iv as (Eo & x & Hx).
    apply (Hn (h_num v)). exists x. unfold slot. rewrite Ev, nth_error_map, Hx. cbn. rewrite Eo, Hv. reflexivity.
Qed.
Print Assumptions C81_handles.

(** The shape a handle reports; a negative number of entries throws and changes nothing. *)
Theorem C81_shape :
  forall comps junk s x n, nth_error (vs_vars s) x = Some None -> - 2 ^ 31 <= n * comps < 2 ^ 31 -> 0 < comps ->
  (n < 0 -> vstep comps junk (New x n) s = Throw) /\
  (0 <= n -> exists s' v, vstep comps junk (New x n) s = Ok s' /\ var s' x = Some v /\
     view_rank comps = (if comps =? 1 then 1 else 2) /\ view_extent comps v 0 = n /\ view_extent comps v 1 = comps /\ forall d, 2 <= d -> view_extent comps v d = 1).
Proof.
  intros comps junk s x n Hx Hn Hc. assert (Is : in_slot x s = true) by (unfold in_slot; apply Nat.ltb_lt; apply nth_error_Some; congruence).
  assert (Iv : var s x = None) by (unfold var; now rewrite Hx).
  cbn [vstep]. rewrite Iv, Is. cbn [negb]. unfold int_mul. replace (- 2 ^ 31 <=? n * comps) with true by lia. replace (n * comps <? 2 ^ 31) with true by lia. cbn [andb obind]. split; intros H.
  - replace (n * comps <? 0) with true by nia. reflexivity.
  - replace (n * comps <? 0) with false by nia. eexists. eexists. split; [reflexivity|]. unfold var, bind_var. cbn.
    rewrite nth_error_list_set, Nat.eqb_refl. unfold in_slot in Is. rewrite Is. split; [reflexivity|]. split; auto. split; auto. split; auto.
    intros d Hd. unfold view_extent. replace (d =? 0) with false by lia. replace (d =? 1) with false by lia. reflexivity.
Qed.
Print Assumptions C81_shape.

(** A moved-from handle keeps its raw pointer: it still reads the array as long as it lives, and freed
    memory afterwards. *)
Theorem C81_moved_from_refuted :
  forall comps junk, 0 < comps < 10 ->
  let before := [New 0 1; MoveOf 1 0; Set_ 1 0 0 7%R; Get 0 0 0] in
  (exists s, vrun comps junk before (vinit 2) = Ok s /\ vs_read s = [7%R]) /\
  vrun comps junk (before ++ [Destroy 1; Get 0 0 0]) (vinit 2) = UB.
Proof.
  intros comps junk Hc before. assert (C : comps = 1 \/ comps = 2 \/ comps = 3 \/ comps = 4 \/ comps = 5 \/ comps = 6 \/ comps = 7 \/ comps = 8 \/ comps = 9) by lia.
  repeat (destruct C as [->|C]; [split; [eexists; split; reflexivity|reflexivity]|]). subst. split; [eexists; split; reflexivity|reflexivity].
Qed.
Print Assumptions C81_moved_from_refuted.

(** A case: two handles of one vector field; the array outlives the first. *)
Example C81_example :
  exists t, means_all 3 (fun _ _ => 0%R) [New 0 2; CopyOf 1 0; Set_ 0 1 2 5%R; Destroy 0; Get 1 1 2; New 0 1; Assign 1 0] (sinit 2) t /\ s_read t = [5%R] /\
    ~ (exists n, held t 0 n) /\ held t 1 1.
Proof.
  eexists. split; [|split; [|split]].
  - eapply ma_cons; [eapply m_new; [reflexivity|lia|lia]|]. eapply ma_cons; [eapply m_copy; [reflexivity|reflexivity]|].
    eapply ma_cons; [eapply m_set; [reflexivity|lia|lia]|]. eapply ma_cons; [eapply m_destroy; reflexivity|].
    eapply ma_cons; [eapply m_get; [reflexivity|lia|lia]|]. eapply ma_cons; [eapply m_new; [reflexivity|lia|lia]|].
    eapply ma_cons; [eapply m_assign; reflexivity|]. apply ma_nil.
  - reflexivity.
  - intros (n & [|[|x]] & Hx); unfold slot in Hx; cbn in Hx; try discriminate. destruct x; discriminate.
  - exists 0%nat. reflexivity.
Qed.
