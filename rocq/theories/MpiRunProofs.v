(** Proofs about the run time of the reduction, for every schedule. *)
From Verif Require Import Base ListLemmas MpiSpec MpiModel MpiCliqueProofs MpiSetupProofs.
From Coq Require Import Permutation Sorted.
Local Open Scope nat_scope.

(** ** Blocks of fs cells *)
Lemma nth_error_blocks {A} (fs : nat) (f : nat -> nat -> A) (l : list nat) p j :
  j < fs ->
  nth_error (flat_map (fun i => map (f i) (seq 0 fs)) l) (p * fs + j) =
  match nth_error l p with Some i => Some (f i j) | None => None end.
Proof.
  intros Hj. revert p; induction l as [|i l IH]; intros p; simpl.
  - destruct (p * fs + j); destruct p; reflexivity.
  - destruct p as [|p]; simpl.
    + rewrite nth_error_app1 by (rewrite map_length, seq_length; auto).
      rewrite nth_error_map, nth_error_seq.
      destruct (Nat.ltb_spec j fs); [reflexivity|lia].
    + rewrite nth_error_app2 by (rewrite map_length, seq_length; lia).
      rewrite map_length, seq_length. replace (fs + p * fs + j - fs) with (p * fs + j) by lia.
      apply IH.
Qed.

Lemma blocks_length {A} (fs : nat) (f : nat -> nat -> A) (l : list nat) :
  length (flat_map (fun i => map (f i) (seq 0 fs)) l) = length l * fs.
Proof.
  induction l as [|i l IH]; simpl; auto.
  rewrite app_length, map_length, seq_length, IH. reflexivity.
Qed.

Lemma cells_In fs l x : In x (cells fs l) <-> exists i j, In i l /\ j < fs /\ x = i * fs + j.
Proof.
  unfold cells. rewrite in_flat_map. split.
  - intros (i & Hi & Hx). apply in_map_iff in Hx as (j & <- & Hj). apply in_seq in Hj.
    exists i, j. repeat split; auto. lia.
  - intros (i & j & Hi & Hj & ->). exists i. split; auto.
    apply in_map_iff. exists j. split; auto. apply in_seq. lia.
Qed.

Lemma cell_inj fs i j i' j' : j < fs -> j' < fs -> i * fs + j = i' * fs + j' -> i = i' /\ j = j'.
Proof.
  intros H1 H2 E. assert (i = i'); [|subst; lia].
  destruct (Nat.lt_trichotomy i i') as [Hl|[Hl|Hl]]; auto; exfalso.
  - assert (S i * fs <= i' * fs) by (apply Nat.mul_le_mono_r; lia). simpl in *. lia.
  - assert (S i' * fs <= i * fs) by (apply Nat.mul_le_mono_r; lia). simpl in *. lia.
Qed.

Lemma cells_NoDup fs l : NoDup l -> NoDup (cells fs l).
Proof.
  unfold cells. induction 1 as [|i l Hi Hn IH]; simpl; [constructor|].
  apply NoDup_app_inv. repeat split; auto.
  - apply FinFun.Injective_map_NoDup; [intros a b; lia|apply seq_NoDup].
  - intros x Hx Hx'. apply in_map_iff in Hx as (j & <- & Hj). apply in_seq in Hj.
    apply (cells_In fs l) in Hx' as (i' & j' & Hi' & Hj' & E).
    apply cell_inj in E as [-> _]; [auto|lia|auto].
Qed.

  Lemma index_of_nth l i : NoDup l -> i < length l -> index_of (nth i l 0%Z) l = Some i.
  Proof.
    intros Hn. revert i; induction Hn as [|x l Hx Hn IH]; intros i Hi; simpl in *; [lia|].
    destruct i as [|i]; [now rewrite Z.eqb_refl|].
    destruct (Z.eqb_spec (nth i l 0%Z) x) as [e|e].
    - exfalso. apply Hx. rewrite <- e. apply nth_In. lia.
    - rewrite IH by lia. reflexivity.
  Qed.

  Lemma index_of_Some l g i : index_of g l = Some i -> i < length l /\ nth i l 0%Z = g.
  Proof.
    revert i; induction l as [|x l IH]; intros i; simpl; [discriminate|].
    destruct (Z.eqb_spec g x) as [->|e].
    - intros [= <-]. split; [lia|auto].
    - destruct (index_of g l) as [k|] eqn:E; simpl; [|discriminate].
      intros [= <-]. destruct (IH k eq_refl). split; [lia|auto].
  Qed.

  Lemma index_of_None l g : index_of g l = None -> ~ In g l.
  Proof.
    induction l as [|x l IH]; simpl; auto.
    destruct (Z.eqb_spec g x) as [->|e]; [discriminate|].
    destruct (index_of g l); simpl; [discriminate|]. intros _ [?|?]; [congruence|]. now apply IH.
  Qed.


Section Runs.
  Context {T : Type}.
  Variable allreduce : list T -> T.

  Lemma unpack_cells_ok addrs : forall (buf : list T) m,
    NoDup addrs -> length addrs = length buf ->
    exists m', unpack_cells addrs buf m = Ok m' /\
      (forall k a v, nth_error addrs k = Some a -> nth_error buf k = Some v -> m' a = v) /\
      (forall x, ~ In x addrs -> m' x = m x).
  Proof.
    induction addrs as [|a addrs IH]; intros buf m Hn Hl; destruct buf as [|v buf]; try discriminate; simpl.
    - exists m. repeat split; auto. intros [|k]; discriminate.
    - inversion Hn as [|? ? Ha Hn']; subst.
      destruct (IH buf (mupd m a v) Hn') as (m' & E & H1 & H2); [simpl in Hl; lia|].
      exists m'. repeat split; auto.
      + intros [|k] a0 v0; simpl.
        * intros [= <-] [= <-]. rewrite H2 by auto. unfold mupd. now rewrite Nat.eqb_refl.
        * apply H1.
      + intros x Hx. rewrite H2 by tauto. unfold mupd.
        destruct (Nat.eqb_spec x a); auto. subst. tauto.
  Qed.

  (** ** swap-with-back removal *)
  Lemma swap_remove_last_case (l : list nat) x i :
    swap_remove (l ++ [x]) i = if i <? length l then list_set l i x else l.
  Proof.
    unfold swap_remove. rewrite last_last.
    destruct (Nat.ltb_spec i (length l)) as [H|H].
    - assert (E : list_set (l ++ [x]) i x = list_set l i x ++ [x]).
      { clear -H. revert i H; induction l as [|a l IH]; intros i H; simpl in H; [lia|].
        destruct i; simpl; auto. rewrite IH by lia. reflexivity. }
      rewrite E. apply removelast_last.
    - assert (E : list_set (l ++ [x]) i x = l ++ [x]).
      { clear -H. revert i H; induction l as [|a l IH]; intros i H; simpl in *.
        - destruct i; reflexivity.
        - destruct i; [lia|]. simpl. rewrite IH by lia. reflexivity. }
      rewrite E. apply removelast_last.
  Qed.

  Lemma list_set_perm (l : list nat) i x d : i < length l ->
    Permutation (x :: l) (nth i l d :: list_set l i x).
  Proof.
    revert i; induction l as [|a l IH]; intros i H; simpl in H; [lia|].
    destruct i; simpl.
    - apply perm_swap.
    - specialize (IH i). eapply perm_trans; [apply perm_swap|].
      eapply perm_trans; [apply perm_skip, IH; lia|]. apply perm_swap.
  Qed.

  Lemma swap_remove_perm (l : list nat) i : i < length l ->
    Permutation l (nth i l 0 :: swap_remove l i).
  Proof.
    destruct l as [|x l _] using rev_ind; simpl; [lia|]. intros H.
    rewrite app_length in H. simpl in H.
    rewrite swap_remove_last_case.
    destruct (Nat.ltb_spec i (length l)) as [Hi|Hi].
    - rewrite app_nth1 by auto. eapply perm_trans; [apply Permutation_app_comm|].
      simpl. now apply list_set_perm.
    - assert (i = length l) by lia. subst i. rewrite app_nth2, Nat.sub_diag by lia. simpl.
      apply Permutation_app_comm.
  Qed.

  (** ** The invariant *)
  Variable ids : list (list Z).
  Hypothesis Hnd : all_nodup ids.
  Variable data : list (nat -> T).
  Hypothesis Hdata : length data = length ids.
  Variable fs : nat.
  Hypothesis Hfs1 : 1 <= fs.
  Hypothesis Hfs3 : fs <= 3.

  Let n := length ids.
  Let L := fst (fill_clique_lookup ids).
  Definition setup_cls : list (list clique) :=
    map (fun r => map (the_clique ids r) (rank_cliques ids r)) (seq 0 n).

  Variable d0 : nat -> T. (* default memory, never used for an existing rank *)
  Definition mem0 (r : nat) : nat -> T := nth r data d0.
  Definition cell_value (r a j : nat) : T := allreduce (holder_values fs ids data (gid ids r a) j).

  (** Clique c at rank r has been unpacked iff its position is not in [unf]. *)
  Definition mem_inv (r : nat) (unf : list nat) (m : nat -> T) : Prop :=
    (forall a j p, a < length (nth r ids []) -> j < fs ->
       nth_error (rank_cliques ids r) p = Some (L (gid ids r a)) ->
       m (a * fs + j) =
         if (Z.of_nat n <? L (gid ids r a))%Z then
           if in_dec Nat.eq_dec p unf then mem0 r (a * fs + j) else cell_value r a j
         else mem0 r (a * fs + j)) /\
    (forall x, length (nth r ids []) * fs <= x -> m x = mem0 r x).

  Definition send_ok (r : nat) (send : nat -> option (list T)) : Prop :=
    forall c b, In c (rank_cliques ids r) -> send (Z.to_nat c) = Some b ->
      b = pack fs (il ids r c) (mem0 r).
  Definition send_set (r k : nat) (send : nat -> option (list T)) : Prop :=
    forall p c, p < k -> nth_error (rank_cliques ids r) p = Some c -> send (Z.to_nat c) <> None.

  Definition rank_ok (r : nat) (s : rstate T) : Prop :=
    send_ok r (rs_send s) /\
    let K := length (rank_cliques ids r) in
    match rs_pc s with
    | PInit k => k <= K /\ rs_mem s = mem0 r /\ send_set r k (rs_send s) /\
                 (forall p, rs_active s p = (p <? k))
    | PPoll unf i => NoDup unf /\ (forall p, In p unf -> p < K) /\ send_set r K (rs_send s) /\
                 (forall p, rs_active s p = true <-> In p unf) /\
                 mem_inv r unf (rs_mem s)
    | PDone => send_set r K (rs_send s) /\ (forall p, rs_active s p = false) /\ mem_inv r [] (rs_mem s)
    | _ => False
    end.

  Definition all_ok (g : list (rstate T)) : Prop :=
    length g = n /\ forall r s, nth_error g r = Some s -> rank_ok r s.

  Lemma the_clique_nth r k cl : nth_error (map (the_clique ids r) (rank_cliques ids r)) k = Some cl ->
    exists c, nth_error (rank_cliques ids r) k = Some c /\ cl = the_clique ids r c.
  Proof.
    rewrite nth_error_map. destruct (nth_error (rank_cliques ids r) k) as [c|]; simpl; [|discriminate].
    intros [= <-]. eauto.
  Qed.

  Lemma mem_inv_full r : mem_inv r (seq 0 (length (rank_cliques ids r))) (mem0 r).
  Proof.
    split; auto. intros a j p Ha Hj Hp.
    destruct (Z.ltb_spec (Z.of_nat n) (L (gid ids r a))); auto.
    destruct (in_dec Nat.eq_dec p (seq 0 (length (rank_cliques ids r)))) as [i|i]; auto.
    exfalso. apply i, in_seq. apply nth_error_Some_lt in Hp. lia.
  Qed.

  Lemma holds_gid r a : a < length (nth r ids []) -> holds ids r (gid ids r a).
  Proof. intros H. unfold holds, gid. now apply nth_In. Qed.

  (** Contributions collected by MPI are the members' packed original data. *)
  Lemma contributions_ok g c r bufs :
    all_ok g -> In c (rank_cliques ids r) ->
    contributions g (Comm (Z.to_nat c) (members ids c)) = Some bufs ->
    bufs = map (fun m => pack fs (il ids m c) (mem0 m)) (members ids c).
  Proof.
    intros [Hlen Hg] Hc. unfold contributions. simpl.
    assert (Hsub : forall m, In m (members ids c) -> In c (rank_cliques ids m))
      by (intros m; apply members_In).
    revert Hsub bufs. generalize (members ids c) as ms.
    induction ms as [|m ms IH]; intros Hsub bufs; simpl.
    - intros [= <-]. reflexivity.
    - destruct (fold_right _ _ ms) as [l|] eqn:E; [|discriminate].
      destruct (nth_error g m) as [s|] eqn:Es; [|discriminate].
      destruct (rs_send s (Z.to_nat c)) as [b|] eqn:Eb; [|discriminate].
      intros [= <-]. f_equal.
      + destruct (Hg m s Es) as [Hso _]. apply Hso; auto. apply Hsub; now left.
      + apply IH; auto. intros; apply Hsub; now right.
  Qed.

  Lemma il_nth_error r q c p a : In c (rank_cliques ids r) -> In c (rank_cliques ids q) ->
    nth_error (il ids r c) p = Some a ->
    exists b, nth_error (il ids q c) p = Some b /\ gid ids q b = gid ids r a.
  Proof.
    intros Hr Hq Hp. pose proof (gids_agree ids Hnd r q c Hr Hq) as E. unfold gids in E.
    assert (H : nth_error (map (gid ids r) (il ids r c)) p = Some (gid ids r a))
      by (rewrite nth_error_map, Hp; reflexivity).
    rewrite E, nth_error_map in H.
    destruct (nth_error (il ids q c) p) as [b|]; simpl in H; [|discriminate].
    exists b. split; auto. congruence.
  Qed.

  Lemma il_length_agree r q c : In c (rank_cliques ids r) -> In c (rank_cliques ids q) ->
    length (il ids r c) = length (il ids q c).
  Proof.
    intros Hr Hq. pose proof (gids_agree ids Hnd r q c Hr Hq) as E. unfold gids in E.
    apply (f_equal (@length Z)) in E. now rewrite !map_length in E.
  Qed.

  (** The element MPI combines for position p, component j is the list of the holders' values. *)
  Lemma combined_values r c p a j :
    In c (rank_cliques ids r) -> nth_error (il ids r c) p = Some a -> j < fs ->
    flat_map (fun b => match nth_error b (p * fs + j) with Some v => [v] | None => [] end)
      (map (fun m => pack fs (il ids m c) (mem0 m)) (members ids c))
    = holder_values fs ids data (gid ids r a) j.
  Proof.
    intros Hc Hp Hj.
    assert (Ha : In a (il ids r c)) by (eapply nth_error_In; eauto).
    apply il_In in Ha as (Hal & HaL & Hgt).
    assert (Hmem : members ids c = holders ids (gid ids r a)).
    { rewrite <- HaL. apply (members_holders ids Hnd r). now apply holds_gid. }
    set (V := fun r0 => match node_value fs ids data r0 (gid ids r a) j with Some v => [v] | None => [] end).
    assert (Step1 : flat_map (fun b => match nth_error b (p * fs + j) with Some v => [v] | None => [] end)
      (map (fun m => pack fs (il ids m c) (mem0 m)) (members ids c)) = flat_map V (members ids c)).
    { rewrite flat_map_concat_map, map_map, flat_map_concat_map. f_equal.
      apply map_ext_in. intros m Hm. apply members_In in Hm.
      destruct (il_nth_error r m c p a Hc Hm Hp) as (b & Hb & Eb).
      unfold pack. rewrite nth_error_blocks by auto. rewrite Hb.
      assert (Hbi : In b (il ids m c)) by (eapply nth_error_In; eauto).
      apply il_In in Hbi as (Hbl & _ & _).
      unfold V, node_value. rewrite <- Eb.
      assert (Hmn : m < n).
      { destruct (Nat.lt_ge_cases m n); auto. rewrite (nth_overflow ids) in Hbl by auto. simpl in Hbl. lia. }
      unfold mem0. rewrite (nth_error_nth' data d0) by (rewrite Hdata; auto).
      unfold gid. rewrite index_of_nth; auto. apply ids_NoDup; auto. }
    rewrite Step1, Hmem. unfold holder_values, holders. fold V.
    assert (HV : forall q, holdsb ids q (gid ids r a) = false -> V q = []).
    { intros q Hq. unfold V, node_value. destruct (nth_error data q); auto.
      destruct (index_of (gid ids r a) (nth q ids [])) eqn:E; auto.
      apply index_of_Some in E as [H1 H2].
      exfalso. assert (Hh : holds ids q (gid ids r a)).
      { unfold holds. rewrite <- H2. now apply nth_In. }
      apply holdsb_spec in Hh. congruence. }
    clearbody V. induction (seq 0 (length ids)) as [|q l IH]; simpl; auto.
    destruct (holdsb ids q (gid ids r a)) eqn:E; simpl; rewrite IH; auto.
    now rewrite (HV q E).
  Qed.

  Lemma combine_ok r c : In c (rank_cliques ids r) ->
    combine_buffers allreduce (length (il ids r c) * fs)
      (map (fun m => pack fs (il ids m c) (mem0 m)) (members ids c))
    = Some (map (fun k => allreduce (flat_map (fun b => match nth_error b k with Some v => [v] | None => [] end)
              (map (fun m => pack fs (il ids m c) (mem0 m)) (members ids c))))
            (seq 0 (length (il ids r c) * fs))).
  Proof.
    intros Hc. unfold combine_buffers.
    replace (forallb _ _) with true; auto. symmetry.
    apply forallb_forall. intros b Hb. apply in_map_iff in Hb as (m & <- & Hm).
    apply members_In in Hm. unfold pack. rewrite blocks_length.
    rewrite (il_length_agree m r c Hm Hc). apply Nat.eqb_refl.
  Qed.

  Lemma finalize_ok g r s c p unf i ans :
    all_ok g -> r < n -> rank_ok r s -> rs_pc s = PPoll unf i -> In p unf ->
    nth_error (rank_cliques ids r) p = Some c ->
    let '(s', fin) := async_finalize allreduce fs g (the_clique ids r c) p ans s in
    (fin = false /\ s' = s /\
      (ans = true -> contributions g (Comm (Z.to_nat c) (members ids c)) = None)) \/
    (fin = true /\ ans = true /\ rs_pc s' = rs_pc s /\ rs_send s' = rs_send s /\
     (forall q, rs_active s' q = if q =? p then false else rs_active s q) /\
     (forall unf', NoDup (p :: unf') -> Permutation unf (p :: unf') -> mem_inv r unf' (rs_mem s'))).
  Proof.
    intros Hg Hr Hs Hpc Hp Hcp.
    assert (Hc : In c (rank_cliques ids r)) by (eapply nth_error_In; eauto).
    destruct Hs as [Hsend Hs]. rewrite Hpc in Hs. cbv zeta in Hs.
    destruct Hs as (Hndu & Hlt & Hset & Hact & Hmem).
    unfold async_finalize. rewrite (proj2 (Hact p) Hp). cbn [the_clique cl_comm cl_indices].
    destruct ans; [|left; repeat split; auto; discriminate].
    destruct (contributions g (Comm (Z.to_nat c) (members ids c))) as [bufs|] eqn:Eb;
      [|left; auto].
    rewrite (contributions_ok g c r bufs Hg Hc Eb), (combine_ok r c Hc).
    set (recv := map _ _). unfold unpack.
    destruct (unpack_cells_ok (cells fs (il ids r c)) recv (rs_mem s)) as (m' & E & H1 & H2).
    { apply cells_NoDup, il_NoDup. }
    { unfold recv, cells. rewrite blocks_length, map_length, seq_length. reflexivity. }
    rewrite E. right. cbn [rs_pc rs_send rs_active rs_mem]. repeat split; auto.
    - intros a j q Ha Hj Hq.
      destruct (Z.ltb_spec (Z.of_nat n) (L (gid ids r a))) as [Hgt|Hle].
      + destruct (Nat.eq_dec q p) as [->|Hqp].
        * destruct (in_dec Nat.eq_dec p unf') as [Hin|Hin].
          { exfalso. inversion H; auto. }
          assert (Ec : c = L (gid ids r a)) by congruence.
          assert (Hai : In a (il ids r c)).
          { apply il_In; auto. fold L n. rewrite Ec. auto. }
          apply In_nth_error in Hai as (p0 & Hp0).
          apply (H1 (p0 * fs + j)).
          { unfold cells. rewrite nth_error_blocks by auto. now rewrite Hp0. }
          unfold recv. rewrite nth_error_map, nth_error_seq.
          assert (Hp0l := nth_error_Some_lt _ _ _ Hp0).
          destruct (Nat.ltb_spec (p0 * fs + j) (length (il ids r c) * fs)); [|nia].
          cbn [option_map]. rewrite Nat.add_0_l. f_equal. unfold cell_value. f_equal.
          eapply combined_values; eauto.
        * rewrite H2.
          { destruct Hmem as [Hm1 _]. rewrite (Hm1 a j q Ha Hj Hq).
            destruct (Z.ltb_spec (Z.of_nat n) (L (gid ids r a))); [|lia].
            assert (In q unf <-> In q unf').
            { rewrite H0. simpl. intuition congruence. }
            destruct (in_dec Nat.eq_dec q unf); destruct (in_dec Nat.eq_dec q unf'); tauto. }
          { intros Hx. apply cells_In in Hx as (i0 & j0 & Hi0 & Hj0 & Ex).
            apply cell_inj in Ex as [<- _]; auto.
            apply il_In in Hi0 as (_ & Ec & _); auto. fold L in Ec.
            apply Hqp.
            apply (proj1 (NoDup_nth_error (rank_cliques ids r)) (rank_cliques_NoDup ids r)).
            - exact (nth_error_Some_lt _ _ _ Hq).
            - rewrite Hq, Hcp. congruence. }
      + rewrite H2.
        { destruct Hmem as [Hm1 _]. rewrite (Hm1 a j q Ha Hj Hq).
          destruct (Z.ltb_spec (Z.of_nat n) (L (gid ids r a))); [lia|auto]. }
        { intros Hx. apply cells_In in Hx as (i0 & j0 & Hi0 & Hj0 & Ex).
          apply cell_inj in Ex as [<- _]; auto.
          apply il_In in Hi0 as (_ & Ec & Hgt); auto. fold L n in Ec, Hgt. lia. }
    - intros x Hx. rewrite H2; [apply Hmem, Hx|].
      intros Hxc. apply cells_In in Hxc as (i0 & j0 & Hi0 & Hj0 & Ex).
      apply il_In in Hi0 as (Hi0 & _); auto. nia.
  Qed.

  Lemma rank_step_ok g r s ans : all_ok g -> r < n -> rank_ok r s ->
    rank_ok r (rank_step allreduce fs g (nth r setup_cls []) ans s).
  Proof.
    intros Hg Hr Hs. unfold setup_cls. rewrite setup_nth by auto.
    unfold rank_step. destruct (rs_pc s) as [k|unf i| | | |] eqn:Hpc; auto.
    - (* PInit *)
      destruct (nth_error _ k) as [cl|] eqn:Ek.
      + apply the_clique_nth in Ek as (c & Hc & ->).
        pose proof Hs as Hs0. destruct Hs as [Hsend Hs]. rewrite Hpc in Hs. cbv zeta in Hs.
        destruct Hs as (HkK & Hm & Hset & Hact).
        assert (HkK' : k < length (rank_cliques ids r)) by (eapply nth_error_Some_lt; eauto).
        unfold async_initialize. rewrite Hact. destruct (Nat.ltb_spec k k); [lia|].
        cbn [the_clique cl_indices cl_buffersize cl_comm comm_call].
        destruct (Nat.leb_spec (fs * length (il ids r c)) (length (il ids r c) * 3)); [|nia].
        assert (Hinj : forall c1 c2, In c1 (rank_cliques ids r) -> In c2 (rank_cliques ids r) ->
                        Z.to_nat c1 = Z.to_nat c2 -> c1 = c2).
        { intros c1 c2 H1 H2 E. apply rank_cliques_pos in H1, H2; auto. lia. }
        assert (Hcin : In c (rank_cliques ids r)) by (eapply nth_error_In; eauto).
        split; cbn [rs_send rs_pc rs_mem rs_active].
        * intros c' b Hc' Hb. unfold updN in Hb. destruct (Nat.eqb_spec (Z.to_nat c') (Z.to_nat c)) as [e|e].
          { apply Hinj in e; auto. subst c'. rewrite Hm in Hb. congruence. }
          { now apply Hsend. }
        * repeat split; auto.
          { intros p c' Hp Hpc'. unfold updN.
            destruct (Nat.eqb_spec (Z.to_nat c') (Z.to_nat c)) as [e|e]; [discriminate|].
            apply (Hset p); auto. destruct (Nat.eq_dec p k); [|lia]. subst p.
            rewrite Hc in Hpc'. congruence. }
          { intros p. unfold updN. rewrite Hact.
            destruct (Nat.eqb_spec p k); destruct (Nat.ltb_spec p k); destruct (Nat.ltb_spec p (S k)); auto; lia. }
      + destruct Hs as [Hsend Hs]. rewrite Hpc in Hs. cbv zeta in Hs.
        destruct Hs as (HkK & Hm & Hset & Hact).
        apply nth_error_None in Ek. rewrite map_length in Ek.
        rewrite map_length. split; cbn [set_pc rs_send rs_pc rs_mem rs_active]; auto.
        assert (k = length (rank_cliques ids r)) by lia. subst k.
        split; [apply seq_NoDup|]. split; [intros p H; apply in_seq in H; lia|].
        split; auto. split.
        * intros p. rewrite Hact, in_seq. destruct (Nat.ltb_spec p (length (rank_cliques ids r)));
            split; intros; try lia; discriminate.
        * rewrite Hm. apply mem_inv_full.
    - (* PPoll *)
      pose proof Hs as Hs0. destruct Hs as [Hsend Hs]. rewrite Hpc in Hs. cbv zeta in Hs.
      destruct Hs as (Hndu & Hlt & Hset & Hact & Hmem).
      destruct unf as [|u unf'].
      + split; cbn [set_pc rs_send rs_pc rs_mem rs_active]; auto. cbv zeta. repeat split; auto; try apply Hmem.
        intros p. destruct (rs_active s p) eqn:E; auto. apply Hact in E. destruct E.
      + set (unf := u :: unf') in *.
        destruct (Nat.ltb_spec i (length unf)) as [Hi|Hi].
        * assert (Hpin : In (nth i unf 0) unf) by (apply nth_In; auto).
          destruct (nth_error _ (nth i unf 0)) as [cl|] eqn:Ek.
          { apply the_clique_nth in Ek as (c & Hc & ->).
            pose proof (finalize_ok g r s c (nth i unf 0) unf i ans Hg Hr Hs0 Hpc Hpin Hc) as HF.
            destruct (async_finalize allreduce fs g (the_clique ids r c) (nth i unf 0) ans s) as [s' fin].
            destruct HF as [(-> & -> & _)|(-> & -> & Epc & Esend & Eact & Hm')].
            - rewrite Hpc. split; cbn [set_pc rs_send rs_pc rs_mem rs_active]; auto.
            - rewrite Epc, Hpc. split; cbn [set_pc rs_send rs_pc rs_mem rs_active].
              + rewrite Esend. exact Hsend.
              + cbv zeta. pose proof (swap_remove_perm unf i Hi) as Hperm.
                assert (Hnd2 : NoDup (nth i unf 0 :: swap_remove unf i)) by (eapply Permutation_NoDup; eauto).
                repeat split.
                * inversion Hnd2; auto.
                * intros p Hp. apply Hlt. rewrite Hperm. now right.
                * rewrite Esend. exact Hset.
                * rewrite Eact. destruct (Nat.eqb_spec p (nth i unf 0)); [discriminate|].
                  intros Ha. apply Hact in Ha. rewrite Hperm in Ha. destruct Ha; congruence.
                * intros Hp. rewrite Eact. destruct (Nat.eqb_spec p (nth i unf 0)) as [->|].
                  { exfalso. inversion Hnd2; auto. }
                  apply Hact. rewrite Hperm. now right.
                * exact (proj1 (Hm' _ Hnd2 Hperm)).
                * exact (proj2 (Hm' _ Hnd2 Hperm)). }
          { exfalso. apply nth_error_None in Ek. rewrite map_length in Ek. apply Hlt in Hpin. lia. }
        * split; cbn [set_pc rs_send rs_pc rs_mem rs_active]; auto.
  Qed.

  Lemma step_ok g mv : all_ok g -> all_ok (step allreduce fs setup_cls g mv).
  Proof.
    intros Hg. pose proof Hg as [Hlen Hr]. destruct mv as [r ans]. unfold step.
    destruct (nth_error g r) as [s|] eqn:E; auto.
    split; [now rewrite list_set_length|].
    intros q t. rewrite nth_error_list_set.
    destruct ((q =? r) && (r <? length g)) eqn:B; [|apply Hr].
    apply andb_prop in B as [B _]. apply Nat.eqb_eq in B as ->.
    intros [= <-]. apply rank_step_ok; auto.
    apply nth_error_Some_lt in E. lia.
  Qed.

  Lemma run_ok sched g : all_ok g -> all_ok (run allreduce fs setup_cls g sched).
  Proof.
    unfold run. revert g; induction sched as [|mv sched IH]; intros g Hg; simpl; auto.
    apply IH, step_ok, Hg.
  Qed.

  Lemma start_ok : all_ok (start data).
  Proof.
    split; [unfold start; rewrite map_length; auto|].
    intros r s. unfold start, memory. rewrite nth_error_map.
    destruct (nth_error data r) as [m|] eqn:E; simpl; [|discriminate].
    intros [= <-]. split; cbn [rs_send rs_pc rs_mem rs_active].
    - intros c b _ H. discriminate.
    - cbv zeta. repeat split; auto; try lia.
      + unfold mem0. symmetry. now apply nth_error_nth.
      + intros p c H. lia.
  Qed.

  Lemma clique_position r a : a < length (nth r ids []) ->
    exists p, nth_error (rank_cliques ids r) p = Some (L (gid ids r a)).
  Proof.
    intros Ha. apply In_nth_error. apply rank_cliques_In. exists (gid ids r a).
    split; auto. now apply holds_gid.
  Qed.

  (** Safety: in a state where rank r has returned, its memory is as specified. *)
  Lemma done_value g r s : all_ok g -> nth_error g r = Some s -> rs_pc s = PDone ->
    (forall a j, a < length (nth r ids []) -> j < fs ->
       rs_mem s (a * fs + j) =
         if (1 <? length (holders ids (gid ids r a))) then cell_value r a j else mem0 r (a * fs + j)) /\
    (forall x, length (nth r ids []) * fs <= x -> rs_mem s x = mem0 r x).
  Proof.
    intros [Hlen Hg] E Hpc. destruct (Hg r s E) as [_ H]. rewrite Hpc in H. cbv zeta in H.
    destruct H as (_ & _ & Hm & Hout). split; auto.
    intros a j Ha Hj. destruct (clique_position r a Ha) as (p & Hp).
    rewrite (Hm a j p Ha Hj Hp).
    pose proof (holds_gid r a Ha) as Hh.
    pose proof (shared_iff ids Hnd r (gid ids r a) Hh) as Hsh. fold L n in Hsh.
    destruct (in_dec Nat.eq_dec p []) as [[]|_].
    destruct (Z.ltb_spec (Z.of_nat n) (L (gid ids r a))) as [Hgt|Hle].
    - apply Hsh in Hgt as (r' & Hne & Hr').
      replace (1 <? length (holders ids (gid ids r a))) with true; auto. symmetry.
      apply Nat.ltb_lt.
      assert (H2 : NoDup [r; r']) by (repeat constructor; simpl; intuition congruence).
      eapply Nat.lt_le_trans with (m := length [r; r']); [simpl; lia|].
      apply NoDup_incl_length; auto. intros x [<-|[<-|[]]]; apply holders_In; auto.
    - replace (1 <? length (holders ids (gid ids r a))) with false; auto. symmetry.
      apply Nat.ltb_ge.
      eapply Nat.le_trans with (m := length [r]); [|simpl; lia].
      apply NoDup_incl_length.
      + unfold holders. apply NoDup_filter, seq_NoDup.
      + intros x Hx. apply holders_In in Hx. left. destruct (Nat.eq_dec r x); auto. exfalso.
        assert (Z.of_nat n < L (gid ids r a))%Z; [|lia]. apply Hsh. exists x. split; auto.
  Qed.

  (** No rank ever aborts, throws or hits undefined behaviour. *)
  Lemma never_fails g r s : all_ok g -> nth_error g r = Some s ->
    rs_pc s <> PThrow /\ rs_pc s <> PAbort /\ rs_pc s <> PUB.
  Proof.
    intros [_ Hg] E. destruct (Hg r s E) as [_ H]. cbv zeta in H.
    destruct (rs_pc s); try destruct H; repeat split; discriminate.
  Qed.

  (** ** Progress *)
  Definition rank_measure (r : nat) (s : rstate T) : nat :=
    let K := length (rank_cliques ids r) in
    match rs_pc s with
    | PInit k => 2 * K + 3 + (K - k)
    | PPoll unf i => 2 * length unf + (if i <? length unf then 0 else 1) + 1
    | _ => 0
    end.

  Definition is_init (s : rstate T) : bool := match rs_pc s with PInit _ => true | _ => false end.
  Definition is_done (s : rstate T) : bool := match rs_pc s with PDone => true | _ => false end.

  Lemma init_decreases g r s ans : r < n -> rank_ok r s -> is_init s = true ->
    rank_measure r (rank_step allreduce fs g (nth r setup_cls []) ans s) < rank_measure r s.
  Proof.
    intros Hr Hs Hi. unfold setup_cls. rewrite setup_nth by auto.
    unfold rank_step, is_init in *. unfold rank_measure at 2.
    destruct (rs_pc s) as [k|unf i| | | |] eqn:Hpc; try discriminate.
    destruct Hs as [Hsend Hs]. rewrite Hpc in Hs. cbv zeta in Hs.
    destruct Hs as (HkK & Hm & Hset & Hact).
    destruct (nth_error _ k) as [cl|] eqn:Ek.
    - apply the_clique_nth in Ek as (c & Hc & ->).
      assert (HkK' : k < length (rank_cliques ids r)) by (eapply nth_error_Some_lt; eauto).
      unfold async_initialize. rewrite Hact. destruct (Nat.ltb_spec k k); [lia|].
      cbn [the_clique cl_indices cl_buffersize cl_comm comm_call].
      destruct (Nat.leb_spec (fs * length (il ids r c)) (length (il ids r c) * 3)); [|nia].
      unfold rank_measure. cbn [rs_pc]. lia.
    - unfold rank_measure. cbn [set_pc rs_pc]. rewrite map_length, seq_length.
      destruct (0 <? length (rank_cliques ids r)); lia.
  Qed.

  Lemma contributions_ready g c : all_ok g -> (forall r s, nth_error g r = Some s -> is_init s = false) ->
    contributions g (Comm (Z.to_nat c) (members ids c)) <> None.
  Proof.
    intros [Hlen Hg] Hno. unfold contributions. simpl.
    assert (Hsub : forall m, In m (members ids c) -> In c (rank_cliques ids m))
      by (intros m; apply members_In).
    revert Hsub. generalize (members ids c) as ms.
    induction ms as [|m ms IH]; intros Hsub; simpl; [discriminate|].
    assert (Hm : In c (rank_cliques ids m)) by (apply Hsub; now left).
    destruct (fold_right _ _ ms) as [l|] eqn:E;
      [|exfalso; apply IH; [intros; apply Hsub; now right|reflexivity]].
    assert (Hmn : m < n) by (apply rank_cliques_In in Hm as (x & Hx & _); apply holds_lt in Hx; auto).
    destruct (nth_error g m) as [s|] eqn:Es.
    2:{ apply nth_error_None in Es. lia. }
    assert (rs_send s (Z.to_nat c) <> None).
    { apply In_nth_error in Hm as (p & Hp).
      pose proof (nth_error_Some_lt _ _ _ Hp) as Hpl.
      specialize (Hno m s Es). unfold is_init in Hno.
      destruct (Hg m s Es) as [_ H]. cbv zeta in H.
      destruct (rs_pc s) as [k|unf i| | | |]; try discriminate; try contradiction.
      - destruct H as (_ & _ & Hset & _). apply (Hset p c Hpl Hp).
      - destruct H as (Hset & _). apply (Hset p c Hpl Hp). }
    destruct (rs_send s (Z.to_nat c)); [discriminate|congruence].
  Qed.

  Lemma poll_decreases g r s : all_ok g -> (forall r s, nth_error g r = Some s -> is_init s = false) ->
    r < n -> rank_ok r s -> is_init s = false -> is_done s = false ->
    rank_measure r (rank_step allreduce fs g (nth r setup_cls []) true s) < rank_measure r s.
  Proof.
    intros Hg Hno Hr Hs Hi Hd. unfold setup_cls. rewrite setup_nth by auto.
    unfold rank_step, is_init, is_done in *. unfold rank_measure at 2.
    pose proof Hs as Hs0. destruct Hs as [Hsend Hs]. cbv zeta in Hs.
    destruct (rs_pc s) as [k|unf i| | | |] eqn:Hpc; try discriminate; try contradiction.
    destruct Hs as (Hndu & Hlt & Hset & Hact & Hmem).
    destruct unf as [|u unf'].
    - unfold rank_measure. cbn [set_pc rs_pc]. simpl. lia.
    - set (unf := u :: unf') in *.
      destruct (Nat.ltb_spec i (length unf)) as [Hil|Hil].
      + assert (Hpin : In (nth i unf 0) unf) by (apply nth_In; auto).
        destruct (nth_error _ (nth i unf 0)) as [cl|] eqn:Ek.
        * apply the_clique_nth in Ek as (c & Hc & ->).
          pose proof (finalize_ok g r s c (nth i unf 0) unf i true Hg Hr Hs0 Hpc Hpin Hc) as HF.
          destruct (async_finalize allreduce fs g (the_clique ids r c) (nth i unf 0) true s) as [s' fin].
          destruct HF as [(_ & _ & Hn)|(-> & _ & Epc & _)].
          { exfalso. eapply contributions_ready; eauto. }
          rewrite Epc, Hpc. unfold rank_measure. cbn [set_pc rs_pc].
          pose proof (Permutation_length (swap_remove_perm unf i Hil)) as Hl. simpl length in Hl at 2.
          destruct (i <? length (swap_remove unf i)); lia.
        * exfalso. apply nth_error_None in Ek. rewrite map_length in Ek. apply Hlt in Hpin. lia.
      + unfold rank_measure. cbn [set_pc rs_pc].
        destruct (Nat.ltb_spec 0 (length unf)); [lia|]. unfold unf in *; simpl in *; lia.
  Qed.

  Fixpoint sum_measure (r : nat) (g : list (rstate T)) : nat :=
    match g with [] => 0 | s :: g => rank_measure r s + sum_measure (S r) g end.

  Lemma sum_measure_set g : forall r0 r s s', nth_error g r = Some s ->
    rank_measure (r0 + r) s' < rank_measure (r0 + r) s ->
    sum_measure r0 (list_set g r s') < sum_measure r0 g.
  Proof.
    induction g as [|t g IH]; intros r0 r s s' E H; [destruct r; discriminate|].
    destruct r as [|r]; simpl in *.
    - injection E as ->. rewrite Nat.add_0_r in H. lia.
    - specialize (IH (S r0) r s s' E). replace (S r0 + r) with (r0 + S r) in IH by lia.
      specialize (IH H). lia.
  Qed.

  Lemma find_rank (P : rstate T -> bool) g :
    (exists r s, nth_error g r = Some s /\ P s = true) \/
    (forall r s, nth_error g r = Some s -> P s = false).
  Proof.
    induction g as [|t g IH].
    - right. intros [|r] s; discriminate.
    - destruct (P t) eqn:E; [left; exists 0, t; auto|].
      destruct IH as [(r & s & H)|H]; [left; exists (S r), s; auto|].
      right. intros [|r] s Hs; [simpl in Hs; congruence|eapply H; eauto].
  Qed.

  (** From every reachable state the reduction can be completed on all ranks. *)
  Lemma can_finish g : all_ok g ->
    exists sched, forall r s, nth_error (run allreduce fs setup_cls g sched) r = Some s -> rs_pc s = PDone.
  Proof.
    remember (sum_measure 0 g) as m eqn:Em. revert g Em.
    induction m as [m IH] using lt_wf_ind. intros g Em Hg.
    pose proof Hg as [Hlen Hr].
    assert (Hstep : forall r ans s, nth_error g r = Some s ->
       rank_measure r (rank_step allreduce fs g (nth r setup_cls []) ans s) < rank_measure r s ->
       exists sched, forall r s, nth_error (run allreduce fs setup_cls g sched) r = Some s -> rs_pc s = PDone).
    { intros r ans s E Hdec.
      assert (Es : step allreduce fs setup_cls g (r, ans) =
              list_set g r (rank_step allreduce fs g (nth r setup_cls []) ans s)).
      { unfold step. now rewrite E. }
      destruct (IH (sum_measure 0 (step allreduce fs setup_cls g (r, ans)))) with
        (g := step allreduce fs setup_cls g (r, ans)) as [sched Hsched]; auto.
      - subst m. rewrite Es. eapply sum_measure_set; eauto.
      - now apply step_ok.
      - exists ((r, ans) :: sched). exact Hsched. }
    destruct (find_rank is_init g) as [(r & s & E & Hi)|Hno].
    - apply (Hstep r true s E). apply init_decreases; auto.
      apply nth_error_Some_lt in E. lia.
    - destruct (find_rank (fun s => negb (is_done s)) g) as [(r & s & E & Hd)|Hdone].
      + apply (Hstep r true s E).
        pose proof (nth_error_Some_lt _ _ _ E) as Hrl. rewrite Hlen in Hrl.
        apply poll_decreases; auto; [eapply Hno; eauto|now apply negb_true_iff].
      + exists []. intros r s E. specialize (Hdone r s E). unfold is_done in Hdone.
        destruct (rs_pc s); try discriminate. reflexivity.
  Qed.

End Runs.

(** ** The polling loop seen from one rank *)
Lemma poll_loop_perm answers : forall unf i fin res,
  poll_loop answers unf i fin = Some res -> Permutation res (fin ++ unf).
Proof.
  induction answers as [|a answers IH]; intros unf i fin res H; destruct unf as [|u unf]; simpl in H;
    try discriminate; try (injection H as <-; rewrite app_nil_r; reflexivity).
  set (i' := if i <? S (length unf) then i else 0) in H.
  assert (Hi : i' < length (u :: unf)).
  { unfold i'. simpl. destruct (Nat.ltb_spec i (S (length unf))); lia. }
  destruct a.
  - apply IH in H. rewrite H, <- app_assoc. simpl.
    apply Permutation_app_head. symmetry. apply (swap_remove_perm (u :: unf) i' Hi).
  - now apply IH in H.
Qed.

Lemma poll_loop_finishes answers : forall unf i fin,
  length unf <= length (filter (fun b => b) answers) -> poll_loop answers unf i fin <> None.
Proof.
  induction answers as [|a answers IH]; intros unf i fin H; destruct unf as [|u unf]; simpl in *;
    try discriminate; try lia.
  set (i' := if i <? S (length unf) then i else 0).
  assert (Hi : i' < length (u :: unf)).
  { unfold i'. simpl. destruct (Nat.ltb_spec i (S (length unf))); lia. }
  destruct a; apply IH; simpl in *; try lia.
  pose proof (Permutation_length (swap_remove_perm (u :: unf) i' Hi)) as Hl. simpl in Hl. lia.
Qed.

Lemma poll_loop_needs answers : forall unf i fin res,
  poll_loop answers unf i fin = Some res -> length unf <= length (filter (fun b => b) answers).
Proof.
  induction answers as [|a answers IH]; intros unf i fin res H; destruct unf as [|u unf]; simpl in *;
    try discriminate; try lia.
  set (i' := if i <? S (length unf) then i else 0) in *.
  assert (Hi : i' < length (u :: unf)).
  { unfold i'. simpl. destruct (Nat.ltb_spec i (S (length unf))); lia. }
  destruct a; apply IH in H; simpl in *; auto.
  pose proof (Permutation_length (swap_remove_perm (u :: unf) i' Hi)) as Hl. simpl in Hl. lia.
Qed.
