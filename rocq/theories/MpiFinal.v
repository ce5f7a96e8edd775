(** Final forms of the MPI lemmas (closed over the existence of the set-up result), examples
    and counterexamples.  The property theorems themselves are in PropMpi.v. *)
From Verif Require Import Base ListLemmas MpiSpec MpiModel MpiCliqueProofs MpiSetupProofs MpiRunProofs MpiUtils MpiUtilsProofs.
From Coq Require Import Permutation Reals.
Local Open Scope nat_scope.

Definition rsum (l : list R) : R := fold_right Rplus 0%R l.

Definition failed {T} (s : rstate T) : Prop :=
  rs_pc s = PThrow \/ rs_pc s = PAbort \/ rs_pc s = PUB.

Section Final.
  Context {T : Type} (allreduce : list T -> T).

  Lemma reduction_general ids (data : list (nat -> T)) fs :
    all_nodup ids -> length data = length ids -> 1 <= fs <= 3 ->
    exists cls, generate_reduction_info ids = Ok cls /\
      forall sched g, perform_reduction allreduce fs cls data sched = Ok g ->
        length g = length ids /\
        (forall r s, nth_error g r = Some s ->
           ~ failed s /\
           (rs_pc s = PDone ->
              forall m0, nth_error data r = Some m0 ->
              (forall i node j, nth_error (nth r ids []) i = Some node -> j < fs ->
                 rs_mem s (i * fs + j) =
                   if 1 <? length (holders ids node)
                   then allreduce (holder_values fs ids data node j)
                   else m0 (i * fs + j)) /\
              (forall x, length (nth r ids []) * fs <= x -> rs_mem s x = m0 x))) /\
        (exists sched', forall r s,
            nth_error (run allreduce fs cls g sched') r = Some s -> rs_pc s = PDone).
  Proof.
    intros Hnd Hlen [H1 H3].
    exists (setup_cls ids). split; [apply setup_ok; auto|].
    intros sched g Hg.
    assert (Eg : g = run allreduce fs (setup_cls ids) (start data) sched).
    { unfold perform_reduction in Hg. destruct fs as [|[|[|[|]]]]; try lia; congruence. }
    subst g. clear Hg. set (g := run allreduce fs (setup_cls ids) (start data) sched).
    (* a default memory for the proofs: any will do *)
    assert (Hd : data = [] \/ exists dd : nat -> T, True) by (destruct data; eauto).
    destruct Hd as [Ed|[dd _]].
    { subst data. assert (Eg : g = []).
      { unfold g. clear. unfold start. simpl. induction sched as [|[r b] sched IH]; simpl; auto.
        destruct r; simpl; auto. }
      rewrite Eg. simpl in *. split; [auto|]. split; [intros [|r] s; discriminate|].
      exists []. intros [|r] s; discriminate. }
    assert (Hok : all_ok allreduce ids data fs dd g).
    { apply run_ok; auto. apply start_ok; auto. }
    split; [exact (proj1 Hok)|]. split.
    - intros r s E. split.
      + destruct (never_fails allreduce ids data fs dd g r s Hok E) as (A & B & C).
        unfold failed. tauto.
      + intros Hpc m0 Hm0.
        destruct (done_value allreduce ids Hnd data Hlen fs H1 H3 dd g r s Hok E Hpc) as [Hv Ho].
        assert (Hm : mem0 data dd r = m0) by (unfold mem0; now apply nth_error_nth).
        rewrite Hm in *. split; [|exact Ho].
        intros i node j Hi Hj.
        assert (Hil : i < length (nth r ids [])) by (eapply nth_error_Some_lt; eauto).
        assert (Hgid : gid ids r i = node) by (unfold gid; now apply nth_error_nth).
        rewrite (Hv i j Hil Hj), Hgid. unfold cell_value. now rewrite Hgid.
    - apply (can_finish allreduce ids Hnd data Hlen fs H1 H3 dd g Hok).
  Qed.
End Final.

Lemma holder_values_single {T} fs ids (data : list (nat -> T)) r i node j m0 :
  nth_error (nth r ids []) i = Some node -> NoDup (nth r ids []) -> nth_error data r = Some m0 ->
  length (holders ids node) <= 1 ->
  holder_values fs ids data node j = [m0 (i * fs + j)].
Proof.
  intros Hi Hn Hm Hone.
  assert (Hh : holds ids r node) by (unfold holds; eapply nth_error_In; eauto).
  assert (Hr : r < length ids) by (eapply holds_lt; eauto).
  assert (Hol : holders ids node = [r]).
  { pose proof (proj2 (holders_In ids node r) Hh) as Hin.
    destruct (holders ids node) as [|a [|b t]]; simpl in *; try lia; destruct Hin as [->|[]]; auto. }
  unfold holder_values.
  assert (E : flat_map (fun q => match node_value fs ids data q node j with Some v => [v] | None => [] end)
              (seq 0 (length ids)) =
          flat_map (fun q => match node_value fs ids data q node j with Some v => [v] | None => [] end)
              (holders ids node)).
  { unfold holders. induction (seq 0 (length ids)) as [|q l IH]; simpl; auto.
    destruct (holdsb ids q node) eqn:B; simpl; rewrite IH; auto.
    assert (Hnv : node_value fs ids data q node j = None).
    { unfold node_value. destruct (nth_error data q); auto.
      destruct (index_of node (nth q ids [])) eqn:E; auto.
      apply index_of_Some in E as [H1 H2]. exfalso.
      assert (holds ids q node) by (unfold holds; rewrite <- H2; now apply nth_In).
      apply holdsb_spec in H. congruence. }
    now rewrite Hnv. }
  rewrite E, Hol. simpl. unfold node_value. rewrite Hm.
  assert (Hil : i < length (nth r ids [])) by (eapply nth_error_Some_lt; eauto).
  rewrite <- (nth_error_nth _ _ 0%Z Hi), index_of_nth by auto. reflexivity.
Qed.

Lemma reduction_sum ids (data : list (nat -> R)) fs :
  all_nodup ids -> length data = length ids -> 1 <= fs <= 3 ->
  exists cls, generate_reduction_info ids = Ok cls /\
    forall sched g, perform_reduction rsum fs cls data sched = Ok g ->
      (forall r s, nth_error g r = Some s ->
         ~ failed s /\
         (rs_pc s = PDone ->
            forall i node j, nth_error (nth r ids []) i = Some node -> j < fs ->
               rs_mem s (i * fs + j) = rsum (holder_values fs ids data node j))) /\
      (exists sched', forall r s,
          nth_error (run rsum fs cls g sched') r = Some s -> rs_pc s = PDone).
Proof.
  intros Hnd Hlen Hfs.
  destruct (reduction_general rsum ids data fs Hnd Hlen Hfs) as (cls & E & H).
  exists cls. split; auto. intros sched g Hg. destruct (H sched g Hg) as (Hgl & Hr & Hf).
  split; [|exact Hf]. intros r s Hs. destruct (Hr r s Hs) as (Hnf & Hd). split; auto.
  intros Hpc i node j Hi Hj.
  assert (Hrl : r < length data).
  { apply nth_error_Some_lt in Hs. lia. }
  destruct (nth_error data r) as [m0|] eqn:Em.
  2:{ apply nth_error_None in Em. lia. }
  destruct (Hd Hpc m0 eq_refl) as (Hv & _). rewrite (Hv i node j Hi Hj).
  destruct (Nat.ltb_spec 1 (length (holders ids node))); auto.
  rewrite (holder_values_single fs ids data r i node j m0); auto; try lia.
  - unfold rsum. simpl. ring.
  - unfold all_nodup in Hnd. rewrite Forall_forall in Hnd. apply Hnd, nth_In. lia.
Qed.

Lemma cliques_are_sharing_classes ids : all_nodup ids ->
  let L := fst (fill_clique_lookup ids) in let num := snd (fill_clique_lookup ids) in
  (forall g h, L g = L h <-> same_holders ids g h) /\
  (forall g, (exists r, holds ids r g) ->
     ((L g <= Z.of_nat (length ids))%Z <-> length (holders ids g) = 1)) /\
  (forall g, (exists r, holds ids r g) -> (1 <= L g < num)%Z).
Proof.
  intros Hnd L num. pose proof (fill_clique_lookup_inv ids Hnd) as TI. fold L num in TI.
  split; [intros; apply (ti_same _ _ _ _ TI)|]. split.
  - intros g Hex. rewrite (clique_private ids L num g TI Hex). split.
    + intros (r & Hr & Hu).
      assert (Hn : NoDup (holders ids g)) by (unfold holders; apply NoDup_filter, seq_NoDup).
      assert (Hall : forall x, In x (holders ids g) -> x = r) by (intros x Hx; apply Hu, holders_In, Hx).
      assert (Hin : In r (holders ids g)) by (now apply holders_In).
      destruct (holders ids g) as [|a [|b t]]; simpl in *; try contradiction; auto.
      exfalso. inversion Hn as [|? ? Ha _]; subst. apply Ha. left.
      rewrite (Hall a), (Hall b); auto.
    + intros H1. destruct (holders ids g) as [|a [|b t]] eqn:E; simpl in H1; try lia.
      exists a. split; [apply holders_In; rewrite E; now left|].
      intros r' Hr'. apply holders_In in Hr'. rewrite E in Hr'. destruct Hr' as [->|[]]; auto.
  - intros g (r & Hr). pose proof (ti_range _ _ _ _ TI g). pose proof (ti_zero _ _ _ _ TI g) as Hz.
    assert (L g <> 0%Z) by (intros e; apply (proj1 Hz e r Hr)). lia.
Qed.

Lemma collective_order ids : all_nodup ids ->
  exists colors, rank_colors ids = Ok colors /\ length colors = length ids /\
    (forall r r', r < length ids -> r' < length ids -> split_calls colors r = split_calls colors r').
Proof.
  intros Hnd. destruct (same_split_calls ids Hnd) as (colors & E & Hl & H).
  exists colors. repeat split; auto. intros r r' Hr Hr'. now rewrite !H.
Qed.

Lemma node_cliques ids : all_nodup ids ->
  exists cls num_of, generate_reduction_info ids = Ok cls /\ length cls = length ids /\
   (forall r i node, nth_error (nth r ids []) i = Some node ->
     (forall k cl, nth_error (nth r cls []) k = Some cl -> In i (cl_indices cl) ->
        1 < length (holders ids node) /\ cl_comm cl = Comm (num_of node) (holders ids node)) /\
     (1 < length (holders ids node) ->
        exists k cl, nth_error (nth r cls []) k = Some cl /\ In i (cl_indices cl)) /\
     (forall k k' cl cl', nth_error (nth r cls []) k = Some cl -> nth_error (nth r cls []) k' = Some cl' ->
        In i (cl_indices cl) -> In i (cl_indices cl') -> k = k')).
Proof.
  intros Hnd. exists (setup_cls ids), (fun g => Z.to_nat (fst (fill_clique_lookup ids) g)).
  split; [apply setup_ok; auto|].
  split; [unfold setup_cls; rewrite map_length, seq_length; auto|].
  intros r i node Hi.
  assert (Hr : r < length ids).
  { destruct (Nat.lt_ge_cases r (length ids)); auto.
    rewrite nth_overflow in Hi by auto. destruct i; discriminate. }
  unfold setup_cls. rewrite setup_nth by auto. exact (clique_of_node ids Hnd r i node Hi).
Qed.

(** ** Concrete non-trivial instance: three ranks, a node on all three, pairs, private nodes. *)
Definition ex_ids : list (list Z) := [[10; 20; 30]; [30; 40; 20]; [50; 30]]%Z.
Definition ex_data : list (nat -> Z) :=
  [(fun i => Z.of_nat i + 1); (fun i => 100 * (Z.of_nat i + 1)); (fun i => 10000 * (Z.of_nat i + 1))]%Z.
Definition zsum (l : list Z) : Z := fold_right Z.add 0%Z l.
(** A schedule with refusals and unfair prefixes. *)
Definition ex_sched : list (nat * bool) :=
  let rr b := flat_map (fun _ => [(2, b); (0, b); (1, b)]) (seq 0 12) in
  repeat (0, true) 7 ++ rr false ++ repeat (1, true) 3 ++ rr true.
Example ex_nodup : all_nodup ex_ids.
Proof.
  repeat constructor; simpl; intuition congruence.
Qed.
Example ex_runs :
  match generate_reduction_info ex_ids with
  | Ok cls =>
    match perform_reduction zsum 1 cls ex_data ex_sched with
    | Ok g => map (fun s => (map (rs_mem s) (seq 0 3),
                             match rs_pc s with PDone => true | _ => false end)) g
    | _ => [] end
  | _ => [] end
  = [([1; 302; 20103], true); ([20103; 200; 302], true); ([10000; 20103; 30000], true)]%Z.
Proof. vm_compute. reflexivity. Qed.

(** Without the duplicate-free precondition the reduction is not even well-defined: ranks
    holding the same node then post buffers of different lengths. *)
Lemma duplicate_ids_break :
  exists ids cls sched g s, generate_reduction_info ids = Ok cls /\
    perform_reduction zsum 1 cls (map (fun _ _ => 1%Z) ids) sched = Ok g /\
    nth_error g 0 = Some s /\ failed s.
Proof.
  exists [[5; 5]; [5]]%Z.
  eexists. exists (flat_map (fun _ => [(0, true); (1, true)]) (seq 0 3)). eexists. eexists.
  split; [vm_compute; reflexivity|]. split; [vm_compute; reflexivity|].
  split; [vm_compute; reflexivity|]. unfold failed. vm_compute. auto.
Qed.

(** ** gather and arrayview *)
Lemma gather_loses_data : exists (c : list (list Z)), gather c <> c.
Proof. exists [[1]; [2; 3]]%Z. vm_compute. discriminate. Qed.

Lemma arrayview_pointer_pair_wrong :
  exists size b e : Z, (0 < size)%Z /\ (exists n, (0 <= n)%Z /\ e = (b + n * size)%Z) /\
    av_end size (av_begin_end size b e) <> e.
Proof.
  exists 8%Z, 1000%Z, 1016%Z. split; [lia|]. split; [exists 2%Z; lia|]. vm_compute. discriminate.
Qed.

Lemma poll_each_once answers K res :
  poll_loop answers (seq 0 K) 0 [] = Some res -> Permutation res (seq 0 K).
Proof. intros H. apply poll_loop_perm in H. exact H. Qed.

Lemma poll_terminates answers K :
  (exists res, poll_loop answers (seq 0 K) 0 [] = Some res) <-> K <= length (filter (fun b => b) answers).
Proof.
  split.
  - intros (res & H). apply poll_loop_needs in H. now rewrite seq_length in H.
  - intros H. destruct (poll_loop answers (seq 0 K) 0 []) as [res|] eqn:E; [eauto|].
    exfalso. eapply poll_loop_finishes; [|exact E]. now rewrite seq_length.
Qed.
Example ex_poll : poll_loop [false; true; false; false; true; true] (seq 0 3) 0 [] = Some [1; 2; 0].
Proof. vm_compute. reflexivity. Qed.
