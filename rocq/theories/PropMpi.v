(** Property theorems C01-C07, C47, C49 (MPI reduction).  Model: MpiModel.v, MpiUtils.v.
    Specification vocabulary: MpiSpec.v (holds, holders, same_holders, node_value,
    holder_values).  Non-vacuity: ex_nodup, ex_runs, ex_poll in MpiFinal.v. *)
From Verif Require Import Base MpiSpec MpiModel MpiUtils MpiUtilsProofs MpiFinal.
From Coq Require Import Permutation Reals.
Local Open Scope nat_scope.

Lemma perform_reduction_total {T} (ar : list T -> T) fs cls (data : list (nat -> T)) sched :
  1 <= fs <= 3 -> exists g, perform_reduction ar fs cls data sched = Ok g.
Proof. intros H. unfold perform_reduction. destruct fs as [|[|[|[|]]]]; try lia; eauto. Qed.

(** C01: whatever schedule runs the ranks and answers MPI_Test, no rank aborts, throws or hits
    undefined behaviour; when a rank has returned, each of its nodes holds the sum over all
    ranks declaring the node; and from every reachable state all ranks can still finish. *)
Theorem C01_reduction_sums_shared_nodes :
  forall ids (data : list (nat -> R)) fs,
  all_nodup ids -> length data = length ids -> 1 <= fs <= 3 ->
  exists cls, generate_reduction_info ids = Ok cls /\
    forall sched, exists g, perform_reduction rsum fs cls data sched = Ok g /\
      (forall r s, nth_error g r = Some s ->
         ~ failed s /\
         (rs_pc s = PDone ->
            forall i node j, nth_error (nth r ids []) i = Some node -> j < fs ->
               rs_mem s (i * fs + j) = rsum (holder_values fs ids data node j))) /\
      (exists sched', forall r s,
          nth_error (run rsum fs cls g sched') r = Some s -> rs_pc s = PDone).
Proof.
  intros ids data fs Hn Hl Hf. destruct (@reduction_sum ids data fs Hn Hl Hf) as (cls & E & H).
  exists cls. split; auto. intros sched. destruct (perform_reduction_total rsum fs cls data sched Hf) as (g & Eg).
  exists g. split; [exact Eg|exact (H sched g Eg)].
Qed.
Print Assumptions C01_reduction_sums_shared_nodes.

(** C02: for any reduction operator (in particular floating-point addition in any order), nodes
    held by one rank and memory beyond the declared nodes are unchanged; shared nodes get
    exactly the operator applied to the holders' values. *)
Theorem C02_reduction_frame :
  forall (T : Type) (allreduce : list T -> T) ids (data : list (nat -> T)) fs,
  all_nodup ids -> length data = length ids -> 1 <= fs <= 3 ->
  exists cls, generate_reduction_info ids = Ok cls /\
    forall sched, exists g, perform_reduction allreduce fs cls data sched = Ok g /\
      length g = length ids /\
      (forall r s, nth_error g r = Some s ->
         ~ failed s /\
         (rs_pc s = PDone ->
            forall m0, nth_error data r = Some m0 ->
            (forall i node j, nth_error (nth r ids []) i = Some node -> j < fs ->
               rs_mem s (i * fs + j) =
                 if 1 <? length (holders ids node)
                 then allreduce (holder_values fs ids data node j)
                 else m0 (i * fs + j)) /\
            (forall x, length (nth r ids []) * fs <= x -> rs_mem s x = m0 x))) /\
      (exists sched', forall r s,
          nth_error (run allreduce fs cls g sched') r = Some s -> rs_pc s = PDone).
Proof.
  intros T ar ids data fs Hn Hl Hf. destruct (@reduction_general T ar ids data fs Hn Hl Hf) as (cls & E & H).
  exists cls. split; auto. intros sched. destruct (perform_reduction_total ar fs cls data sched Hf) as (g & Eg).
  exists g. split; [exact Eg|exact (H sched g Eg)].
Qed.
Print Assumptions C02_reduction_frame.

(** C01/C02 precondition: with an id declared twice by one rank the reduction fails. *)
Theorem C01_without_nodup_refuted :
  exists ids cls sched g s, generate_reduction_info ids = Ok cls /\
    perform_reduction zsum 1 cls (map (fun _ _ => 1%Z) ids) sched = Ok g /\
    nth_error g 0 = Some s /\ failed s.
Proof. exact duplicate_ids_break. Qed.
Print Assumptions C01_without_nodup_refuted.

(** C03 *)
Theorem C03_cliques_are_sharing_classes :
  forall ids, all_nodup ids ->
  let L := fst (fill_clique_lookup ids) in let num := snd (fill_clique_lookup ids) in
  (forall g h, L g = L h <-> same_holders ids g h) /\
  (forall g, (exists r, holds ids r g) ->
     ((L g <= Z.of_nat (length ids))%Z <-> length (holders ids g) = 1)) /\
  (forall g, (exists r, holds ids r g) -> (1 <= L g < num)%Z).
Proof. exact cliques_are_sharing_classes. Qed.
Print Assumptions C03_cliques_are_sharing_classes.

(** C04: same sequence of collectives on all ranks; every shared node of a rank is in exactly
    one clique, over the communicator of exactly its holders (identified by the same split call
    on all of them); a private node is in none. *)
Theorem C04_collective_order :
  forall ids, all_nodup ids ->
  exists colors, rank_colors ids = Ok colors /\ length colors = length ids /\
    (forall r r', r < length ids -> r' < length ids -> split_calls colors r = split_calls colors r').
Proof. exact collective_order. Qed.
Print Assumptions C04_collective_order.

Theorem C04_communicators_line_up :
  forall ids, all_nodup ids ->
  exists cls num_of, generate_reduction_info ids = Ok cls /\ length cls = length ids /\
   (forall r i node, nth_error (nth r ids []) i = Some node ->
     (forall k cl, nth_error (nth r cls []) k = Some cl -> In i (cl_indices cl) ->
        1 < length (holders ids node) /\ cl_comm cl = Comm (num_of node) (holders ids node)) /\
     (1 < length (holders ids node) ->
        exists k cl, nth_error (nth r cls []) k = Some cl /\ In i (cl_indices cl)) /\
     (forall k k' cl cl', nth_error (nth r cls []) k = Some cl -> nth_error (nth r cls []) k' = Some cl' ->
        In i (cl_indices cl) -> In i (cl_indices cl') -> k = k')).
Proof. exact node_cliques. Qed.
Print Assumptions C04_communicators_line_up.

(** C05 *)
Theorem C05_each_clique_once :
  forall answers K res, poll_loop answers (seq 0 K) 0 [] = Some res -> Permutation res (seq 0 K).
Proof. exact poll_each_once. Qed.
Print Assumptions C05_each_clique_once.

Theorem C05_terminates_exactly_when_all_complete :
  forall answers K,
  (exists res, poll_loop answers (seq 0 K) 0 [] = Some res) <-> K <= length (filter (fun b => b) answers).
Proof. exact poll_terminates. Qed.
Print Assumptions C05_terminates_exactly_when_all_complete.

(** C06 *)
Theorem C06_dense_renumbering :
  forall maxlen ids, Forall (fun l => length l <= maxlen) (tl ids) ->
  exists f : Z -> Z,
    pack_id_space maxlen ids = Ok (map (map f) ids) /\
    (forall x y, In x (concat ids) -> In y (concat ids) -> f x = f y -> x = y) /\
    (forall k, (exists x, In x (concat ids) /\ f x = k) <->
               (0 <= k < Z.of_nat (length (nodup Z.eq_dec (concat ids))))%Z).
Proof. exact pack_id_space_spec. Qed.
Print Assumptions C06_dense_renumbering.

(** C07 *)
Theorem C07_group_consecutive :
  forall (K V : Type) (keqb : K -> K -> bool), (forall a b, keqb a b = true <-> a = b) ->
  forall lst : list (K * V),
  exists res, group_consecutive keqb lst = Ok res /\
    flat_map (fun g => map (fun v => (fst g, v)) (snd g)) res = lst /\
    Forall (fun g => snd g <> []) res /\
    (forall i g g', nth_error res i = Some g -> nth_error res (S i) = Some g' -> fst g <> fst g').
Proof. exact (fun K V keqb H lst => group_consecutive_spec keqb H lst). Qed.
Print Assumptions C07_group_consecutive.

(** C47: tiling holds; the pointer-pair constructor of a view is wrong. *)
Theorem C47_partition_tiles :
  forall (A : Type) (ls : list (list A)),
  partition_into_arrayviews (concat ls) (map (@length A) ls) = ls.
Proof. exact (@MpiSetupProofs.partition_concat). Qed.
Print Assumptions C47_partition_tiles.

Theorem C47_pointer_pair_view_refuted :
  exists size b e : Z, (0 < size)%Z /\ (exists n, (0 <= n)%Z /\ e = (b + n * size)%Z) /\
    av_end size (av_begin_end size b e) <> e.
Proof. exact arrayview_pointer_pair_wrong. Qed.
Print Assumptions C47_pointer_pair_view_refuted.

(** C49: gathering the ranks' vectors on the root loses or misplaces data. *)
Theorem C49_gather_refuted : exists c : list (list Z), gather c <> c.
Proof. exact gather_loses_data. Qed.
Print Assumptions C49_gather_refuted.
