(** C77, C78: runs with Tpetra: sums over the ranks (C77) and the tangent matrix (C78). *)
From Coq Require Import Reals Lra Permutation.
From Verif Require Import Base Loops DataModel MpiModel MpiSpec MpiFinal TpetraModel TpetraSpec TpetraProofs TpetraProofs2 TpetraProofs3 PropMpi.
Set Implicit Arguments.
Local Open Scope nat_scope.
Local Open Scope list_scope.

(** For every number of ranks, every distribution of nodes (no rank lists a node twice), every order
    the library may use and every history of calls with scalars or vectors: every call succeeds, gives
    every rank, for every node, the sum of the values all ranks holding the node passed to this call
    (earlier calls leave no trace), and leaves memory behind the declared nodes alone. *)
Theorem C77_reduction :
  forall lib dim ids, library_ok lib -> tl_keep lib = false -> all_nodup ids ->
  exists t, initialize lib dim (map (@length Z) ids) ids = Ok t /\
    forall calls, Forall (fun c => length (snd c) = length ids /\ (fst c = 1 \/ fst c = dim)) calls ->
    exists results, history lib t calls = Ok results /\ length results = length calls /\
      forall k fs data data', nth_error calls k = Some (fs, data) -> nth_error results k = Some data' ->
        length data' = length ids /\
        forall r d d', nth_error data r = Some d -> nth_error data' r = Some d' ->
          (forall i node j, nth_error (nth r ids []) i = Some node -> j < fs ->
             d' (i * fs + j) = rsum (holder_values fs ids data node j)) /\
          (forall x, length (nth r ids []) * fs <= x -> d' x = d x).
Proof.
  intros lib dim ids Hl Hk Hn. destruct (@initialize_ok lib dim ids Hl) as (t & E & I & _).
  exists t. split; [exact E|]. clear E. intros calls. revert t I.
  induction calls as [|[fs data] calls IH]; intros t I H; simpl.
  - exists []. split; auto. split; auto. intros [|k]; simpl; congruence.
  - inversion H as [|? ? (L & Hf) H']; subst. simpl in L, Hf.
    destruct (@vector_reduction_ok lib dim ids t fs data Hl Hk Hn I L Hf) as (t' & data' & E & I' & M).
    rewrite E. cbn [obind fst snd]. destruct (IH t' I' H') as (rs & Er & Lr & Hr). rewrite Er. cbn [obind].
    exists (data' :: rs). split; auto. split; [simpl; auto|].
    intros [|k] fs0 d0 d1; simpl; [|apply Hr]. intros E0 E1. injection E0 as <- <-. injection E1 as <-. exact M.
Qed.
Print Assumptions C77_reduction.

(** The same arrays, given to the communicator without Tpetra (C01), end with the same numbers: a run
    does not depend on which of the two sums its vectors. *)
Theorem C77_same_as_without_tpetra :
  forall lib dim ids (data : list (nat -> R)) fs, library_ok lib -> tl_keep lib = false -> all_nodup ids -> length data = length ids ->
  1 <= fs <= 3 -> fs = 1 \/ fs = dim ->
  exists t t' data' cls, initialize lib dim (map (@length Z) ids) ids = Ok t /\ vector_reduction lib t fs data = Ok (t', data') /\
    generate_reduction_info ids = Ok cls /\
    forall sched g, perform_reduction rsum fs cls data sched = Ok g ->
      forall r s d', nth_error g r = Some s -> rs_pc s = PDone -> nth_error data' r = Some d' -> forall x, d' x = rs_mem s x.
Proof.
  intros lib dim ids data fs Hl Hk Hn L Hfs Hf.
  destruct (@initialize_ok lib dim ids Hl) as (t & E & I & _).
  destruct (@vector_reduction_ok lib dim ids t fs data Hl Hk Hn I L Hf) as (t' & data' & E' & _ & (Ld & M)).
  destruct (@C01_reduction_sums_shared_nodes ids data fs Hn L Hfs) as (cls & Ec & HC).
  destruct (@C02_reduction_frame R rsum ids data fs Hn L Hfs) as (cls' & Ec' & HF).
  rewrite Ec in Ec'. injection Ec' as <-.
  exists t, t', data', cls. split; auto. split; auto. split; auto.
  intros sched g Eg r s d' Hs Hp Hd' x.
  destruct (HC sched) as (g1 & E1 & H1 & _). rewrite Eg in E1. injection E1 as <-.
  destruct (HF sched) as (g2 & E2 & _ & H2 & _). rewrite Eg in E2. injection E2 as <-.
  destruct (nth_error data r) as [d|] eqn:Ed.
  2:{ apply nth_error_None in Ed. assert (r < length data') by (apply nth_error_Some; congruence). lia. }
  destruct (M r d d' Ed Hd') as (M1 & M2).
  destruct (H2 r s Hs) as (_ & H2'). destruct (H2' Hp d Ed) as (_ & H2''). destruct (H1 r s Hs) as (_ & H1').
  destruct (Nat.lt_ge_cases x (length (nth r ids []) * fs)) as [Lx|Lx].
  - set (i := x / fs). set (j := x mod fs). assert (Hj : j < fs) by (apply Nat.mod_upper_bound; lia).
    assert (Ex : x = i * fs + j) by (unfold i, j; rewrite Nat.mul_comm; apply Nat.div_mod; lia).
    assert (Hi : i < length (nth r ids [])) by nia.
    rewrite Ex. pose proof (nth_error_nth' (nth r ids []) 0%Z Hi) as Hnode.
    rewrite (M1 i _ j Hnode Hj). symmetry. exact (H1' Hp i _ j Hnode Hj).
  - rewrite M2 by auto. symmetry. exact (H2'' x Lx).
Qed.
Print Assumptions C77_same_as_without_tpetra.

(** Any other number of components is treated as scalars: only the first entries of the array, one per
    node, are summed, and all others keep the rank's own contribution. *)
Theorem C77_other_lengths_refuted :
  forall lib dim ids (data : list (nat -> R)) fs, library_ok lib -> tl_keep lib = false -> all_nodup ids -> length data = length ids ->
  fs <> dim ->
  exists t t' data', initialize lib dim (map (@length Z) ids) ids = Ok t /\ vector_reduction lib t fs data = Ok (t', data') /\
    forall r d d', nth_error data r = Some d -> nth_error data' r = Some d' -> forall x, length (nth r ids []) <= x -> d' x = d x.
Proof.
  intros lib dim ids data fs Hl Hk Hn L Hf.
  destruct (@initialize_ok lib dim ids Hl) as (t & E & I & _).
  destruct I as [D I M1 O1 V1 W1 M3 O3 V3 W3].
  destruct (@call_ok lib ids (@length Z) ids data (tp_vec1 t) (tp_vone1 t)) as
    (v & one & v' & data' & E1 & E2 & E3 & E4 & F' & Fo & Ld & H & _); auto.
  eexists t, _, data'. split; [exact E|]. split.
  - unfold vector_reduction. rewrite D. apply Nat.eqb_neq in Hf. rewrite Hf. cbv [negb]. cbv iota.
    rewrite I, M1, O1, E1. cbn [obind]. rewrite <- E2, <- E3, E4. reflexivity.
  - intros r d d' Hd Hd'. exact (proj2 (H r d d' Hd Hd')).
Qed.
Print Assumptions C77_other_lengths_refuted.
(** Two ranks sharing one node, a symmetric tensor of ones: the second component is not summed. *)
Definition plain (keep : bool) : tlib := TLib (fun _ l => l) (fun _ l => l) (fun _ _ l => l) keep.
Lemma plain_ok keep : library_ok (plain keep).
Proof. split; [|split]; intros; apply Permutation_refl. Qed.
Example C77_tensor_not_summed :
  exists t t' d0 d1, initialize (plain false) 3 [1; 1] [[7%Z]; [7%Z]] = Ok t /\
    field_reduction (plain false) t SYMMETRIC_TENSOR [fun _ => 1%R; fun _ => 1%R] = Ok (t', [d0; d1]) /\ d0 0 = 2%R /\ d0 1 = 1%R.
Proof.
  eexists _, _, _, _. split; [reflexivity|]. split; [reflexivity|]. split; cbn; lra.
Qed.

(** Were doExport with ADD to add to what the target already holds for local ids, too, a second call
    would return the first call's sums on top of its own: the container never clears its vectors. *)
Theorem C77_depends_on_replacing :
  forall lib dim ids (data1 data2 : list (nat -> R)), library_ok lib -> tl_keep lib = true -> all_nodup ids ->
  length data1 = length ids -> length data2 = length ids -> dim <> 1 ->
  exists t results, initialize lib dim (map (@length Z) ids) ids = Ok t /\ history lib t [(1, data1); (1, data2)] = Ok results /\
    forall data' r d' i node, nth_error results 1 = Some data' -> nth_error data' r = Some d' -> nth_error (nth r ids []) i = Some node ->
      d' i = (rsum (holder_values 1 ids data1 node 0) + rsum (holder_values 1 ids data2 node 0))%R.
Proof.
  intros lib dim ids data1 data2 Hl Hk Hn L1 L2 Hd.
  destruct (@initialize_ok lib dim ids Hl) as (t & E & [D I M1 O1 V1 W1 M3 O3 V3 W3] & Z1 & _).
  destruct (@call_ok lib ids (@length Z) ids data1 (tp_vec1 t) (tp_vone1 t)) as
      (v & one & v' & d1 & E1 & E2 & E3 & E4 & F' & Fo & Ld & H & Hone); auto.
  destruct (@call_ok lib ids (@length Z) ids data2 v' one) as
      (u & two & u' & d2 & E1' & E2' & E3' & E4' & F2' & Fo' & Ld' & H' & _); auto.
  exists t, [d1; d2]. split; [exact E|]. split.
  - cbn [history fst snd]. unfold vector_reduction. rewrite D. assert (Hf : (1 =? dim) = false) by (apply Nat.eqb_neq; auto).
    rewrite Hf. cbv [negb]. cbv iota. rewrite I, M1, O1, E1. cbn [obind]. rewrite <- E2, <- E3, E4. cbn [obind fst snd tp_dim tp_ids tp_map1 tp_one1 tp_vec1 tp_vone1].
    rewrite Hf. cbv [negb]. cbv iota. rewrite E1'. cbn [obind]. rewrite <- E2', <- E3', E4'. reflexivity.
  - intros data' r d' i node Er Hr Hi. cbn in Er. injection Er as <-.
    destruct (nth_error data2 r) as [d|] eqn:Ed.
    2:{ apply nth_error_None in Ed. assert (r < length d2) by (apply nth_error_Some; congruence). lia. }
    destruct (proj1 (H' r d d' Ed Hr) i node Hi) as (x & Hx & ->). rewrite Hk.
    assert (Ho : In node (nth (first_holder ids node) (one_of lib ids) [])).
    { apply one_of_In; auto. split; auto. exact (@first_holder_holds ids node r (nth_error_In _ _ Hi)). }
    destruct (@entry_In _ _ _ _ W1 Ho) as (y & Hy).
    rewrite (Hone _ _ _ Ho Hy), Hk in Hx. injection Hx as <-.
    assert (y = 0%R) as ->; [|lra].
    rewrite Z1 in Hy. unfold entry in Hy. destruct (index_of node (nth (first_holder ids node) (one_of lib ids) [])); [|congruence].
    apply nth_error_In in Hy. unfold vec_new in Hy.
    destruct (Nat.lt_ge_cases (first_holder ids node) (length (one_of lib ids))) as [Lf|Lf].
    + erewrite nth_indep in Hy; [|rewrite map_length; exact Lf].
      rewrite (map_nth (fun l => repeat 0%R (length l)) (one_of lib ids) [] (first_holder ids node)) in Hy. now apply repeat_spec in Hy.
    + rewrite nth_overflow in Hy by (rewrite map_length; exact Lf). destruct Hy.
Qed.
Print Assumptions C77_depends_on_replacing.

(** Allocating the tangent matrix always succeeds on a rank whose connectivity is complete; it has an
    entry exactly for the pairs of degrees of freedom some element couples, each once, the reported
    number of nonzeros is their number, and all values start at 0. *)
Theorem C78_matrix_pattern :
  forall dim ids blocks, Forall (block_ok ids) blocks ->
  exists a, allocate_tangent dim ids blocks = Ok a /\ NoDup (entries_of a) /\ num_nonzeros a = length (entries_of a) /\
    (forall r c, In (r, c) (entries_of a) <-> coupled_dofs dim ids blocks r c) /\
    (forall e c x, In e a -> In (c, x) (snd e) -> x = 0%R).
Proof.
  intros dim ids blocks H. destruct (@allocate_ok dim ids blocks H) as (m & E & W & Hm).
  exists (with_zeros m). split; auto. split; [now apply NoDup_entries|]. split; [apply num_nonzeros_entries|]. split.
  - intros r c. rewrite entries_with_zeros. apply Hm.
  - intros e c x He Hc. unfold with_zeros in He. apply in_map_iff in He as ([r s] & <- & _). cbn [snd] in Hc.
    apply in_map_iff in Hc as (c' & E' & _). congruence.
Qed.
Print Assumptions C78_matrix_pattern.
(** Setting all values changes the values and nothing else. *)
Theorem C78_set_scalar :
  forall a x, entries_of (set_scalar a x) = entries_of a /\ forall e c y, In e (set_scalar a x) -> In (c, y) (snd e) -> y = x.
Proof.
  intros a x. split.
  - unfold entries_of, set_scalar. induction a as [|e a IH]; simpl; auto. rewrite IH, map_map. reflexivity.
  - intros e c y He Hc. unfold set_scalar in He. apply in_map_iff in He as (e' & <- & _). cbn [snd] in Hc.
    apply in_map_iff in Hc as (c' & E & _). congruence.
Qed.
Print Assumptions C78_set_scalar.
(** Writing one value never works: the call ends the program for every matrix, row, column and value. *)
Theorem C78_replace_value_refuted : forall a row col value, replace_value a row col value = Abort.
Proof.
  intros a row col value. unfold replace_value, sum_into_local. destruct (nth_error a row) as [e|]; [|reflexivity].
  cbn [map fst existsb]. assert (E : forall l : list (Z * R), filter (fun _ => false) l = []) by (induction l; auto).
  rewrite E. reflexivity.
Qed.
Print Assumptions C78_replace_value_refuted.

(** A case that meets the hypotheses: two ranks sharing two of their three nodes, vectors. *)
Example C77_example :
  all_nodup [[4; 7; 9]; [9; 2; 4]]%Z /\
  exists t, initialize (plain false) 3 [3; 3] [[4; 7; 9]; [9; 2; 4]]%Z = Ok t /\ tp_one1 t = [[4; 7; 9]; [2]]%Z /\
  match vector_reduction (plain false) t 1 [INR; fun i => (10 * INR i)%R] with
  | Ok (_, [d0; d1]) => d0 2 = (2 + 0)%R /\ d1 0 = d0 2 /\ d0 1 = 1%R /\ d1 2 = d0 0 /\ d0 3 = INR 3
  | _ => False
  end.
Proof.
  split; [repeat constructor; simpl; lia|]. eexists. split; [reflexivity|]. split; [reflexivity|]. cbn.
  repeat split; lra.
Qed.
(** One block with two bars over three nodes. *)
Example C78_example :
  let b := TBlock 2 2 [0; 1; 1; 2] in block_ok [5; 3; 8]%Z b /\
  match allocate_tangent 1 [5; 3; 8]%Z [b] with Ok a => entries_of a = [(3, 3); (3, 5); (3, 8); (5, 3); (5, 5); (8, 3); (8, 8)]%Z | _ => False end.
Proof. split; [split; [reflexivity|repeat constructor; simpl; lia]|reflexivity]. Qed.
