(** C65: what is written for the elements. *)
From Coq Require Import Reals Lra.
From Verif Require Import Base ListLemmas Strings DataModel DataSpec DataProofs Loops ElemDataModel ElemDataSpec ElemDataModel2 ElemDataProofs ElemDataProofs2 ElemDataProofs3 ElemDataProofs4 ElemDataProofs5 ElemDataProofs6 ElemDataProofs7 ElemDataProofs8 PropElemData.
From Verif Require Import TensorModel TensorSpec TensorProofs ElementModel ElementSpec ElementProofs5 PropElement.
From Coq Require Import NArith.
Set Implicit Arguments.
Local Open Scope nat_scope.
Local Open Scope list_scope.
Local Notation length := List.length.

(** C65: the output of "iptNN_label" is, for every element, the value stored for that integration point. *)
Theorem C65_point_output : forall T (data : list T) nip states ne i q, good_states states -> nip <> 0 -> length data = ne * per_element nip states ->
  i < nip -> valid states q ->
  exists col, element_output (all_labels nip states) data (point_label states i q) = Ok col /\ length col = ne /\
    forall e, e < ne -> nth_error col e = stored data nip states e i q /\ stored data nip states e i q <> None.
Proof.
  intros T data nip states ne i q Hg Hn L Hi Hq. unfold element_output. rewrite all_labels_length, (@positions_point nip states i q Hg Hi Hq). cbn [rev app].
  pose proof (@slot_lt _ _ _ _ Hi Hq) as Hlt. destruct (Nat.eqb_spec (per_element nip states) 0) as [E0|E0]; [lia|]. rewrite L, Nat.div_mul by auto.
  assert (Hx : forall e, e < ne -> exists x, nth_error data (e * per_element nip states + slot states i q) = Some x).
  { intros e He. destruct (nth_error data _) eqn:E; [eauto|]. apply nth_error_None in E. pose proof (@cell_lt nip states ne e i q He Hi Hq). lia. }
  assert (Hd : ne = 0 \/ exists d : T, True). { destruct ne; auto. right. destruct (Hx 0) as (x & _); [lia|eauto]. }
  destruct Hd as [->|(d & _)]. { exists []. split; [reflexivity|]. split; auto. intros; lia. }
  exists (map (fun e => nth (e * per_element nip states + slot states i q) data d) (seq 0 ne)). split; [|split].
  - apply omapM_ok. intros e He. apply in_seq in He. apply vget_some, nth_error_nth'. rewrite L. apply cell_lt; auto. lia.
  - now rewrite map_length, seq_length.
  - intros e He. destruct (Hx e He) as (x & Ex). unfold stored. rewrite Ex. split; [|discriminate].
    rewrite nth_error_map, (nth_error_nth' (seq 0 ne) 0) by now rewrite seq_length. rewrite seq_nth by auto. cbn. now rewrite (nth_error_nth _ _ _ Ex).
Qed.
Print Assumptions C65_point_output.

(** C65: whatever output request the set-up accepted can be served at any later time: the columns of
    values per integration point all exist. *)
Theorem C65_accepted_requests : forall T (zero one : T) of_int bs rs t request d os b, acceptable bs -> node_history rs t ->
  initialize_blocks zero one of_int (before_blocks T t) bs request = Ok (d, os) -> In b bs ->
  exists labels out derived, assoc Nat.eqb (b_id b) (ed_labels d) = Some labels /\ assoc Nat.eqb (b_id b) (ed_out d) = Some out /\
    assoc Nat.eqb (b_id b) (ed_derived d) = Some derived /\
    (forall l (data : list T), In l out -> length data = b_size b -> exists i q col, i < b_nip b /\ valid (b_labels b) q /\ l = point_label (b_labels b) i q /\
       element_output labels data l = Ok col /\ length col = length (b_elems b) /\
       forall e, e < length (b_elems b) -> nth_error col e = stored data (b_nip b) (b_labels b) e i q) /\
    (forall l, In l derived -> l = lit "volume" \/ exists q, valid (b_labels b) q /\ l = plain_label (b_labels b) q).
Proof.
  intros T zero one of_int bs rs t request d os b Hacc Ht E Hb. pose proof Hacc as [H1 H2 H3 H4 H5]. apply (@node_table T bs) in Ht.
  destruct (@initialize_ok T zero one of_int bs H2 H3 H4 H1 H5 t Ht [] request) as [(d' & os' & E' & H)|E']; unfold fresh, before_blocks in *; [|congruence].
  assert (Eq : (d', os') = (d, os)) by congruence. injection Eq as -> ->.
  destruct (H b Hb) as (v & lo & ld & o & W1 & W2 & W3 & W4 & W5 & W6 & W7 & W8 & W9 & W10 & W11).
  exists (all_labels (b_nip b) (b_labels b)), lo, ld. do 3 (split; [assumption|]). split.
  - intros l data Hl L. rewrite Forall_forall in W8. destruct (W8 l Hl) as (i & q & Hi & Hq & ->).
    destruct (@C65_point_output T data (b_nip b) (b_labels b) (length (b_elems b)) i q (H2 b Hb) (proj1 (H5 b Hb)) L Hi Hq) as (col & Ec & Lc & Hc).
    exists i, q, col. repeat split; auto. intros e He. apply Hc. auto.
  - intros l Hl. rewrite Forall_forall in W9. apply W9. exact Hl.
Qed.

(** Element::ComputeVolumeAverage called for element [e] of the block whose current node coordinates
    are [coords e], as in nimble_block.cc 465-489. *)
Definition volume_average_of (coords : nat -> nat -> R) (e nq : nat) (qs : list R) : outcome (R * list R) :=
  do r <- compute_volume_average (coords e) nq (fun i => nth i qs 0%R) (fun _ => 0%R);
  Ok (fst r, map (snd r) (seq 0 nq)).

(** C65: the derived data of a block of hexahedra: the column asked for by "volume" holds the current
    volume of each element, and the column of any other quantity its average over the integration
    points, weighted by their current volumes. *)
Theorem C65_derived_output : forall states ne derived o data coords old,
  good_states states -> derived <> [] -> (forall l, In l derived -> l = lit "volume" \/ exists q, valid states q /\ l = plain_label states q) ->
  determine_data_offsets 3 8 states (all_labels 8 states) derived = Ok o -> length data = ne * per_element 8 states ->
  (forall e, e < ne -> well_shaped (nodes (coords e))) ->
  exists rows, compute_derived 0%R o 8 ne (per_element 8 states) (length derived) (volume_average_of coords) data old = Ok rows /\ length rows = length derived /\
    (forall k row, nth_error rows k = Some row -> length row = ne) /\
    forall k l, nth_error derived k = Some l -> exists row, nth_error rows k = Some row /\ forall e, e < ne ->
      (l = lit "volume" -> (forall k', nth_error derived k' = Some (lit "volume") -> k' = k) -> nth_error row e = Some (element_volume (nodes (coords e)))) /\
      (forall q, l <> lit "volume" -> l = plain_label states q -> valid states q ->
         exists a, nth_error row e = Some a /\
           (element_volume (nodes (coords e)) * a =
            Rsum 8 (fun p => mdet (jac (nodes (coords e)) p) * match stored data 8 states e p q with Some x => x | None => 0 end))%R).
Proof.
  intros states ne derived o data coords old Hg Hnd Hder Ho L Hw.
  set (vol := fun e => element_volume (nodes (coords e))).
  set (mean := fun e (f : nat -> R) => (Rsum 8 (fun p => mdet (jac (nodes (coords e)) p) * f p) / vol e)%R).
  destruct (@derived_spec R 0%R 8 states ne derived o Hg ltac:(discriminate) Hder Ho data L (volume_average_of coords) vol mean) with (old := old) as (rows & E & (Ls & Hs) & H).
  - intros e f g Hfg. unfold mean. f_equal. apply Rsum_ext. intros p Hp. now rewrite Hfg.
  - intros e nq qs He Lq. unfold volume_average_of.
    destruct (@C54_volume_average (coords e) nq (fun i => nth i qs 0%R) (fun _ => 0%R) (Hw e He)) as (v & out & Ec & Hv & Hp & Hout & _).
    rewrite Ec. cbn [obind fst snd]. exists (map out (seq 0 nq)). split; [unfold vol; now rewrite <- Hv|]. split; [now rewrite map_length, seq_length|].
    intros i Hi. rewrite nth_error_map, (nth_error_nth' (seq 0 nq) 0) by now rewrite seq_length. rewrite seq_nth by auto. cbn [option_map Nat.add]. f_equal.
    unfold mean, vol. rewrite <- Hv. apply Rmult_eq_reg_l with v; [|lra]. rewrite Hout by auto. field_simplify; [|lra]. apply Rsum_ext. intros p _. f_equal. f_equal. lia.
  - destruct derived; [congruence|discriminate].
  - exists rows. split; [exact E|]. split; [exact Ls|]. split; [exact Hs|]. intros k l Hk.
    assert (Hkl : k < length derived) by (apply nth_error_Some; congruence).
    destruct (nth_error rows k) as [row|] eqn:Er; [|apply nth_error_None in Er; lia]. exists row. split; [reflexivity|]. intros e He. split.
    + intros -> Honly. destruct (H k e (DefGrad 0) Hkl He) as (Hv & _). unfold cell in Hv. rewrite Er in Hv. apply Hv.
      destruct (last_volume derived) as [k'|] eqn:El.
      * destruct (last_volume_spec _ El) as (Hk' & _). f_equal. now apply Honly.
      * exfalso. apply (last_volume_none _ El). now apply nth_error_In in Hk.
    + intros q Hl -> Hq. destruct (H k e q Hkl He) as (_ & Hm). unfold cell in Hm. rewrite Er in Hm. exists (mean e (fun p => value_at 0%R 8 states data e p q)).
      split; [apply Hm; auto|]. unfold mean, value_at. pose proof (volume_pos (Hw e He)) as Hpos. fold (vol e) in *. field. now apply Rgt_not_eq.
Qed.
Print Assumptions C65_derived_output.
(** A case: one cube, output "volume stress_xx". *)
Example C65_used : exists o rows, let derived := [lit "volume"; lit "stress_xx"] in let data := repeat 3%R (per_element 8 []) in
  determine_data_offsets 3 8 [] (all_labels 8 []) derived = Ok o /\
  compute_derived 0%R o 8 1 (per_element 8 []) 2 (volume_average_of (fun _ => cube)) data [] = Ok rows /\
  rows = [[8%R]; [3%R]].
Proof.
  assert (Hg : good_states []). { split; [constructor|]. split; [intros s []|]. split; intros s c []. }
  assert (Hd : forall l, In l [lit "volume"; lit "stress_xx"] -> l = lit "volume" \/ exists q, valid [] q /\ l = plain_label [] q).
  { intros l [<-|[<-|[]]]; [now left|right]. exists (Stress 0). split; [cbn; lia|reflexivity]. }
  destruct (@offsets_spec 8 [] _ Hg ltac:(discriminate) Hd) as (o & Ho & _).
  destruct C27_cube as (Hw & Hv & _).
  destruct (@C65_derived_output [] 1 [lit "volume"; lit "stress_xx"] o (repeat 3%R (per_element 8 [])) (fun _ => cube) [] Hg ltac:(discriminate) Hd Ho) as (rows & E & L & Hr & H); [reflexivity|auto|].
  exists o, rows. split; [exact Ho|]. split; [exact E|].
  destruct (H 0 (lit "volume") eq_refl) as (r0 & E0 & H0). destruct (H 1 (lit "stress_xx") eq_refl) as (r1 & E1 & H1).
  destruct (H0 0 (Nat.lt_0_1)) as (A & _). destruct (H1 0 (Nat.lt_0_1)) as (_ & B).
  specialize (A eq_refl). rewrite Hv in A. specialize (B (Stress 0) ltac:(discriminate) eq_refl). destruct B as (a & Ea & Ha); [cbn; lia|].
  assert (a = 3%R).
  { rewrite Hv in Ha. apply Rmult_eq_reg_l with 8%R; [|lra]. rewrite Ha.
    transitivity (Rsum 8 (fun p => mdet (jac (nodes cube) p) * 3)%R).
    - apply Rsum_ext. intros p Hp. f_equal. unfold stored. do 8 (destruct p as [|p]; [reflexivity|]). lia.
    - rewrite <- Hv. unfold element_volume. cbn [Rsum]. ring. }
  subst a. assert (Lr0 := Hr _ _ E0). assert (Lr1 := Hr _ _ E1). cbn [length] in L.
  destruct rows as [|x [|y [|? ?]]]; try discriminate L. cbn in E0, E1. injection E0 as ->. injection E1 as ->.
  destruct r0 as [|u [|? ?]]; try discriminate Lr0. destruct r1 as [|w [|? ?]]; try discriminate Lr1. cbn in Ea. injection Ea as ->.
  assert (Hu : Some u = Some 8%R). { apply A. intros [|[|k']]; auto; try discriminate. destruct k'; discriminate. }
  injection Hu as ->. reflexivity.
Qed.

(** Needed restrictions: asking for "volume" twice leaves the first of the two columns at zero for
    ever; two blanks in a row in the request stop the program. *)
Theorem C65_volume_twice_refuted :
  let derived := [lit "volume"; lit "volume"] in
  exists o, determine_data_offsets 3 8 [] (all_labels 8 []) derived = Ok o /\
    compute_derived 0%Z o 8 1 (per_element 8 []) 2 (fun _ _ _ => Ok (7%Z, [])) (repeat 3%Z (per_element 8 [])) [] = Ok [[0%Z]; [7%Z]].
Proof. eexists. split; vm_compute; reflexivity. Qed.
Theorem C65_two_blanks_refuted :
  let bs := [Block 1 8 [] [1%Z]] in
  let run := fun request => match initialize_blocks 0%Z 1%Z (fun z => z) (before_blocks Z []) bs request with Ok (d, _) => Ok (ed_derived d) | Abort => Abort | Throw => Throw | UB => UB end in
  run (lit "stress_xx volume") = Ok [(1, [lit "stress_xx"; lit "volume"])] /\ run (lit "stress_xx  volume") = Abort.
Proof. vm_compute. split; reflexivity. Qed.
