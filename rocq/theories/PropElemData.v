(** C44 (element data start at the identity and zero), C64 (element data are kept per integration
    point and carried from step to step). *)
From Verif Require Import Base ListLemmas Strings DataModel DataSpec DataProofs Loops ElemDataModel ElemDataSpec ElemDataModel2 ElemDataProofs ElemDataProofs2 ElemDataProofs3 ElemDataProofs4 ElemDataProofs5 ElemDataProofs6 ElemDataProofs7 ElemDataProofs8.
From Coq Require Import NArith Sorted.
Set Implicit Arguments.
Local Open Scope nat_scope.
Local Open Scope list_scope.
Local Notation length := List.length.

(** The model data before the blocks are set up: the node fields have been registered (their labels
    do not start with "ipt"), nothing else. *)
Definition node_history (rs : list request) (t : list (nat * field)) : Prop :=
  (exists ids, register_all rs = Ok (t, ids)) /\ forall r, In r rs -> snd (fst r) = NODE /\ starts_with (lit "ipt") (tolower (rq_label r)) = false.
Definition before_blocks (T : Type) (t : list (nat * field)) : elem_data T := ED 3 t [] [] [] [] [] [] [] [].

Lemma node_table {T} (bs : list (block T)) rs t : node_history rs t -> table_good bs t.
Proof.
  intros ((ids & E) & Hn).
  assert (Hc : history_inv rs t ids) by (destruct (register_all_cases rs) as [(_ & t' & ids' & E' & H)|(_ & E')]; congruence).
  split; [apply Hc|]. intros k f Hin. left. destruct (hi_first Hc _ _ Hin) as (i & r & Er & Eid & El & _).
  destruct (hi_req Hc _ Er Eid) as (f' & Hin' & _ & Ea). 
  assert (f' = f) by (pose proof (proj1 (table_assoc k f (hi_tab Hc)) Hin); pose proof (proj1 (table_assoc k f' (hi_tab Hc)) Hin'); congruence). subst f'.
  destruct (Hn r (nth_error_In _ _ Er)) as (Hr & Hp). unfold rq_attr in Ea. rewrite El. split; [congruence|exact Hp].
Qed.

(** C44: after the set-up of any acceptable blocks with any output request, unless the request names
    something unknown (then the program stops), every deformation gradient of every integration point
    of every element is the identity and every stress is zero, in both containers.  Also the special
    state variables global_elem_id and ipt_id hold their numbers.  Missing from the property: the
    requested initial values of the other state variables (see the refutation below). *)
Theorem C44_start_partial : forall T (zero one : T) of_int bs rs t request, acceptable bs -> node_history rs t ->
  (exists d os, initialize_blocks zero one of_int (before_blocks T t) bs request = Ok (d, os) /\
    forall b, In b bs -> exists v,
      assoc Nat.eqb (b_id b) (ed_n d) = Some v /\ assoc Nat.eqb (b_id b) (ed_np1 d) = Some v /\ length v = b_size b /\
      forall e i q, e < length (b_elems b) -> i < b_nip b -> valid (b_labels b) q ->
        stored v (b_nip b) (b_labels b) e i q = Some (start_value zero one of_int b e i q)) \/
  initialize_blocks zero one of_int (before_blocks T t) bs request = Abort.
Proof.
  intros T zero one of_int bs rs t request [H1 H2 H3 H4 H5] Ht. apply (@node_table T bs) in Ht.
  destruct (@initialize_ok T zero one of_int bs H2 H3 H4 H1 H5 t Ht [] request) as [(d & os & E & H)|E]; [left|right; exact E].
  exists d, os. split; [exact E|]. intros b Hb. destruct (H b Hb) as (v & lo & ld & o & W). exists v. tauto.
Qed.
Print Assumptions C44_start_partial.
Theorem C44_no_output_request : forall T (zero one : T) of_int bs rs t, acceptable bs -> node_history rs t ->
  exists d os, initialize_blocks zero one of_int (before_blocks T t) bs [] = Ok (d, os).
Proof.
  intros T zero one of_int bs rs t [H1 H2 H3 H4 H5] Ht. apply (@node_table T bs) in Ht.
  apply (@initialize_plain T zero one of_int bs H2 H3 H4 H1 H5 t Ht []).
Qed.

Definition example_block : block Z := Block 7 8 [(lit "damage", 5%Z); (lit "ipt_id", 0%Z)] [11%Z; 12%Z].
Definition example_requests : list request := [(lit "displacement", NODE, VECTOR); (lit "lumped_mass", NODE, SCALAR)].
Definition example_table : list (nat * field) := match register_all example_requests with Ok (t, _) => t | _ => [] end.
Lemma example_acceptable : acceptable [example_block].
Proof.
  constructor.
  - repeat constructor. intros [].
  - intros b [<-|[]]. split; [|split; [|split]].
    + cbn. repeat constructor; cbn; [intros [E|[]]; discriminate|intros []].
    + intros s [<-|[<-|[]]]; split; discriminate.
    + intros s c [<-|[<-|[]]] _; do 10 (destruct c as [|c]; [discriminate|]); discriminate.
    + intros s c [<-|[<-|[]]] _; do 7 (destruct c as [|c]; [discriminate|]); discriminate.
  - intros b b' s s' [<-|[]] [<-|[]] [<-|[<-|[]]] [<-|[<-|[]]]; auto; discriminate.
  - intros b s [<-|[]] [<-|[<-|[]]]; [left|right]; reflexivity.
  - intros b [<-|[]]. cbn. split; [discriminate|]. vm_compute. discriminate.
Qed.
Lemma example_history : node_history example_requests example_table.
Proof. split; [eexists; vm_compute; reflexivity|]. intros r [<-|[<-|[]]]; split; reflexivity. Qed.
Definition example_start := initialize_blocks 0%Z 1%Z (fun z => z) (before_blocks Z example_table) [example_block] [].
Example C44_used : acceptable [example_block] /\ node_history example_requests example_table /\ exists d os, example_start = Ok (d, os).
Proof. split; [apply example_acceptable|]. split; [apply example_history|]. eapply C44_no_output_request; [apply example_acceptable|apply example_history]. Qed.

(** C44 fails for state variables: a material that asks for the initial value 5 of "damage" gets 0 at
    every integration point (the value is looked up under the label with the integration point prefix). *)
Theorem C44_state_refuted : ~ (forall bs rs t, acceptable bs -> node_history rs t ->
  forall d os, initialize_blocks 0%Z 1%Z (fun z => z) (before_blocks Z t) bs [] = Ok (d, os) ->
  forall b, In b bs -> forall v, assoc Nat.eqb (b_id b) (ed_n d) = Some v ->
  forall e i s l x, e < length (b_elems b) -> i < b_nip b -> nth_error (b_states b) s = Some (l, x) -> l <> lit "ipt_id" -> l <> lit "global_elem_id" ->
    stored v (b_nip b) (b_labels b) e i (State s) = Some x).
Proof.
  intros H. destruct C44_used as (Ha & Hn & d & os & E).
  specialize (H _ _ _ Ha Hn d os E example_block (or_introl eq_refl)).
  destruct (@C44_start_partial Z 0%Z 1%Z (fun z => z) [example_block] _ _ [] Ha Hn) as [(d' & os' & E' & Hs)|E'].
  2:{ unfold example_start in E. congruence. }
  assert (Eq : (d', os') = (d, os)) by (unfold example_start in E; congruence). injection Eq as -> ->.
  destruct (Hs example_block (or_introl eq_refl)) as (v & Ev & _ & _ & Hv).
  assert (A : 0 < length (b_elems example_block)) by (cbn; lia). assert (B : 0 < b_nip example_block) by (cbn; lia).
  assert (C : valid (b_labels example_block) (State 0)) by (cbn; lia).
  specialize (H v Ev 0 0 0 (lit "damage") 5%Z A B eq_refl). rewrite (Hv 0 0 (State 0) A B C) in H.
  discriminate (H ltac:(discriminate) ltac:(discriminate)).
Qed.

(** C64: every quantity of every integration point of every element has a cell of its own, and the
    cells fill the container exactly. *)
Theorem C64_cells : forall nip states ne,
  (forall e i q, e < ne -> i < nip -> valid states q -> e * per_element nip states + slot states i q < ne * per_element nip states) /\
  (forall e i q e' i' q', i < nip -> i' < nip -> valid states q -> valid states q' ->
     e * per_element nip states + slot states i q = e' * per_element nip states + slot states i' q' -> e = e' /\ i = i' /\ q = q') /\
  (forall k, k < ne * per_element nip states -> exists e i q, e < ne /\ i < nip /\ valid states q /\ k = e * per_element nip states + slot states i q).
Proof.
  intros nip states ne. split; [|split].
  - intros e i q. apply cell_lt.
  - intros e i q e' i' q'. apply cell_inj.
  - intros k Hk. destruct (@flat_index ne (per_element nip states) k Hk) as (e & j & He & Hj & ->).
    destruct (@slot_onto nip states j Hj) as (i & q & Hi & Hq & ->). exists e, i, q. auto.
Qed.

Lemma offsets_good {nip states derived o} : good_states states -> nip <> 0 ->
  (forall l, In l derived -> l = lit "volume" \/ exists q, valid states q /\ l = plain_label states q) ->
  determine_data_offsets 3 nip states (all_labels nip states) derived = Ok o -> good_offsets nip states o.
Proof. intros H1 H2 H3 E. destruct (@offsets_spec nip states derived H1 H2 H3) as (o' & E' & A & B & C & _). assert (o' = o) by congruence. subst. repeat split; auto. Qed.

(** C64: one evaluation of the internal force over any sequence of elements of a block that was set up.
    The material is handed, for each integration point, exactly the deformation gradient, stress and
    state stored for that element in the container of the last step; afterwards the new container
    holds exactly what the material returned; elements not visited keep their values. *)
Theorem C64_evaluation : forall T (zero one : T) of_int bs rs t request d os b, acceptable bs -> node_history rs t ->
  initialize_blocks zero one of_int (before_blocks T t) bs request = Ok (d, os) -> In b bs ->
  let nip := b_nip b in let states := b_labels b in let ns := length states in let ne := length (b_elems b) in
  exists o labels, assoc Nat.eqb (b_id b) os = Some o /\ assoc Nat.eqb (b_id b) (ed_labels d) = Some labels /\
  forall (material : nat -> list T -> list T -> list T -> outcome (list T * list T * list T)) order old data,
    (forall e f s v, full_size nip ns (f, s, v) -> exists r, material e f s v = Ok r /\ full_size nip ns r) ->
    (forall e, In e order -> e < ne) -> length old = b_size b -> length data = b_size b ->
    exists new, update_block o (length labels) material old order data = Ok new /\ length new = b_size b /\
      (forall e, In e order -> exists f s v r, full_size nip ns (f, s, v) /\
         (forall i q, i < nip -> valid states q -> given ns (f, s, v) i q = stored old nip states e i q) /\
         material e f s v = Ok r /\ full_size nip ns r /\
         (forall i q, i < nip -> valid states q -> stored new nip states e i q = given ns r i q)) /\
      (forall e i q, ~ In e order -> i < nip -> valid states q -> stored new nip states e i q = stored data nip states e i q).
Proof.
  intros T zero one of_int bs rs t request d os b Hacc Ht E Hb nip states ns ne. pose proof Hacc as [H1 H2 H3 H4 H5]. apply (@node_table T bs) in Ht.
  destruct (@initialize_ok T zero one of_int bs H2 H3 H4 H1 H5 t Ht [] request) as [(d' & os' & E' & H)|E']; unfold fresh, before_blocks in *; [|congruence].
  assert (Eq : (d', os') = (d, os)) by congruence. injection Eq as -> ->.
  destruct (H b Hb) as (v & lo & ld & o & W1 & W2 & W3 & W4 & W5 & W6 & W7 & W8 & W9 & W10 & W11).
  exists o, (all_labels nip states). split; [exact W10|]. split; [exact W5|]. intros material order old data Ha Ho Lo Ld. rewrite all_labels_length.
  apply (@update_block_spec T nip states ne o material old order); auto.
  apply (@offsets_good nip states ld o (H2 b Hb) (proj1 (H5 b Hb))); auto. intros l Hl. rewrite Forall_forall in W9. apply W9. exact Hl.
Qed.
Print Assumptions C64_evaluation.

(** C64: the order in which the elements are processed (threads) does not matter, nor does anything
    computed before in the same step. *)
Theorem C64_order_independent : forall T nip states derived o ne (material : nat -> list T -> list T -> list T -> outcome (list T * list T * list T)) order order' old data data',
  good_states states -> nip <> 0 -> (forall l, In l derived -> l = lit "volume" \/ exists q, valid states q /\ l = plain_label states q) ->
  determine_data_offsets 3 nip states (all_labels nip states) derived = Ok o ->
  (forall e f s v, full_size nip (length states) (f, s, v) -> exists r, material e f s v = Ok r /\ full_size nip (length states) r) ->
  (forall e, In e order <-> e < ne) -> (forall e, In e order' <-> e < ne) ->
  length old = ne * per_element nip states -> length data = ne * per_element nip states -> length data' = ne * per_element nip states ->
  update_block o (per_element nip states) material old order data = update_block o (per_element nip states) material old order' data'.
Proof.
  intros T nip states derived o ne material order order' old data data' Hg Hn Hd Ho Ha Hor Hor' L1 L2 L3.
  pose proof (offsets_good Hg Hn Hd Ho) as Hoff.
  destruct (@update_block_spec T nip states ne o material old order Hoff Ha L1 (fun e H => proj1 (Hor e) H) data L2) as (c & E & Lc & Hc & _).
  destruct (@update_block_spec T nip states ne o material old order' Hoff Ha L1 (fun e H => proj1 (Hor' e) H) data' L3) as (c' & E' & Lc' & Hc' & _).
  rewrite E, E'. f_equal. apply (@stored_ext T nip states ne); auto. intros e i q He Hi Hq.
  apply (@computed_unique T nip states material old c c' e); auto; [apply Hc, Hor|apply Hc', Hor']; auto.
Qed.

(** C64: over any number of load steps, with any number of evaluations in each, the material sees in
    every step exactly what its last evaluation of the step before returned, starting from the
    initial values. *)
Fixpoint carried {T} (nip : nat) (states : list chars) (ne : nat) (steps : list (list (@evaluation T))) (start final : list T) : Prop :=
  match steps with
  | [] => final = start
  | st :: steps => exists before material order next, st = before ++ [(material, order)] /\
      length next = ne * per_element nip states /\
      (forall e, e < ne -> exists f s v r, full_size nip (length states) (f, s, v) /\
         (forall i q, i < nip -> valid states q -> given (length states) (f, s, v) i q = stored start nip states e i q) /\
         material e f s v = Ok r /\ full_size nip (length states) r /\
         (forall i q, i < nip -> valid states q -> stored next nip states e i q = given (length states) r i q)) /\
      carried nip states ne steps next final
  end.
Theorem C64_history : forall T (zero one : T) of_int bs rs t request d os b, acceptable bs -> node_history rs t ->
  initialize_blocks zero one of_int (before_blocks T t) bs request = Ok (d, os) -> In b bs ->
  let nip := b_nip b in let states := b_labels b in let ne := length (b_elems b) in
  exists o labels start, assoc Nat.eqb (b_id b) os = Some o /\ assoc Nat.eqb (b_id b) (ed_labels d) = Some labels /\
    assoc Nat.eqb (b_id b) (ed_n d) = Some start /\ assoc Nat.eqb (b_id b) (ed_np1 d) = Some start /\
  forall steps : list (list (@evaluation T)),
    (forall st ev, In st steps -> In ev st -> (forall e, In e (snd ev) -> e < ne) /\
       forall e f s v, full_size nip (length states) (f, s, v) -> exists r, fst ev e f s v = Ok r /\ full_size nip (length states) r) ->
    (forall st, In st steps -> exists before material order, st = before ++ [(material, order)] /\ forall e, e < ne -> In e order) ->
    exists final other, run_block o (length labels) steps (start, start) = Ok (final, other) /\
      carried nip states ne steps start final.
Proof.
  intros T zero one of_int bs rs t request d os b Hacc Ht E Hb nip states ne. pose proof Hacc as [H1 H2 H3 H4 H5]. apply (@node_table T bs) in Ht.
  destruct (@initialize_ok T zero one of_int bs H2 H3 H4 H1 H5 t Ht [] request) as [(d' & os' & E' & H)|E']; unfold fresh, before_blocks in *; [|congruence].
  assert (Eq : (d', os') = (d, os)) by congruence. injection Eq as -> ->.
  destruct (H b Hb) as (v & lo & ld & o & W1 & W2 & W3 & W4 & W5 & W6 & W7 & W8 & W9 & W10 & W11).
  exists o, (all_labels nip states), v. do 4 (split; [assumption|]). intros steps Hs1 Hs2. rewrite all_labels_length.
  assert (Hoff : good_offsets nip states o).
  { apply (@offsets_good nip states ld o (H2 b Hb) (proj1 (H5 b Hb))); auto. intros l Hl. rewrite Forall_forall in W9. apply W9. exact Hl. }
  assert (Hst : Forall (good_step nip states ne) steps).
  { apply Forall_forall. intros st Hst. split; [|apply Hs2; auto]. intros ev Hev. destruct (Hs1 st ev Hst Hev) as (A & B). split; auto. }
  destruct (@run_spec T nip states ne o steps Hoff Hst v v W3 W3) as (c & c2 & Er & _ & _ & Hf). exists c, c2. split; [exact Er|].
  clear - Hf. revert v Hf. induction steps as [|st steps IH]; intros v Hf; [exact Hf|]. destruct Hf as (before & m & order & mid & Est & (Lm & Hm) & Hf).
  exists before, m, order, mid. split; [exact Est|]. split; [exact Lm|]. split; [exact Hm|]. apply IH. exact Hf.
Qed.
Print Assumptions C64_history.

(** The hypothesis on state labels is needed: two blocks whose materials have state variables that
    differ only in case cannot be used together, nor can a material with the same label twice. *)
Theorem C64_case_refuted :
  let block1 := Block 1 8 [(lit "Damage", 0%Z)] [1%Z] in let block2 := Block 2 8 [(lit "damage", 0%Z)] [2%Z] in
  let block3 := Block 1 8 [(lit "damage", 0%Z); (lit "damage", 0%Z)] [1%Z] in
  let run := fun bs => initialize_blocks 0%Z 1%Z (fun z => z) (before_blocks Z []) bs [] in
  let works := fun r : outcome (elem_data Z * list (nat * offsets)) => match r with Ok _ => true | _ => false end in
  works (run [block1]) = true /\ works (run [block2]) = true /\ run [block1; block2] = Abort /\ run [block3] = Abort.
Proof. vm_compute. repeat split; reflexivity. Qed.
