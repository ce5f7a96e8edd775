(** Property theorems C09-C11, C50 (labels, field table, node output).
    Model: DataModel.v; vocabulary: DataSpec.v.  Non-vacuity: ex_history, ex_conflict, ex_output in DataProofs.v. *)
From Verif Require Import Base Strings DataModel DataSpec DataProofs.
From Coq Require Import NArith.
Local Open Scope nat_scope.
Local Open Scope list_scope.

(** C09: for every label and every integration point number an int can hold. *)
Theorem C09_integration_point_round_trip :
  forall (label : chars) (n : N), (n <= 2147483647)%N ->
    let full := add_ipt_prefix label (Z.of_N n) in
    remove_ipt_prefix full = Ok label /\
    label_to_ipt_number full = Ok (Z.of_N n) /\
    has_ipt_prefix full = Ok true.
Proof. intros label n H full. split; [apply remove_add|]. split; [now apply number_add|apply has_add]. Qed.
Print Assumptions C09_integration_point_round_trip.

(** Labels that do not begin with "ipt" are left alone. *)
Theorem C09_plain_labels_untouched :
  forall label, (forall rest, label <> lit "ipt" ++ rest) ->
    remove_ipt_prefix label = Ok label /\ has_ipt_prefix label = Ok false.
Proof.
  intros label H. assert (E : starts_with (lit "ipt") label = false).
  { destruct (starts_with (lit "ipt") label) eqn:E; auto. apply starts_with_spec in E as (t & ->).
    exfalso. now apply (H t). }
  destruct (no_prefix _ E) as (? & ? & _). auto.
Qed.
Print Assumptions C09_plain_labels_untouched.

(** The restriction is needed: a user field called "ipt" makes the query throw, and
    "iptype" is taken for a prefixed label and loses four letters. *)
Theorem C09_any_label_refuted :
  ~ (forall label, (forall l n, label <> add_ipt_prefix l n) -> remove_ipt_prefix label = Ok label) /\
  remove_ipt_prefix (lit "ipt") = Throw /\ remove_ipt_prefix (lit "iptype") = Ok (lit "pe").
Proof.
  split; [|split; reflexivity]. intros H. specialize (H (lit "ipt")).
  assert (E : remove_ipt_prefix (lit "ipt") = Throw) by reflexivity. rewrite E in H.
  discriminate H. intros l n E'.
  apply (f_equal (@List.length _)) in E'. unfold add_ipt_prefix in E'.
  destruct (List.length (show_int n) =? 1); rewrite !app_length in E'; simpl in E'; lia.
Qed.
Print Assumptions C09_any_label_refuted.

(** C10: as many labels as components, pairwise different, except the 2-D full tensor; the
    k-th one is the label other code asks for. *)
Theorem C10_component_labels :
  forall len dim label n, length_to_int len dim = Ok n ->
    List.length (get_component_labels label len dim) = n /\
    (~ (len = FULL_TENSOR /\ dim = 2) -> NoDup (get_component_labels label len dim)).
Proof. intros. split; [now apply component_count|]. intros. eapply component_distinct; eauto. Qed.
Print Assumptions C10_component_labels.

Theorem C10_component_label_agrees :
  forall len dim label n k lab, length_to_int len dim = Ok n ->
    In len [SCALAR; VECTOR; SYMMETRIC_TENSOR; FULL_TENSOR] -> ~ (len = FULL_TENSOR /\ dim = 2) ->
    nth_error (get_component_labels label len dim) k = Some lab ->
    forall ipt, get_component_label label len dim k ipt = Ok (add_ipt_prefix lab ipt).
Proof.
  intros len dim label n k lab H Hl Hne Hk ipt. eapply component_agree; eauto.
  simpl in Hl. destruct Hl as [<-|[<-|[<-|[<-|[]]]]]; exact I.
Qed.
Print Assumptions C10_component_label_agrees.

(** 2-D full tensors get the label _xy twice; and for LENGTH_n fields the two label functions
    disagree (the second adds no suffix, so all components get one label). *)
Theorem C10_full_tensor_2d_refuted :
  ~ (forall len dim label n, length_to_int len dim = Ok n -> NoDup (get_component_labels label len dim)).
Proof.
  intros H. specialize (H FULL_TENSOR 2 (lit "f") 4 eq_refl).
  apply NoDup_nth_error with (i := 2) (j := 3) in H; [discriminate|simpl; lia|reflexivity].
Qed.
Print Assumptions C10_full_tensor_2d_refuted.

Theorem C10_label_functions_agree_refuted :
  ~ (forall len dim label n k lab, length_to_int len dim = Ok n ->
       nth_error (get_component_labels label len dim) k = Some lab ->
       get_component_label label len dim k 1 = Ok (add_ipt_prefix lab 1)) /\
  get_component_label (lit "s") (LEN 2) 3 0 1 = get_component_label (lit "s") (LEN 2) 3 1 1.
Proof.
  split; [|reflexivity]. intros H.
  specialize (H (LEN 2) 3 (lit "s") 2 0 (lit "s_1") eq_refl eq_refl). vm_compute in H. discriminate.
Qed.
Print Assumptions C10_label_functions_agree_refuted.

(** C11: for any registration history whose case-insensitively equal labels have equal
    attributes: it succeeds; two requests get the same id iff their labels are equal up to case;
    the ids handed out are exactly 0 .. size-1; the stored attributes are the requested ones;
    and looking a label up succeeds iff it is spelled as in the first request for that field. *)
Theorem C11_registration_history :
  forall rs : list request,
    (forall i j a b, nth_error rs i = Some a -> nth_error rs j = Some b ->
       tolower (rq_label a) = tolower (rq_label b) -> rq_attr a = rq_attr b) ->
    exists table ids, register_all rs = Ok (table, ids) /\ List.length ids = List.length rs /\
      (forall i j a b x y, nth_error rs i = Some a -> nth_error rs j = Some b ->
         nth_error ids i = Some x -> nth_error ids j = Some y ->
         (x = y <-> tolower (rq_label a) = tolower (rq_label b))) /\
      (forall x, In x ids <-> x < List.length table) /\
      (forall label x, get_field_id label table = Some x <->
         exists i a, nth_error rs i = Some a /\ nth_error ids i = Some x /\ rq_label a = label /\
                     forall j, j < i -> nth_error ids j <> Some x) /\
      (forall i a x, nth_error rs i = Some a -> nth_error ids i = Some x ->
         exists f, In (x, f) table /\ f_id f = x /\ (f_relation f, f_length f) = rq_attr a).
Proof. exact register_all_ids. Qed.
Print Assumptions C11_registration_history.

(** A history with two requests that differ in attributes but not in (case-insensitive) label
    is rejected. *)
Theorem C11_conflicts_rejected :
  forall rs i j a b, nth_error rs i = Some a -> nth_error rs j = Some b ->
    tolower (rq_label a) = tolower (rq_label b) -> rq_attr a <> rq_attr b ->
    register_all rs = Abort.
Proof.
  intros rs i j a b Ha Hb Hl Hne. apply (proj2 (register_all_inv rs)).
  intros Hc. apply Hne. eapply Hc; eauto.
Qed.
Print Assumptions C11_conflicts_rejected.

(** Finding: a repeated registration is case-insensitive but the look-up is not, so a label
    that was just accepted may not be found; and a repeated allocation zeroes the data. *)
Theorem C11_lookup_any_case_refuted :
  ~ (forall rs table ids r, register_all rs = Ok (table, ids) -> In r rs ->
       get_field_id (rq_label r) table <> None).
Proof.
  intros H. eapply (H [(lit "temperature", NODE, SCALAR); (lit "Temperature", NODE, SCALAR)]).
  - reflexivity.
  - right; left; reflexivity.
  - reflexivity.
Qed.
Print Assumptions C11_lookup_any_case_refuted.

Theorem C11_allocation_effect :
  forall (T : Type) (zero : T) md len label n md' id,
    allocate_node_data zero md len label n = Ok (md', id) ->
    exists nc, length_to_int len (md_dim md) = Ok nc /\
      get_node_data md' id = Ok (repeat zero (n * nc)) /\
      (forall id', id' <> id -> get_node_data md' id' = get_node_data md id').
Proof. intros T zero md len label n md' id. apply allocate_spec. Qed.
Print Assumptions C11_allocation_effect.

(** C50: the array written for an output label naming component k of exactly one node field is
    that component of every node, in node order. *)
Theorem C50_node_output :
  forall (T : Type) (d : T) (md : model_data T) id f data k nc lab,
  NoDup (map fst (md_node md)) ->
  (forall id' data', In (id', data') (md_node md) -> exists f', assoc Nat.eqb id' (md_fields md) = Some f') ->
  node_field md id f data -> names_component (md_dim md) f k lab ->
  length_to_int (f_length f) (md_dim md) = Ok nc ->
  (forall id' f' data' k', node_field md id' f' data' -> names_component (md_dim md) f' k' lab ->
     id' = id /\ k' = k) ->
  node_output md lab = Ok (Some (map (fun i => nth (i * nc + k) data d) (seq 0 (List.length data / nc)))).
Proof. intros T d md id f data k nc lab. apply node_output_spec. Qed.
Print Assumptions C50_node_output.

(** Without uniqueness the last match wins: component 2 of a 2-D full tensor is never output. *)
Theorem C50_ambiguous_label_refuted :
  let md := MD 2 [(0, Field 0 (lit "f") NODE FULL_TENSOR)] [(0, [1; 2; 3; 4])] in
  names_component 2 (Field 0 (lit "f") NODE FULL_TENSOR) 2 (lit "f_xy") /\
  node_output md (lit "f_xy") = Ok (Some [4]).
Proof. split; reflexivity. Qed.
Print Assumptions C50_ambiguous_label_refuted.
