(** Model of the element data containers: labels, layout, initialisation, offsets, the copies in and
    out around the material call, derived data and output.
    Sources: src/nimble_block.cc, src/nimble_model_data.cc.
    Element block ids are taken as natural numbers; a std::map<int, V> is the list of its entries in
    increasing key order.  T is the type of double; [zero], [one] and [of_int] are its constants and
    the conversion from int. *)
From Verif Require Import Base Strings DataModel Loops.
From Coq Require Import NArith.
Set Implicit Arguments.
Local Open Scope nat_scope.
Local Open Scope list_scope.
Local Notation length := List.length.

(** Block::GetDataLabelsAndLengths, nimble_block.cc 84-108; [states] are the material's state variable labels *)
Definition material_labels (states : list chars) : list (chars * length_t) :=
  [(lit "deformation_gradient", FULL_TENSOR); (lit "stress", SYMMETRIC_TENSOR)] ++ map (fun l => (l, SCALAR)) states.
Definition data_labels_and_lengths (num_int_pts : nat) (states : list chars) : list (chars * length_t) :=
  flat_map (fun i_ipt => map (fun e => (add_ipt_prefix (fst e) (Z.of_nat (i_ipt + 1)), snd e)) (material_labels states)) (seq 0 num_int_pts).

Section ElemData.
  Context {T : Type} (zero one : T) (of_int : Z -> T).

  (** The members of ModelData concerned: dim_, data_fields_, element_data_fields_, block_ids_,
      element_component_labels_, output_element_component_labels_, derived_output_element_data_labels_,
      output_node_component_labels_, element_data_n_, element_data_np1_. *)
  Record elem_data := ED {
    ed_dim : nat;
    ed_fields : list (nat * field);
    ed_block_fields : list (nat * list nat);
    ed_block_ids : list nat;
    ed_labels : list (nat * list chars);
    ed_out : list (nat * list chars);
    ed_derived : list (nat * list chars);
    ed_node_out : list chars;
    ed_n : list (nat * list T);
    ed_np1 : list (nat * list T) }.

  (** map::at *)
  Definition at_key {V} (k : nat) (m : list (nat * V)) : outcome V :=
    match assoc Nat.eqb k m with Some v => Ok v | None => Throw end.
  (** map::operator[] read with a default-constructed list *)
  Definition list_at {V} (k : nat) (m : list (nat * list V)) : list V :=
    match assoc Nat.eqb k m with Some v => v | None => [] end.

  (** ModelData::DeclareElementData, nimble_model_data.cc 125-140 *)
  Definition declare_element_data (d : elem_data) (block_id : nat) (entries : list (chars * length_t)) : outcome elem_data :=
    let start := match assoc Nat.eqb block_id (ed_block_fields d) with
                 | None => map_put block_id [] (ed_block_fields d) | Some _ => ed_block_fields d end in
    do r <- ofold (fun (s : list (nat * field) * list (nat * list nat)) e =>
              do a <- assign_field_id (fst s) (fst e) ELEMENT (snd e);
              Ok (fst a, map_put block_id (list_at block_id (snd s) ++ [snd a]) (snd s))) entries (ed_fields d, start);
    Ok (ED (ed_dim d) (fst r) (snd r) (ed_block_ids d) (ed_labels d) (ed_out d) (ed_derived d) (ed_node_out d) (ed_n d) (ed_np1 d)).

  (** ModelData::AllocateElementData, nimble_model_data.cc 142-169 (the parameter, called
      num_integration_points_in_each_block, receives the numbers of elements) *)
  Definition allocate_element_data (d : elem_data) (num : list (nat * nat)) : outcome elem_data :=
    ofold (fun d e =>
      let block_id := fst e in
      do r <- ofold (fun (s : nat * list chars) field_id =>
                do f <- at_key field_id (ed_fields d);
                do l <- length_to_int (f_length f) (ed_dim d);
                Ok (fst s + l, snd s ++ get_component_labels (f_label f) (f_length f) (ed_dim d))) (snd e) (0, []);
      do n <- at_key block_id num;
      let array_length := fst r * n in
      Ok (ED (ed_dim d) (ed_fields d) (ed_block_fields d) (ed_block_ids d ++ [block_id])
            (map_put block_id (snd r) (ed_labels d)) (map_put block_id [] (ed_out d)) (map_put block_id [] (ed_derived d))
            (ed_node_out d)
            (map_put block_id (repeat zero array_length) (ed_n d)) (map_put block_id (repeat zero array_length) (ed_np1 d))))
      (ed_block_fields d) d.

  (** Block::InitializeElementData, nimble_block.cc 148-207, without the final DetermineDataOffsets;
      [states] are the labels and initial values of the material's state variables, looked up in a
      std::map filled in order (the last entry of a label counts). *)
  Definition initial_values (states : list (chars * T)) (label : chars) : option T :=
    fold_left (fun acc e => if chars_eqb (fst e) label then Some (snd e) else acc) states None.
  Definition initialize_element_data (num_elem : nat) (elem_global_ids : list Z) (labels : list chars)
      (states : list (chars * T)) (data : list T * list T) : outcome (list T * list T) :=
    do _ <- oloop 0 num_elem (fun i_elem (_ : unit) => do _ <- vat elem_global_ids i_elem; Ok tt) tt;
    let stride := length labels in
    oloop 0 (length labels) (fun i_variable (data : list T * list T) =>
      do label <- vget labels i_variable;
      do ipt_label <- remove_ipt_prefix label;
      let initial_value := match initial_values states label with Some v => v | None => zero end in
      do r <- oloop 0 num_elem (fun i_elem (s : T * (list T * list T)) =>
        let '(initial_value, (n, np1)) := s in
        do initial_value <-
          (if chars_eqb ipt_label (lit "global_elem_id") then do g <- vat elem_global_ids i_elem; Ok (of_int g)
           else if chars_eqb ipt_label (lit "ipt_id") then do k <- label_to_ipt_number label; Ok (of_int k)
           else if chars_eqb ipt_label (lit "deformation_gradient_xx") || chars_eqb ipt_label (lit "deformation_gradient_yy")
                || chars_eqb ipt_label (lit "deformation_gradient_zz") then Ok one
           else Ok initial_value);
        let index := i_elem * stride + i_variable in
        do n' <- vset n index initial_value;
        do np1' <- vset np1 index initial_value;
        Ok (initial_value, (n', np1'))) (initial_value, data);
      Ok (snd r)) data.

  (** The loops of Block::DetermineDataOffsets that push the positions of a label, nimble_block.cc 516-519 *)
  Definition positions (labels : list chars) (label : chars) : list nat :=
    filter (fun i => match nth_error labels i with Some l => chars_eqb l label | None => false end) (seq 0 (length labels)).
  (** nimble_block.cc 512-558 for one kind of data: for every integration point and component *)
  Definition offsets_of (num_int_pt num_component : nat) (label_of : nat -> nat -> outcome chars) (labels : list chars) : outcome (list nat) :=
    oloop 0 num_int_pt (fun i_ipt acc => oloop 0 num_component (fun i_component acc =>
      do l <- label_of i_component i_ipt; Ok (acc ++ positions labels l)) acc) [].
  (** NIMBLE_ASSERT on the sizes *)
  Definition check (n : nat) (l : list nat) : outcome (list nat) := if length l =? n then Ok l else Abort.

  Record offsets := Offsets {
    o_def_grad : list nat; o_stress : list nat; o_state : list nat;
    o_volume : option nat;              (* vol_ave_volume_offset_, None for -1 *)
    o_ave_index : list nat;             (* vol_ave_index_to_derived_data_index_ *)
    o_ave : list nat }.                 (* vol_ave_offsets_ *)

  (** Block::DetermineDataOffsets, nimble_block.cc 499-593, on a block whose vol_ave_offsets_ is still
      empty (it is called once per block); num_int_pt > 0. *)
  Definition determine_data_offsets (dim num_int_pt : nat) (states : list chars) (labels derived : list chars) : outcome offsets :=
    let num_data_per_int_pt := length labels / num_int_pt in
    do full <- length_to_int FULL_TENSOR dim;
    do sym <- length_to_int SYMMETRIC_TENSOR dim;
    do def_grad <- offsets_of num_int_pt full (fun c i => get_component_label (lit "deformation_gradient") FULL_TENSOR dim c (Z.of_nat (i + 1))) labels;
    do def_grad <- check (full * num_int_pt) def_grad;
    do stress <- offsets_of num_int_pt sym (fun c i => get_component_label (lit "stress") SYMMETRIC_TENSOR dim c (Z.of_nat (i + 1))) labels;
    do stress <- check (sym * num_int_pt) stress;
    do state <- offsets_of num_int_pt (length states) (fun c i => do l <- vat states c; get_component_label l SCALAR dim 0 (Z.of_nat (i + 1))) labels;
    do state <- check (length states * num_int_pt) state;
    let '(volume, ave_index, ave_labels) :=
      fold_left (fun (s : option nat * list nat * list chars) i =>
        let '(volume, ave_index, ave_labels) := s in
        match nth_error derived i with
        | None => s
        | Some label => if chars_eqb label (lit "volume") then (Some i, ave_index, ave_labels)
                        else (volume, ave_index ++ [i], ave_labels ++ [label])
        end) (seq 0 (length derived)) (None, [], []) in
    let num_vol_ave := length ave_labels in
    do ave <- oloop 0 num_vol_ave (fun i_ave ave =>
        do ave_label <- vget ave_labels i_ave;
        oloop 0 num_data_per_int_pt (fun i_label ave =>
          do l <- vget labels i_label;
          do l <- remove_ipt_prefix l;
          if chars_eqb ave_label l then
            oloop 0 num_int_pt (fun i_int_pt ave =>
              vset ave (i_ave + i_int_pt * num_vol_ave) (i_label + i_int_pt * num_data_per_int_pt)) ave
          else Ok ave) ave) (repeat 0 (num_vol_ave * num_int_pt));
    Ok (Offsets def_grad stress state volume ave_index ave).

  (** ComputeInternalForceFunctor, nimble_block.cc 324-341: the copy of one kind of data from the
      container of element [elem] (num_element_data values per element) *)
  Definition copy_in (num_element_data elem : nat) (container : list T) (offs : list nat) : outcome (list T) :=
    omapM (fun o => vget container (elem * num_element_data + o)) offs.
  (** nimble_block.cc 358-371: the copy back *)
  Definition copy_out (num_element_data elem : nat) (offs : list nat) (values : list T) (container : list T) : outcome (list T) :=
    oloop 0 (length offs) (fun i c => do o <- vget offs i; do v <- vget values i; vset c (elem * num_element_data + o) v) container.

  (** The data part of ComputeInternalForceFunctor::operator() for one element, nimble_block.cc 324-371:
      [material elem F_n stress_n state_n] returns the new deformation gradients (computed by the
      element), stresses and state.  The loops over integration points and components run over the flat
      indices of the offset arrays. *)
  Definition update_element (o : offsets) (num_element_data : nat)
      (material : nat -> list T -> list T -> list T -> outcome (list T * list T * list T))
      (data_n : list T) (elem : nat) (data_np1 : list T) : outcome (list T) :=
    do f_n <- copy_in num_element_data elem data_n (o_def_grad o);
    do s_n <- copy_in num_element_data elem data_n (o_stress o);
    do v_n <- copy_in num_element_data elem data_n (o_state o);
    do r <- material elem f_n s_n v_n;
    let '(f, s, v) := r in
    do c <- copy_out num_element_data elem (o_def_grad o) f data_np1;
    do c <- copy_out num_element_data elem (o_stress o) s c;
    copy_out num_element_data elem (o_state o) v c.
  (** Block::ComputeInternalForce, nimble_block.cc 388-436: the elements in the order in which they are processed *)
  Definition update_block (o : offsets) (num_element_data : nat) material (data_n : list T) (order : list nat) (data_np1 : list T) : outcome (list T) :=
    ofold (fun c elem => update_element o num_element_data material data_n elem c) order data_np1.

  (** Block::ComputeDerivedElementData, nimble_block.cc 438-497: [average elem quantities] stands for
      Element::ComputeVolumeAverage on the element's current coordinates (volume and averages).
      Returns the rows of derived_elem_data. *)
  Definition compute_derived (o : offsets) (num_int_pt num_elem num_elem_data num_derived : nat)
      (average : nat -> nat -> list T -> outcome (T * list T)) (data : list T) (derived : list (list T)) : outcome (list (list T)) :=
    if num_derived =? 0 then Ok derived
    else
      let fit {A} (d : A) n (l : list A) := firstn n l ++ repeat d (n - length l) in
      let derived := map (fit zero num_elem) (fit [] num_derived derived) in
      let num_data_per_int_pt := num_elem_data / num_int_pt in
      let num_vol_ave := length (o_ave o) / num_int_pt in
      oloop 0 num_elem (fun i_elem derived =>
        do quantities <- omapM (fun i => do a <- vat (o_ave o) i; vget data (i_elem * num_data_per_int_pt * num_int_pt + a))
                               (seq 0 (num_vol_ave * num_int_pt));
        do r <- average i_elem num_vol_ave quantities;
        do derived <- oloop 0 num_vol_ave (fun i derived =>
            do k <- vget (o_ave_index o) i;
            do row <- vat derived k;
            do v <- vget (snd r) i;
            do _ <- vat row i_elem;
            Ok (list_set derived k (list_set row i_elem v))) derived;
        match o_volume o with
        | None => Ok derived
        | Some k => do row <- vat derived k; do _ <- vat row i_elem; Ok (list_set derived k (list_set row i_elem (fst r)))
        end) derived.

  (** ModelData::GetElementDataForOutput, nimble_model_data.cc 171-213, for one block and one output
      label: the last matching position counts. *)
  Definition element_output (labels : list chars) (data : list T) (output_label : chars) : outcome (list T) :=
    let num_variables := length labels in
    if num_variables =? 0 then UB                    (* integer division by zero *)
    else
      let array_size := length data / num_variables in
      match rev (positions labels output_label) with
      | [] => Abort
      | offset :: _ => omapM (fun i => vget data (i * num_variables + offset)) (seq 0 array_size)
      end.

  (** std::getline(ss, entry, ' ') until the end of the text, nimble_model_data.cc 218-222: the pieces
      between blanks, without an empty last one. *)
  Fixpoint split_blank (s : chars) (cur : chars) : list chars :=
    match s with
    | [] => match cur with [] => [] | _ => [cur] end
    | c :: s => if Ascii.eqb c " "%char then cur :: split_blank s [] else split_blank s (cur ++ [c])
    end.

  Definition mem (x : chars) (l : list chars) : bool := existsb (chars_eqb x) l.

  (** LabelToLength, nimble_data_utils.cc 268-277 *)
  Definition label_to_length (label : chars) (fields : list (nat * field)) : outcome length_t :=
    do label <- remove_ipt_prefix label;
    do r <- ofold (fun (acc : option length_t) kf =>
              match acc with
              | Some _ => Ok acc
              | None => do l <- remove_ipt_prefix (f_label (snd kf));
                        Ok (if chars_eqb label l then Some (f_length (snd kf)) else None)
              end) fields None;
    match r with Some len => Ok len | None => Throw end.

  (** The six label lists of ModelData::SpecifyOutputFields, nimble_model_data.cc 224-263 *)
  Record label_lists := LL { ll_node : list chars; ll_node_comp : list chars;
    ll_elem : list chars; ll_elem_comp : list chars; ll_ipt : list chars; ll_ipt_comp : list chars }.
  Definition collect_labels (dim : nat) (fields : list (nat * field)) : outcome label_lists :=
    ofold (fun s kf =>
      let f := snd kf in let label := f_label f in let len := f_length f in
      match f_relation f with
      | NODE => Ok (LL (ll_node s ++ [label]) (ll_node_comp s ++ get_component_labels label len dim)
                       (ll_elem s) (ll_elem_comp s) (ll_ipt s) (ll_ipt_comp s))
      | ELEMENT =>
          do b <- has_ipt_prefix label;
          if b then
            do plain <- remove_ipt_prefix label;
            let s' := LL (ll_node s) (ll_node_comp s) (ll_elem s) (ll_elem_comp s)
                         (ll_ipt s ++ [label]) (ll_ipt_comp s ++ get_component_labels label len dim) in
            Ok (if mem plain (ll_elem s) then s'
                else LL (ll_node s') (ll_node_comp s') (ll_elem s' ++ [plain]) (ll_elem_comp s' ++ get_component_labels plain len dim)
                        (ll_ipt s') (ll_ipt_comp s'))
          else Abort
      | _ => Ok s
      end) fields (LL [] [] [] [] [] []).

  Definition push_out (d : elem_data) (b : nat) (l : chars) : outcome elem_data :=
    do v <- at_key b (ed_out d);
    Ok (ED (ed_dim d) (ed_fields d) (ed_block_fields d) (ed_block_ids d) (ed_labels d) (map_put b (v ++ [l]) (ed_out d)) (ed_derived d) (ed_node_out d) (ed_n d) (ed_np1 d)).
  Definition push_derived (d : elem_data) (b : nat) (l : chars) : outcome elem_data :=
    do v <- at_key b (ed_derived d);
    Ok (ED (ed_dim d) (ed_fields d) (ed_block_fields d) (ed_block_ids d) (ed_labels d) (ed_out d) (map_put b (v ++ [l]) (ed_derived d)) (ed_node_out d) (ed_n d) (ed_np1 d)).
  Definition push_node (d : elem_data) (ls : list chars) : elem_data :=
    ED (ed_dim d) (ed_fields d) (ed_block_fields d) (ed_block_ids d) (ed_labels d) (ed_out d) (ed_derived d) (ed_node_out d ++ ls) (ed_n d) (ed_np1 d).

  (** One requested label, nimble_model_data.cc 266-367 *)
  Definition specify_one (ll : label_lists) (d : elem_data) (req : chars) : outcome elem_data :=
    if mem req (ll_node_comp ll) then Ok (push_node d [req])
    else if mem req (ll_node ll) then
      do len <- label_to_length req (ed_fields d);
      Ok (push_node d (get_component_labels req len (ed_dim d)))
    else if mem req (ll_elem_comp ll) then
      ofold (fun d e =>
        do ex <- ofold (fun (ex : bool) l => do p <- remove_ipt_prefix l; Ok (ex || chars_eqb req p)) (snd e) false;
        if ex then push_derived d (fst e) req else Ok d) (ed_labels d) d
    else if mem req (ll_ipt_comp ll) then
      ofold (fun d e => if existsb (chars_eqb req) (snd e) then push_out d (fst e) req else Ok d) (ed_labels d) d
    else if mem req (ll_elem ll) then
      do len <- label_to_length req (ed_fields d);
      ofold (fun d lab => ofold (fun d e => ofold (fun d avail =>
          do p <- remove_ipt_prefix avail;
          if chars_eqb lab p then
            do v <- at_key (fst e) (ed_derived d);
            if mem lab v then Ok d else push_derived d (fst e) lab
          else Ok d) (snd e) d) (ed_labels d) d) (get_component_labels req len (ed_dim d)) d
    else if mem req (ll_ipt ll) then
      do len <- label_to_length req (ed_fields d);
      ofold (fun d lab => ofold (fun d e => ofold (fun d avail =>
          if chars_eqb lab avail then push_out d (fst e) lab else Ok d) (snd e) d) (ed_labels d) d)
        (get_component_labels req len (ed_dim d)) d
    else if chars_eqb req (lit "volume") then
      ofold (fun d b => push_derived d b req) (ed_block_ids d) d
    else Abort.
  (** ModelData::SpecifyOutputFields, nimble_model_data.cc 215-368 *)
  Definition specify_output_fields (d : elem_data) (output_field_string : chars) : outcome elem_data :=
    do ll <- collect_labels (ed_dim d) (ed_fields d);
    ofold (specify_one ll) (split_blank output_field_string []) d.
End ElemData.
Arguments elem_data : clear implicits.
