(** Setting up the element data of all blocks, and stepping them in time.
    Sources: src/nimble_model_data.cc, src/nimble_model_data.h, src/nimble_block.cc. *)
From Verif Require Import Base Strings DataModel Loops ElemDataModel ElemDataSpec.
Set Implicit Arguments.
Local Open Scope nat_scope.
Local Open Scope list_scope.
Local Notation length := List.length.

Section Blocks.
  Context {T : Type} (zero one : T) (of_int : Z -> T).

  (** The declarations of ModelData::EmplaceBlocks, nimble_model_data.cc 417-440 (creation of the
      elements and materials not modelled: a block comes with its number of integration points and
      its material's state variables) *)
  Definition declare_all (d : elem_data T) (l : list (block T)) : outcome (elem_data T) :=
    ofold (fun d b => declare_element_data d (b_id b) (data_labels_and_lengths (b_nip b) (b_labels b))) l d.

  (** One turn of the loop of ModelData::AllocateInitializeElementData, nimble_model_data.cc 469-486,
      with the body of Block::InitializeElementData (nimble_block.cc 148-207) *)
  Definition setup_block (d : elem_data T) (b : block T) : outcome (elem_data T * offsets) :=
    do n <- at_key (b_id b) (ed_n d);
    do np1 <- at_key (b_id b) (ed_np1 d);
    do labels <- at_key (b_id b) (ed_labels d);
    do derived <- at_key (b_id b) (ed_derived d);
    do r <- initialize_element_data zero one of_int (length (b_elems b)) (b_elems b) labels (b_states b) (n, np1);
    do o <- determine_data_offsets 3 (b_nip b) (b_labels b) labels derived;
    Ok (ED (ed_dim d) (ed_fields d) (ed_block_fields d) (ed_block_ids d) (ed_labels d) (ed_out d) (ed_derived d) (ed_node_out d)
          (map_put (b_id b) (fst r) (ed_n d)) (map_put (b_id b) (snd r) (ed_np1 d)), o).
  (** ModelData::InitializeBlocks, nimble_model_data.cc 487-493, and AllocateInitializeElementData,
      454-486: [request] is the parser's output field string *)
  Definition initialize_blocks (d : elem_data T) (bs : list (block T)) (request : chars) : outcome (elem_data T * list (nat * offsets)) :=
    do d <- declare_all d bs;
    do d <- allocate_element_data zero d (map (fun b => (b_id b, length (b_elems b))) bs);
    do d <- specify_output_fields d request;
    let blocks := fold_left (fun m b => map_put (b_id b) b m) bs [] in
    ofold (fun (s : elem_data T * list (nat * offsets)) kb =>
      do r <- setup_block (fst s) (snd kb);
      Ok (fst r, map_put (fst kb) (snd r) (snd s))) blocks (d, []).

  (** A sequence of load steps of one block: in each, the internal force is evaluated one or more
      times (the last argument of [material] counts the evaluations) and then ModelData::UpdateStates
      (nimble_model_data.h 103-107) swaps the two containers.  A step is the list of its evaluations:
      a material and an order of the elements for each. *)
  Definition evaluation := ((nat -> list T -> list T -> list T -> outcome (list T * list T * list T)) * list nat)%type.
  Definition step_block (o : offsets) (num_element_data : nat) (s : list T * list T) (evals : list evaluation) : outcome (list T * list T) :=
    do np1 <- ofold (fun c (ev : evaluation) => update_block o num_element_data (fst ev) (fst s) (snd ev) c) evals (snd s);
    Ok (np1, fst s).
  Definition run_block (o : offsets) (num_element_data : nat) (steps : list (list evaluation)) (s : list T * list T) : outcome (list T * list T) :=
    ofold (step_block o num_element_data) steps s.
End Blocks.
