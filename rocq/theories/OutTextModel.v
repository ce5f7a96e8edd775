(** Model of the results written as text (builds without exodus):
      src/nimble_exodus_output.cc  WriteStepTextFile
    double is an arbitrary type D with an arbitrary output operator (setprecision(16) is set when the
    first number is written and stays in force for the file object). *)
From Coq Require Import NArith.
From Verif Require Import Base Strings InputModel MeshTextModel.
Local Close Scope string_scope.
Local Open Scope list_scope.
Set Implicit Arguments.
Local Notation length := List.length.

Section OutText.
  Variable D : Type.
  Variable show : D -> chars.
  (** v.at(j) *)
  Definition vat {A} (v : list A) (j : nat) : outcome A := match nth_error v j with Some a => Ok a | None => Throw end.
  (** elem_data_index_.at(name) after InitializeDatabaseTextFile with the variables [vars]
      (nimble_exodus_output.cc 480-487): the position counted from 1 *)
  Fixpoint index_from (i : nat) (vars : list chars) (name : chars) : outcome nat :=
    match vars with [] => Throw | v :: vars => if chars_eqb v name then Ok i else index_from (S i) vars name end.
  Definition elem_data_index (vars : list chars) (name : chars) : outcome nat := index_from 1 vars name.
  (** nimble_exodus_output.cc 527-536 (and 538-546 for the derived data): one block *)
  Definition step_block_lines (vars : list chars) (names : list (Z * list chars)) (data : list (Z * list (list D))) (id : Z)
    : outcome (list chars) :=
    do ns <- map_at id names;
    do ls <- omapM (fun j =>
      do name <- vat ns j;
      do index <- elem_data_index vars name;
      do ds <- map_at id data;
      do d <- vat ds j;
      Ok ((name ++ sp ++ show_int (Z.of_nat index) ++ sp ++ show_int id ++ sp ++ show_int (Z.of_nat (length d))) :: map show d))
      (seq 0 (length ns));
    Ok (List.concat ls).
  (** WriteStepTextFile, nimble_exodus_output.cc 496-549: the lines that are appended to the file.  A
      call that ends with an exception may leave a part of them in the file; this is not modelled. *)
  Definition step_lines (block_ids : list Z) (vars : list chars) (time : D) (global : list D) (node : list (list D))
      (elem_names : list (Z * list chars)) (elem : list (Z * list (list D)))
      (derived_names : list (Z * list chars)) (derived : list (Z * list (list D))) : outcome (list chars) :=
    do blocks <- omapM (fun id => do a <- step_block_lines vars elem_names elem id;
                                  do b <- step_block_lines vars derived_names derived id; Ok (a ++ b)) block_ids;
    Ok ([lit "time"; show time; lit "global_data_values"] ++ map show global
        ++ lit "node_data_values" :: map show (List.concat node)
        ++ lit "element_data_values" :: List.concat blocks).
  (** the file is opened with ios_base::app: [file] is what it held before *)
  Definition write_step (file : chars) (block_ids : list Z) (vars : list chars) (time : D) (global : list D) (node : list (list D))
      (elem_names : list (Z * list chars)) (elem : list (Z * list (list D)))
      (derived_names : list (Z * list chars)) (derived : list (Z * list (list D))) : outcome chars :=
    do ls <- step_lines block_ids vars time global node elem_names elem derived_names derived;
    Ok (file ++ file_of_lines ls).
End OutText.
