(** How a user reads the results file: one line at a time, knowing from the head of the file how
    many global and node variables there are and how many nodes the mesh has. *)
From Coq Require Import NArith.
From Verif Require Import Base Strings.
Local Close Scope string_scope.
Local Open Scope list_scope.
Set Implicit Arguments.
Local Notation length := List.length.

(** the lines of a text in which every line ends with a newline; [cur] is the line being read *)
Fixpoint lines_from (cur : chars) (text : chars) : list chars :=
  match text with
  | [] => match cur with [] => [] | _ => [cur] end
  | c :: text => if ascii_dec c "010"%char then cur :: lines_from [] text else lines_from (cur ++ [c]) text
  end.
Definition lines_of (text : chars) : list chars := lines_from [] text.
(** the words of a line, separated by single blanks *)
Fixpoint words_from (cur : chars) (l : chars) : list chars :=
  match l with
  | [] => [cur]
  | c :: l => if ascii_dec c " "%char then cur :: words_from [] l else words_from (cur ++ [c]) l
  end.
Definition words_of (l : chars) : list chars := words_from [] l.
Definition int_of (w : chars) : Z := match w with "-"%char :: r => (- Z.of_N (undec r))%Z | _ => Z.of_N (undec w) end.

(** one element variable on one block: name, number of the variable, block, one value per element *)
Record column (D : Type) := Column { co_name : chars; co_index : Z; co_block : Z; co_values : list D }.
(** what is known at one time *)
Record frame (D : Type) := Frame { fr_time : D; fr_global : list D; fr_node : list (list D); fr_elem : list (column D) }.

Definition take {A} (n : nat) (l : list A) : option (list A * list A) := if n <=? length l then Some (firstn n l, skipn n l) else None.
Fixpoint chunks {A} (count size : nat) (l : list A) : list (list A) :=
  match count with 0 => [] | S count => firstn size l :: chunks count size (skipn size l) end.
(** columns up to the next frame or the end of the file *)
Fixpoint read_columns (fuel : nat) (ls : list chars) : option (list (column chars) * list chars) :=
  match fuel, ls with
  | _, [] => Some ([], [])
  | 0, _ => None
  | S fuel, l :: rest =>
      if chars_eqb l (lit "time") then Some ([], ls)
      else match words_of l with
           | [name; index; block; count] =>
               match take (Z.to_nat (int_of count)) rest with
               | Some (values, rest) =>
                   match read_columns fuel rest with
                   | Some (cs, rest) => Some (Column name (int_of index) (int_of block) values :: cs, rest)
                   | None => None
                   end
               | None => None
               end
           | _ => None
           end
  end.
(** frames up to the end of the file: [globals] global variables, [vars] node variables, [nodes] nodes *)
Fixpoint read_frames (globals vars nodes : nat) (fuel : nat) (ls : list chars) : option (list (frame chars)) :=
  match fuel, ls with
  | _, [] => Some []
  | 0, _ => None
  | S fuel, title :: time :: title2 :: rest =>
      if chars_eqb title (lit "time") && chars_eqb title2 (lit "global_data_values") then
        match take globals rest with
        | Some (gs, title3 :: rest) =>
            if chars_eqb title3 (lit "node_data_values") then
              match take (vars * nodes) rest with
              | Some (ns, title4 :: rest) =>
                  if chars_eqb title4 (lit "element_data_values") then
                    match read_columns (length rest) rest with
                    | Some (cs, rest) =>
                        match read_frames globals vars nodes fuel rest with
                        | Some fs => Some (Frame time gs (chunks vars nodes ns) cs :: fs)
                        | None => None
                        end
                    | None => None
                    end
                  else None
              | _ => None
              end
            else None
        | _ => None
        end
      else None
  | S fuel, _ => None
  end.
(** the frames in the results part of a file *)
Definition frames_of (globals vars nodes : nat) (text : chars) : option (list (frame chars)) :=
  read_frames globals vars nodes (length (lines_of text)) (lines_of text).
(** a frame as text *)
Definition shown {D} (show : D -> chars) (f : frame D) : frame chars :=
  Frame (show (fr_time f)) (map show (fr_global f)) (map (map show) (fr_node f))
        (map (fun c => Column (co_name c) (co_index c) (co_block c) (map show (co_values c))) (fr_elem f)).
