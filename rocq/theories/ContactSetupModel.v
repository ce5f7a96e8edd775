(** Model of the set-up of contact and of its visualisation:
      src/nimble_contact_manager.cc  ParseContactCommand, InitializeContactVisualization,
        WriteVisualizationData, numActiveContactFaces, numActiveContactNodes
    double is an arbitrary type D with an arbitrary input operator. *)
From Coq Require Import NArith.
From Verif Require Import Base Strings InputModel MeshTextModel.
Local Close Scope string_scope.
Local Open Scope list_scope.
Set Implicit Arguments.
Local Notation length := List.length.

(** * std::stringstream ss(command): the text that is left and ss.good() *)
Definition sstream := (chars * bool)%type.
(** std::string temp; ss >> temp: at the end of the text temp stays empty and failbit is set; a word
    that ends with the text sets eofbit *)
Definition next_word (st : sstream) : chars * sstream :=
  if snd st then
    match skip_ws (fst st) with
    | [] => ([], ([], false))
    | s => let w := until_ws s in let rest := skipn (length w) s in (w, (rest, match rest with [] => false | _ => true end))
    end
  else ([], st).
(** ss >> x for a double that has not been initialised (None): nothing is written when the stream is
    not good or only white space is left; a text that is no number gives [zero] *)
Definition next_double {D} (rdouble : chars -> option D) (zero : D) (st : sstream) : option D :=
  if snd st then match skip_ws (fst st) with [] => None | s => Some (match rdouble s with Some x => x | None => zero end) end else None.

(** while (ss.good() && !found) { .. }, nimble_contact_manager.cc 114-123 and 131-140: the names
    before the key, whether the key was found, and the stream.  Every round consumes a character or
    ends the loop, so that [fuel] is more than the number of characters left. *)
Fixpoint names_until (key : chars -> bool) (fuel : nat) (st : sstream) : list chars * (bool * sstream) :=
  match fuel with
  | 0 => ([], (false, st))
  | S fuel =>
      if snd st then
        let '(w, st) := next_word st in
        if key w then ([], (true, st))
        else let '(names, r) := names_until key fuel st in (w :: names, r)
      else ([], (false, st))
  end.
Definition is_primary (w : chars) : bool := chars_eqb w (lit "primary_blocks") || chars_eqb w (lit "master_blocks").
Definition is_secondary (w : chars) : bool := chars_eqb w (lit "secondary_blocks") || chars_eqb w (lit "slave_blocks").
Definition is_penalty (w : chars) : bool := chars_eqb w (lit "penalty_parameter").
(** ParseContactCommand, nimble_contact_manager.cc 95-149, with the variables of the caller
    (integrators/explicit_time_integrator.cc 82-87): no names yet, the penalty not initialised *)
Definition parse_contact_command {D} (rdouble : chars -> option D) (zero : D) (command : chars)
  : outcome (list chars * list chars * option D) :=
  let fuel := S (length command) in
  let '(k, st) := next_word (command, true) in
  if is_primary k then
    let '(primary, (found, st)) := names_until is_secondary fuel st in
    if found then
      let '(secondary, (found, st)) := names_until is_penalty fuel st in
      if found then Ok (primary, secondary, next_double rdouble zero st) else Throw
    else Throw
  else Throw.

(** * Visualisation *)
Section Vis.
  Variable D : Type.
  Variable sub : D -> D -> D.
  Variable zero one : D.
  Variable of_count : nat -> D.
  (** the members of ContactEntity used here: contact_entity_global_id_, coord_1_ .. coord_3_,
      contact_status_ *)
  Record vface := VFace { vf_id : Z; vf_1 : D * D * D; vf_2 : D * D * D; vf_3 : D * D * D; vf_status : bool }.
  Record vnode := VNode { vn_id : Z; vn_1 : D * D * D; vn_status : bool }.
  (** nimble_contact_manager.cc 479-492: the largest entity id of this rank, at least 0 *)
  Definition max_entity_id (faces : list vface) (nodes : list vnode) : Z :=
    let larger m z := if (z >? m)%Z then z else m in
    fold_left larger (map vn_id nodes) (fold_left larger (map vf_id faces) 0%Z).
  (** signed arithmetic on int *)
  Definition int_ok (z : Z) : outcome Z := if in_int z then Ok z else UB.
  (** 3 * id + max + k, 525, 530, 535 *)
  Definition face_node_id (max_id id k : Z) : outcome Z :=
    do a <- int_ok (3 * id); do b <- int_ok (a + max_id); int_ok (b + k).
  Definition px (p : D * D * D) : D := fst (fst p).
  Definition py (p : D * D * D) : D := snd (fst p).
  Definition pz (p : D * D * D) : D := snd p.
  (** InitializeContactVisualization, 431-575, up to mesh.Initialize (InitializeDatabase is
      [write_database] in a build without exodus); [max_id] is the result of the MPI_Allreduce.  The
      loop variable node_index numbers the nodes in the order in which they are pushed. *)
  Definition initialize_visualization (max_id : Z) (faces : list vface) (nodes : list vnode) : outcome (mesh D) :=
    do ids <- omapM (fun f => do a <- face_node_id max_id (vf_id f) 9; do b <- face_node_id max_id (vf_id f) 10;
                              do c <- face_node_id max_id (vf_id f) 11; Ok [a; b; c]) faces;
    let coords := flat_map (fun f => [vf_1 f; vf_2 f; vf_3 f]) faces ++ map vn_1 nodes in
    let nf := 3 * length faces in
    Ok (initialize (empty_mesh D) (List.concat ids ++ map vn_id nodes) (map px coords) (map py coords) (map pz coords)
          (map vf_id faces ++ map vn_id nodes) [1; 2]%Z
          [(1%Z, lit "contact_faces"); (2%Z, lit "contact_nodes")] [(1%Z, []); (2%Z, [])] [(1%Z, 3%Z); (2%Z, 1%Z)]
          [(1%Z, map Z.of_nat (seq 0 nf)); (2%Z, map Z.of_nat (seq nf (length nodes)))]).
  (** InitializeContactVisualization, 577-592 *)
  Definition visualization_labels : list chars * list chars * list (Z * list chars) :=
    ([lit "num_contacts"], [lit "displacement_x"; lit "displacement_y"; lit "displacement_z"; lit "contact_status"],
     [(1%Z, []); (2%Z, [])]).
  (** numActiveContactFaces, 691-701; numActiveContactNodes, 703-713 *)
  Definition num_active_faces (faces : list vface) : nat := fold_left (fun n f => n + (if vf_status f then 1 else 0)) faces 0.
  Definition num_active_nodes (nodes : list vnode) : nat := fold_left (fun n f => n + (if vn_status f then 1 else 0)) nodes 0.
  (** node_data_for_output, 634-672: four vectors of num_nodes entries; [node_index] counts up *)
  Definition put_node (m : mesh D) (s : nat * (list D * list D * list D * list D)) (p : D * D * D) (status : bool)
    : outcome (nat * (list D * list D * list D * list D)) :=
    let '(i, (ux, uy, uz, st)) := s in
    do x <- vget (m_x m) i; do y <- vget (m_y m) i; do z <- vget (m_z m) i;
    if i <? length st then
      Ok (S i, (list_set ux i (sub (px p) x), list_set uy i (sub (py p) y), list_set uz i (sub (pz p) z), list_set st i (if status then one else zero)))
    else UB.
  (** WriteVisualizationData, 604-682: the global data and the node data handed to WriteStep *)
  Definition write_visualization (m : mesh D) (faces : list vface) (nodes : list vnode) : outcome (list D * list (list D)) :=
    let fresh := repeat zero (length (m_x m)) in
    do s <- ofold (fun s f => do s <- put_node m s (vf_1 f) (vf_status f); do s <- put_node m s (vf_2 f) (vf_status f);
                              put_node m s (vf_3 f) (vf_status f)) faces (0, (fresh, fresh, fresh, fresh));
    do s <- ofold (fun s n => put_node m s (vn_1 n) (vn_status n)) nodes s;
    let '(_, (ux, uy, uz, st)) := s in
    Ok ([of_count (num_active_faces faces)], [ux; uy; uz; st]).
End Vis.
