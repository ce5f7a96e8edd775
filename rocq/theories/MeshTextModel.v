(** Model of meshes and of their text files:
      src/nimble_genesis_mesh.{h,cc}   ReadTextFile, Initialize, the queries, BoundingBox, BoundingBoxCenter
      src/nimble_exodus_output.cc      Initialize, InitializeDatabaseTextFile
    Doubles are an arbitrary type [D] with an arbitrary output operator [show] (operator<< with
    setprecision(16)) and an arbitrary input operator [rdouble]; bounding boxes use real numbers.
    The exodus (binary) reader and writer are not modelled.  An operator[](0) whose address alone
    is taken is not treated as an access. *)
From Coq Require Import NArith Reals.
From Verif Require Import Base Strings InputModel.
Local Close Scope string_scope.
Local Open Scope list_scope.
Set Implicit Arguments.
Notation length := List.length.

(** * Formatted input of one line: std::stringstream ss(str), None once it has failed *)
Definition stream := option chars.
Definition int_prefix (s : chars) : option (Z * chars) :=
  let num (sign : Z) (s : chars) :=
    match take_digits s with
    | [] => None
    | ds => Some ((sign * Z.of_N (undec ds))%Z, skipn (length ds) s)
    end in
  match s with
  | [] => None
  | c :: s' => if ascii_dec c "-" then num (-1)%Z s' else if ascii_dec c "+" then num 1%Z s' else num 1%Z s
  end.
(** ss >> i for an int holding [old] (None: not initialised): unchanged when the stream has failed
    or is at its end, 0 when there is no number, clamped when it does not fit (C++11) *)
Definition get_int (st : stream) (old : option Z) : option Z * stream :=
  match st with
  | None => (old, None)
  | Some s =>
      match skip_ws s with
      | [] => (old, None)
      | s' => match int_prefix s' with
              | None => (Some 0%Z, None)
              | Some (z, rest) =>
                  if in_int z then (Some z, Some rest)
                  else (Some (if (z <? 0)%Z then (- 2 ^ 31)%Z else (2 ^ 31 - 1)%Z), None)
              end
      end
  end.
(** ss >> s for a std::string *)
Definition get_word (st : stream) (old : chars) : chars * stream :=
  match st with
  | None => (old, None)
  | Some s =>
      match skip_ws s with
      | [] => (old, None)
      | s' => (until_ws s', Some (skipn (length (until_ws s')) s'))
      end
  end.
(** std::getline(mesh_file, str): the lines that are left; at the end of the file [str] keeps its
    value (the sentry of getline fails before str.erase()) *)
Definition getline (str : chars) (ls : list chars) : chars * list chars :=
  match ls with l :: ls => (l, ls) | [] => (str, []) end.

(** signed arithmetic of the switch between 1-based and 0-based numbering *)
Definition minus1 (z : Z) : outcome Z := if in_int (z - 1) then Ok (z - 1)%Z else UB.
Definition plus1 (z : Z) : outcome Z := if in_int (z + 1) then Ok (z + 1)%Z else UB.
(** operator<<(int) *)
Definition show_int (z : Z) : chars :=
  if (z <? 0)%Z then "-"%char :: dec (Z.to_N (- z)) else dec (Z.to_N z).
(** v.resize(n) of a std::vector<int> *)
Definition resize (n : nat) (v : list Z) : list Z := firstn n v ++ repeat 0%Z (n - length v).
(** m.at(k) *)
Definition map_at {V} (k : Z) (m : list (Z * V)) : outcome V :=
  match assoc Z.eqb k m with Some v => Ok v | None => Throw end.

Section MeshText.
  Variable D : Type.
  (** ss >> d on a text without leading white space: the value and what is left, None on failure *)
  Variable rdouble : chars -> option (D * chars).
  Variable zero : D.
  Variable show : D -> chars.

  Definition get_double (st : stream) (old : option D) : option D * stream :=
    match st with
    | None => (old, None)
    | Some s =>
        match skip_ws s with
        | [] => (old, None)
        | s' => match rdouble s' with Some (d, rest) => (Some d, Some rest) | None => (Some zero, None) end
        end
    end.

  (** the data members of GenesisMesh, nimble_genesis_mesh.h 333-354 (file name, distribution
      factors and side sets are left out: ReadTextFile and the text writer do not use them) *)
  Record mesh := Mesh {
    m_dim : Z;
    m_node_id : list Z; m_x : list D; m_y : list D; m_z : list D;
    m_elem_id : list Z;
    m_all_block_ids : list Z; m_block_ids : list Z;
    m_all_block_names : list (Z * chars); m_block_names : list (Z * chars);
    m_block_elem_ids : list (Z * list Z); m_nodes_per_elem : list (Z * Z); m_conn : list (Z * list Z);
    m_ns_ids : list Z; m_ns_names : list (Z * chars); m_ns_nodes : list (Z * list Z) }.
  (** GenesisMesh(), nimble_genesis_mesh.h 61 *)
  Definition empty_mesh : mesh := Mesh (-1) [] [] [] [] [] [] [] [] [] [] [] [] [] [] [].

  (** the local variables num_nodes, num_elem (None: not initialised), global_elem_index and the mesh *)
  Record rstate := RState { rs_nodes : option Z; rs_elems : option Z; rs_next : nat; rs_mesh : mesh }.

  (** nimble_genesis_mesh.cc 368-380 *)
  Fixpoint read_nodes (n : nat) (str : chars) (ls : list chars) : outcome (list (Z * (D * D * D)) * list chars) :=
    match n with
    | 0 => Ok ([], ls)
    | S n =>
        let '(str, ls) := getline str ls in
        let '(id, st) := get_int (Some str) None in
        let '(x, st) := get_double st None in
        let '(y, st) := get_double st None in
        let '(z, st) := get_double st None in
        match id, x, y, z with
        | Some id, Some x, Some y, Some z =>
            do id' <- minus1 id;
            do r <- read_nodes n str ls;
            Ok ((id', (x, y, z)) :: fst r, snd r)
        | _, _, _, _ => UB
        end
    end.
  (** nimble_genesis_mesh.cc 402-406: the entries of the vector start at 0 *)
  Fixpoint read_row (n : nat) (st : stream) : outcome (list Z) :=
    match n with
    | 0 => Ok []
    | S n =>
        let '(v, st) := get_int st (Some 0%Z) in
        match v with
        | Some v => do v' <- minus1 v; do vs <- read_row n st; Ok (v' :: vs)
        | None => UB
        end
    end.
  (** nimble_genesis_mesh.cc 393-407: global ids and connectivity of the block, and the list of all
      element ids with the next free position *)
  Fixpoint read_elems (n npe : nat) (str : chars) (ls : list chars) (all : list Z) (next : nat)
    : outcome (list Z * list Z * (list Z * nat) * list chars) :=
    match n with
    | 0 => Ok ([], [], (all, next), ls)
    | S n =>
        let '(str, ls) := getline str ls in
        let '(id, st) := get_int (Some str) None in
        match id with
        | None => UB
        | Some id =>
            do id' <- minus1 id;
            do all' <- vset all next id';
            do row <- read_row npe st;
            do r <- read_elems n npe str ls all' (S next);
            let '(ids, conn, an, ls) := r in
            Ok (id' :: ids, row ++ conn, an, ls)
        end
    end.
  (** nimble_genesis_mesh.cc 418-424 *)
  Fixpoint read_set (n : nat) (str : chars) (ls : list chars) : outcome (list Z * list chars) :=
    match n with
    | 0 => Ok ([], ls)
    | S n =>
        let '(str, ls) := getline str ls in
        match fst (get_int (Some str) (Some 0%Z)) with
        | Some v => do v' <- minus1 v; do r <- read_set n str ls; Ok (v' :: fst r, snd r)
        | None => UB
        end
    end.

  Definition set_nodes (m : mesh) (l : list (Z * (D * D * D))) : mesh :=
    Mesh (m_dim m) (map fst l) (map (fun e => fst (fst (snd e))) l) (map (fun e => snd (fst (snd e))) l)
         (map (fun e => snd (snd e)) l) (m_elem_id m) (m_all_block_ids m) (m_block_ids m)
         (m_all_block_names m) (m_block_names m) (m_block_elem_ids m) (m_nodes_per_elem m) (m_conn m)
         (m_ns_ids m) (m_ns_names m) (m_ns_nodes m).
  Definition set_elem_ids (m : mesh) (l : list Z) : mesh :=
    Mesh (m_dim m) (m_node_id m) (m_x m) (m_y m) (m_z m) l (m_all_block_ids m) (m_block_ids m)
         (m_all_block_names m) (m_block_names m) (m_block_elem_ids m) (m_nodes_per_elem m) (m_conn m)
         (m_ns_ids m) (m_ns_names m) (m_ns_nodes m).
  Definition add_block (m : mesh) (id : Z) (name : chars) (npe : Z) (ids conn : list Z) (all : list Z) : mesh :=
    Mesh (m_dim m) (m_node_id m) (m_x m) (m_y m) (m_z m) all (m_all_block_ids m) (m_block_ids m ++ [id])
         (m_all_block_names m) (assoc_set Z.eqb id name (m_block_names m))
         (assoc_set Z.eqb id ids (m_block_elem_ids m)) (assoc_set Z.eqb id npe (m_nodes_per_elem m))
         (assoc_set Z.eqb id conn (m_conn m)) (m_ns_ids m) (m_ns_names m) (m_ns_nodes m).
  Definition add_set (m : mesh) (id : Z) (name : chars) (nodes : list Z) : mesh :=
    Mesh (m_dim m) (m_node_id m) (m_x m) (m_y m) (m_z m) (m_elem_id m) (m_all_block_ids m) (m_block_ids m)
         (m_all_block_names m) (m_block_names m) (m_block_elem_ids m) (m_nodes_per_elem m) (m_conn m)
         (m_ns_ids m ++ [id]) (assoc_set Z.eqb id name (m_ns_names m)) (assoc_set Z.eqb id nodes (m_ns_nodes m)).

  (** "node_coordinates", nimble_genesis_mesh.cc 363-380; resize with a negative int asks for a
      huge vector: std::length_error *)
  Definition read_node_section (s : rstate) (str : chars) (ls : list chars) : outcome (rstate * list chars) :=
    match rs_nodes s with
    | None => UB
    | Some n =>
        if (n <? 0)%Z then Throw
        else do r <- read_nodes (Z.to_nat n) str ls;
             Ok (RState (rs_nodes s) (rs_elems s) (rs_next s) (set_nodes (rs_mesh s) (fst r)), snd r)
    end.
  (** "element_block", nimble_genesis_mesh.cc 381-407 *)
  Definition read_block_section (s : rstate) (str : chars) (ls : list chars) : outcome (rstate * list chars) :=
    let '(str, ls) := getline str ls in
    let '(id, st) := get_int (Some str) None in
    let '(name, st) := get_word st [] in
    let '(n, st) := get_int st None in
    let '(npe, st) := get_int st None in
    match id, n, npe with
    | Some id, Some n, Some npe =>
        if negb (in_int (n * npe)) then UB
        else if ((n * npe <? 0) || (n <? 0))%Z then Throw
        else do r <- read_elems (Z.to_nat n) (Z.to_nat npe) str ls (m_elem_id (rs_mesh s)) (rs_next s);
             let '(ids, conn, (all, next), ls) := r in
             Ok (RState (rs_nodes s) (rs_elems s) next (add_block (rs_mesh s) id name npe ids conn all), ls)
    | _, _, _ => UB
    end.
  (** "nodeset", nimble_genesis_mesh.cc 408-425 *)
  Definition read_set_section (s : rstate) (str : chars) (ls : list chars) : outcome (rstate * list chars) :=
    let '(str, ls) := getline str ls in
    let '(id, st) := get_int (Some str) None in
    let '(name, st) := get_word st [] in
    let '(n, st) := get_int st None in
    match id, n with
    | Some id, Some n =>
        if (n <? 0)%Z then Throw
        else do r <- read_set (Z.to_nat n) str ls;
             Ok (RState (rs_nodes s) (rs_elems s) (rs_next s) (add_set (rs_mesh s) id name (fst r)), snd r)
    | _, _ => UB
    end.

  (** the body of the loop, nimble_genesis_mesh.cc 340-426 *)
  Definition read_section (s : rstate) (str : chars) (ls : list chars) : outcome (rstate * list chars) :=
    let key := fst (get_word (Some str) []) in
    let st := snd (get_word (Some str) []) in
    if chars_eqb key (lit "number_of_nodes") then
      Ok (RState (fst (get_int st (rs_nodes s))) (rs_elems s) (rs_next s) (rs_mesh s), ls)
    else if chars_eqb key (lit "number_of_elements") then
      match fst (get_int st (rs_elems s)) with
      | None => UB
      | Some n => if (n <? 0)%Z then Throw
                  else Ok (RState (rs_nodes s) (Some n) (rs_next s)
                             (set_elem_ids (rs_mesh s) (resize (Z.to_nat n) (m_elem_id (rs_mesh s)))), ls)
      end
    else if chars_eqb key (lit "number_of_blocks") then Ok (s, ls)       (* read into a variable nobody uses *)
    else if chars_eqb key (lit "number_of_node_sets") then Ok (s, ls)    (* likewise *)
    else if chars_eqb key (lit "node_coordinates") then read_node_section s str ls
    else if chars_eqb key (lit "element_block") then read_block_section s str ls
    else if chars_eqb key (lit "nodeset") then read_set_section s str ls
    else Ok (s, ls).
  (** while (mesh_file.good()): every round consumes at least one line, so [fuel] is the number of lines *)
  Fixpoint read_sections (fuel : nat) (s : rstate) (ls : list chars) : outcome rstate :=
    match fuel, ls with
    | S fuel, l :: ls => do r <- read_section s l ls; read_sections fuel (fst r) (snd r)
    | _, _ => Ok s
    end.
  Definition set_dim (m : mesh) (d : Z) : mesh :=
    Mesh d (m_node_id m) (m_x m) (m_y m) (m_z m) (m_elem_id m) (m_all_block_ids m) (m_block_ids m)
         (m_all_block_names m) (m_block_names m) (m_block_elem_ids m) (m_nodes_per_elem m) (m_conn m)
         (m_ns_ids m) (m_ns_names m) (m_ns_nodes m).
  (** ReadTextFile, nimble_genesis_mesh.cc 318-427; [file] is the contents of <file_name>.txt, None
      when it cannot be opened *)
  Definition read_text_file (m : mesh) (file_name : chars) (file : option chars) : outcome mesh :=
    let m := set_dim m 3 in
    if chars_eqb file_name (lit "none") then Ok m
    else match file with
         | None => Throw
         | Some text =>
             do s <- read_sections (length (file_lines text)) (RState None None 0 m) (file_lines text);
             Ok (rs_mesh s)
         end.

  (** Initialize, nimble_genesis_mesh.cc 429-457 (on a mesh whose node sets are kept) *)
  Definition initialize (m : mesh) (node_id : list Z) (x y z : list D) (elem_id block_ids : list Z)
      (block_names : list (Z * chars)) (block_elem_ids : list (Z * list Z)) (npe : list (Z * Z))
      (conn : list (Z * list Z)) : mesh :=
    Mesh 3 node_id x y z elem_id block_ids block_ids block_names block_names block_elem_ids npe conn
         (m_ns_ids m) (m_ns_names m) (m_ns_nodes m).

  (** * Queries *)
  (** GetNumElementsInBlock(int), nimble_genesis_mesh.cc 459-467 *)
  Definition num_elements_in_block (m : mesh) (id : Z) : outcome Z :=
    do conn <- map_at id (m_conn m);
    do npe <- map_at id (m_nodes_per_elem m);
    match conn with
    | [] => Ok 0%Z
    | _ => if (npe =? 0)%Z then UB else Ok (Z.quot (Z.of_nat (length conn)) npe)
    end.
  (** GetNumElementsInBlock(), nimble_genesis_mesh.cc 469-477 *)
  Definition num_elements_per_block (m : mesh) : outcome (list (Z * Z)) :=
    ofold (fun acc id => do n <- num_elements_in_block m id; Ok (assoc_set Z.eqb id n acc)) (m_block_ids m) [].
  (** GetElementType, nimble_genesis_mesh.cc 479-505 *)
  Definition element_type (m : mesh) (id : Z) : outcome chars :=
    do n <- map_at id (m_nodes_per_elem m);
    let t :=
      if (m_dim m =? 2)%Z then
        if (n =? 3)%Z then lit "TRIANGLE:" else if (n =? 4)%Z then lit "QUAD" else lit "UNKNOWN"
      else if (m_dim m =? 3)%Z then
        if (n =? 1)%Z then lit "SPHERE" else if (n =? 3)%Z then lit "TRIANGLE"
        else if (n =? 4)%Z then lit "TETRA" else if (n =? 8)%Z then lit "HEX" else lit "UNKNOWN"
      else lit "UNKNOWN" in
    if chars_eqb t (lit "UNKNOWN") then Throw else Ok t.
  (** the entries of a std::map<int, ..> in the order of iteration *)
  Definition entries {V} (m : list (Z * V)) : list (Z * V) := isort (fun a b => (fst a <=? fst b)%Z) m.
  (** HasBlock, nimble_genesis_mesh.cc 507-514 *)
  Definition has_block (m : mesh) (name : chars) : bool :=
    existsb (fun e => chars_eqb (snd e) name) (entries (m_block_names m)).
  (** GetBlockId, nimble_genesis_mesh.cc 516-523 *)
  Definition block_id_of (m : mesh) (name : chars) : outcome Z :=
    match find (fun e => chars_eqb (snd e) name) (entries (m_block_names m)) with
    | Some e => Ok (fst e)
    | None => Throw
    end.
  (** BlockNamesToOnProcessorBlockIds, nimble_genesis_mesh.cc 525-534 *)
  Fixpoint on_processor_ids (m : mesh) (names : list chars) : outcome (list Z) :=
    match names with
    | [] => Ok []
    | n :: names =>
        if has_block m n then do id <- block_id_of m n; do ids <- on_processor_ids m names; Ok (id :: ids)
        else on_processor_ids m names
    end.
  (** GetMaxNodeGlobalId, nimble_genesis_mesh.h 99-107 *)
  Definition max_node_id (m : mesh) : Z :=
    fold_left (fun acc id => if (acc <? id)%Z then id else acc) (m_node_id m) (-1)%Z.

  (** * The text writer, nimble_exodus_output.cc 398-494 *)
  Definition sp : chars := lit " ".
  (** 421-427 *)
  Definition node_line (m : mesh) (i : nat) : outcome chars :=
    do id <- vget (m_node_id m) i;
    do id' <- plus1 id;
    do x <- vget (m_x m) i; do y <- vget (m_y m) i; do z <- vget (m_z m) i;
    Ok (show_int id' ++ sp ++ show x ++ sp ++ show y ++ sp ++ show z).
  (** 440-451 *)
  Definition elem_line (ids conn : list Z) (npe : nat) (i : nat) : outcome chars :=
    do id <- vget ids i;
    do id' <- plus1 id;
    do nodes <- omapM (fun j => do n <- vget conn (i * npe + j); do n' <- plus1 n; Ok (sp ++ show_int n')) (seq 0 npe);
    Ok (show_int id' ++ List.concat nodes).
  (** 430-452 *)
  Definition block_lines (m : mesh) (id : Z) : outcome (list chars) :=
    do name <- map_at id (m_all_block_names m);
    do n <- num_elements_in_block m id;
    do npe <- map_at id (m_nodes_per_elem m);
    do ids <- map_at id (m_block_elem_ids m);
    do conn <- map_at id (m_conn m);
    do ls <- omapM (elem_line ids conn (Z.to_nat npe)) (seq 0 (Z.to_nat n));
    Ok (lit "element_block" :: (show_int id ++ sp ++ name ++ sp ++ show_int n ++ sp ++ show_int npe) :: ls).
  Definition map_default {V} (d : V) (k : Z) (m : list (Z * V)) : V :=
    match assoc Z.eqb k m with Some v => v | None => d end.
  (** 455-466 *)
  Definition set_lines (m : mesh) (id : Z) : outcome (list chars) :=
    let nodes := map_default [] id (m_ns_nodes m) in
    do ls <- omapM (fun n => do n' <- plus1 n; Ok (show_int n')) nodes;
    Ok (lit "nodeset" :: (show_int id ++ sp ++ @map_default chars [] id (m_ns_names m) ++ sp ++ show_int (Z.of_nat (length nodes))) :: ls).
  (** std::set<std::string>: the order of characters is that of their codes *)
  Fixpoint chars_leb (a b : chars) : bool :=
    match a, b with
    | [], _ => true
    | _ :: _, [] => false
    | c :: a, d :: b =>
        if (N_of_ascii c <? N_of_ascii d)%N then true
        else if (N_of_ascii d <? N_of_ascii c)%N then false else chars_leb a b
    end.
  (** 480-493: the distinct element variables, in order; the index of a name is its position plus 1 *)
  Definition elem_var_names (m : mesh) (elem derived : list (Z * list chars)) : outcome (list chars) :=
    do ns <- omapM (fun id => do a <- map_at id elem; do b <- map_at id derived; Ok (a ++ b)) (m_block_ids m);
    Ok (uniq chars_eqb (isort chars_leb (List.concat ns))).
  (** a count and the names, 468-477, 494-496 *)
  Definition names_lines (title : chars) (names : list chars) : list chars :=
    title :: show_int (Z.of_nat (length names)) :: names.
  (** Initialize, nimble_exodus_output.cc 64-75, and InitializeDatabaseTextFile, 398-500: the lines
      of the file *)
  Definition database_lines (m : mesh) (global node : list chars) (elem derived : list (Z * list chars))
    : outcome (list chars) :=
    do nodes <- omapM (node_line m) (seq 0 (length (m_x m)));
    do blocks <- omapM (block_lines m) (m_block_ids m);
    do sets <- omapM (set_lines m) (m_ns_ids m);
    do vars <- elem_var_names m elem derived;
    Ok ([lit "number_of_nodes " ++ show_int (Z.of_nat (length (m_x m)));
         lit "number_of_elements " ++ show_int (Z.of_nat (length (m_elem_id m)));
         lit "number_of_blocks " ++ show_int (Z.of_nat (length (m_block_ids m)));
         lit "number_of_node_sets " ++ show_int (Z.of_nat (length (m_ns_ids m)));
         lit "node_coordinates"]
        ++ nodes ++ List.concat blocks ++ List.concat sets
        ++ names_lines (lit "global_data") global ++ names_lines (lit "node_data") node
        ++ names_lines (lit "element_data") vars).
  (** every line ends with a newline *)
  Definition file_of_lines (ls : list chars) : chars := List.concat (map (fun l => l ++ [newline]) ls).
  Definition write_database m global node elem derived : outcome chars :=
    do ls <- database_lines m global node elem derived; Ok (file_of_lines ls).
End MeshText.

(** * Bounding box *)
Section Box.
  Local Open Scope R_scope.
  (** nimble_genesis_mesh.cc 536-560 for one coordinate: the running minimum and maximum *)
  Definition run_min (big : R) (xs : list R) : R := fold_left (fun m x => if Rlt_dec x m then x else m) xs big.
  Definition run_max (big : R) (xs : list R) : R := fold_left (fun m x => if Rgt_dec x m then x else m) xs (-1 * big).
  Record box := Box { b_xmin : R; b_xmax : R; b_ymin : R; b_ymax : R; b_zmin : R; b_zmax : R }.
  (** BoundingBox, nimble_genesis_mesh.cc 536-560; [big] is the largest double.  The three
      coordinates are updated in one loop; the updates of different coordinates do not interact. *)
  Definition bounding_box (big : R) (m : mesh R) : box :=
    Box (run_min big (m_x m)) (run_max big (m_x m)) (run_min big (m_y m)) (run_max big (m_y m))
        (run_min big (m_z m)) (run_max big (m_z m)).
  (** BoundingBoxCenter, nimble_genesis_mesh.cc 562-572 *)
  Definition bounding_box_center (big : R) (m : mesh R) : R * R * R :=
    let b := bounding_box big m in
    ((b_xmax b + b_xmin b) / 2, (b_ymax b + b_ymin b) / 2, (b_zmax b + b_zmin b) / 2).
  (** ContactManager::BoundingBox, nimble_contact_manager.cc 1207-1246: Kokkos::atomic_min_fetch /
      atomic_max_fetch by any number of threads, in the order [nodes] in which they happen to run;
      the coordinates of node i are 3 i .. 3 i + 2 of a flat array *)
  Definition contact_box (big : R) (coord : list R) (order : list nat) : box :=
    fold_left (fun b i =>
      let x := nth (3 * i) coord 0 in let y := nth (3 * i + 1) coord 0 in let z := nth (3 * i + 2) coord 0 in
      Box (Rmin (b_xmin b) x) (Rmax (b_xmax b) x) (Rmin (b_ymin b) y) (Rmax (b_ymax b) y)
          (Rmin (b_zmin b) z) (Rmax (b_zmax b) z))
      order (Box big (-1 * big) big (-1 * big) big (-1 * big)).
  (** BoundingBoxAverageCharacteristicLengthOverAllRanks, nimble_contact_manager.cc 1248-1265: one
      box per rank; MPI_Allreduce(MPI_SUM) adds the lengths *)
  Definition longest_edge (b : box) : R :=
    let e := b_xmax b - b_xmin b in
    let e := if Rgt_dec (b_ymax b - b_ymin b) e then b_ymax b - b_ymin b else e in
    if Rgt_dec (b_zmax b - b_zmin b) e then b_zmax b - b_zmin b else e.
  Definition average_length (boxes : list box) : R :=
    fold_right Rplus 0 (map longest_edge boxes) / INR (length boxes).
End Box.
