(** Model of the input-text layer:
      src/nimble_parser.cc          IOFileName, IOFileNameThreadSafe, BlockProperties, ReadFile, ParseKeyValue
      src/nimble_parser.h           default values and the accessors of Parser
      src/nimble_parser_util.h      tokenize_string, string_to_double
      src/nimble_material_factory_base.cc, nimble_material_factory.cc, nimble_material.{h,cc} (parameters)
      src/nimble_boundary_condition.cc  BoundaryCondition::Initialize
      src/nimble_cli.cc             the switches
      src/nimble_utils.h            StringsAreEqual
    std::string is a list of characters.  Doubles are an arbitrary type [D] with arbitrary library
    conversions ([atof], [rdouble]); int is Z, with overflow made visible.  Capacity of char
    buffers other than the line buffer of ReadFile is not modelled. *)
From Verif Require Import Base Strings.
From Coq Require Import NArith.
Local Close Scope string_scope.
Local Open Scope list_scope.
Set Implicit Arguments.
Notation length := List.length.

(** * std::string operations.  npos is [None]. *)
(** s.find(c) *)
Fixpoint find_char (c : ascii) (s : chars) : option nat :=
  match s with
  | [] => None
  | d :: s => if ascii_dec d c then Some 0 else option_map S (find_char c s)
  end.
(** s.rfind(p) *)
Fixpoint rfind_str (p s : chars) : option nat :=
  match s with
  | [] => match p with [] => Some 0 | _ => None end
  | d :: s' =>
      match rfind_str p s' with
      | Some n => Some (S n)
      | None => if starts_with p s then Some 0 else None
      end
  end.
Definition mem (c : ascii) (set : chars) : bool := if in_dec ascii_dec c set then true else false.
(** s.find_first_not_of(set) *)
Fixpoint find_first_not_of (set s : chars) : option nat :=
  match s with
  | [] => None
  | d :: s => if mem d set then option_map S (find_first_not_of set s) else Some 0
  end.
(** s.find_last_not_of(set) *)
Fixpoint find_last_not_of (set s : chars) : option nat :=
  match s with
  | [] => None
  | d :: s =>
      match find_last_not_of set s with
      | Some n => Some (S n)
      | None => if mem d set then None else Some 0
      end
  end.
(** s.substr(pos, len): out_of_range if pos > size(); npos is larger than any size *)
Definition substr (s : chars) (pos : option nat) (len : nat) : outcome chars :=
  match pos with
  | None => Throw
  | Some p => if p <=? length s then Ok (firstn len (skipn p s)) else Throw
  end.
(** pos + 1, where npos + 1 wraps to 0 *)
Definition succ_pos (pos : option nat) : nat := match pos with Some p => S p | None => 0 end.
(** s.substr(0, pos) *)
Definition upto (s : chars) (pos : option nat) : chars :=
  match pos with Some p => firstn p s | None => s end.

(** isspace / toupper / tolower of the C locale *)
Definition isspace (c : ascii) : bool :=
  let n := N_of_ascii c in ((n =? 32) || ((9 <=? n) && (n <=? 13)))%N.
Definition toupper (c : ascii) : ascii :=
  let n := N_of_ascii c in if ((97 <=? n) && (n <=? 122))%N then ascii_of_N (n - 32) else c.
Definition tolower (c : ascii) : ascii :=
  let n := N_of_ascii c in if ((65 <=? n) && (n <=? 90))%N then ascii_of_N (n + 32) else c.

Fixpoint skip_ws (s : chars) : chars :=
  match s with [] => [] | c :: s' => if isspace c then skip_ws s' else s end.
Fixpoint until_ws (s : chars) : chars :=
  match s with [] => [] | c :: s' => if isspace c then [] else c :: until_ws s' end.

(** sign and digits of an integer read by atoi / operator>>(int): None when there is no digit *)
Definition int_text (s : chars) : option Z :=
  let num (ds : chars) := match ds with [] => None | _ => Some (Z.of_N (undec ds)) end in
  match s with
  | [] => None
  | c :: s' =>
      if ascii_dec c "-" then option_map Z.opp (num (take_digits s'))
      else if ascii_dec c "+" then num (take_digits s')
      else num (take_digits s)
  end.
Definition in_int (z : Z) : bool := ((- 2 ^ 31 <=? z) && (z <? 2 ^ 31))%Z.
(** std::atoi: 0 without digits, undefined behaviour when the value does not fit an int *)
Definition atoi (s : chars) : outcome Z :=
  match int_text (skip_ws s) with
  | None => Ok 0%Z
  | Some z => if in_int z then Ok z else UB
  end.
(** ss >> i for an int variable holding [old]: unchanged when only white space is left (the sentry
    fails), 0 when the text is no number, clamped when it does not fit (C++11) *)
Definition read_int (old : Z) (s : chars) : Z :=
  match skip_ws s with
  | [] => old
  | s' => match int_text s' with
          | None => 0%Z
          | Some z => if in_int z then z else if (z <? 0)%Z then (- 2 ^ 31)%Z else (2 ^ 31 - 1)%Z
          end
  end.

(** * File names *)
(** nimble_parser.cc 57-88, IOFileName.  Ranks are not negative.  [ss >> file_name] skips leading
    white space and stops at the next white space. *)
Definition io_file_name (serial extension label : chars) (my_rank num_ranks : N) : chars :=
  if chars_eqb serial (lit "none") then serial
  else
    let f := upto serial (rfind_str (lit ".g") serial) in
    let f := upto f (rfind_str (lit ".e") f) in
    let f := match label with [] => f | _ => f ++ lit "." ++ label end in
    let f := f ++ lit "." ++ extension in
    if (1 <? num_ranks)%N then
      let padding := repeat (digit 0) (length (dec num_ranks) - length (dec my_rank)) in
      until_ws (skip_ws (f ++ lit "." ++ dec num_ranks ++ lit "." ++ padding ++ dec my_rank))
    else f.

(** nimble_parser.cc 115-153: ".<count>.<zero padded index>", nothing when the count is at most 1;
    [required - current] is unsigned, so an index with more digits than the count pads without end *)
Definition index_suffix (f : chars) (index count : N) : outcome chars :=
  if (1 <? count)%N then
    let required := length (dec count) in
    let current := length (dec index) in
    if required <? current then UB
    else Ok (f ++ lit "." ++ dec count ++ lit "." ++ repeat (digit 0) (required - current) ++ dec index)
  else Ok f.
(** nimble_parser.cc 90-157, IOFileNameThreadSafe *)
Definition io_file_name_thread_safe (serial extension label : chars)
    (my_rank num_ranks my_thread num_threads : N) : outcome chars :=
  let f := if 2 <? length serial then firstn (length serial - 2) serial else serial in
  let f := match label with [] => f | _ => f ++ lit "." ++ label end in
  let f := match extension with [] => f | _ => f ++ lit "." ++ extension end in
  do f <- index_suffix f my_rank num_ranks;
  index_suffix f my_thread num_threads.

(** * Tokens *)
(** nimble_parser_util.h 58-66, tokenize_string_with_separator; [cur] is the token being read,
    None while [ss >> std::ws] skips white space.  At the end of the text std::ws sets eofbit and
    getline fails. *)
Fixpoint tok (sep : ascii) (cur : option chars) (s : chars) : list chars :=
  match s with
  | [] => match cur with Some t => [t] | None => [] end
  | c :: s =>
      match cur with
      | None => if isspace c then tok sep None s
                else if ascii_dec c sep then [] :: tok sep None s
                else tok sep (Some [c]) s
      | Some t => if ascii_dec c sep then t :: tok sep None s else tok sep (Some (t ++ [c])) s
      end
  end.
Definition tokenize_sep (s : chars) (sep : ascii) : list chars := tok sep None s.
Definition quote : ascii := """".
(** nimble_parser_util.h 70-89, tokenize_string; [odd] says whether the next segment is quoted *)
Fixpoint tok_segments (odd : bool) (segs : list chars) : list chars :=
  match segs with
  | [] => []
  | q :: segs => (if odd then [q] else tokenize_sep q " ") ++ tok_segments (negb odd) segs
  end.
Definition tokenize_string (s : chars) : list chars := tok_segments false (tokenize_sep s quote).

(** while (ss >> val) vals.push_back(val): nimble_parser.cc 293-296 *)
Fixpoint words (cur : option chars) (s : chars) : list chars :=
  match s with
  | [] => match cur with Some t => [t] | None => [] end
  | c :: s =>
      if isspace c then match cur with Some t => t :: words None s | None => words None s end
      else words (Some (match cur with Some t => t ++ [c] | None => [c] end)) s
  end.

(** * Element blocks *)
(** BlockProperties, nimble_parser.cc 159-169 *)
Record block_props := BlockProps { bp_name : chars; bp_id : Z; bp_material : chars }.
Definition block_properties (props : chars) : block_props :=
  let space := find_char " " props in
  let name := upto props space in
  let material := skipn (succ_pos space) props in
  let under := rfind_str (lit "_") name in
  BlockProps name (read_int (-1) (skipn (succ_pos under) name)) material.

(** * The input deck *)
(** the conditional parts of ParseKeyValue: NIMBLE_HAVE_BVH, NIMBLE_HAVE_UQ *)
Record build := Build { have_bvh : bool; have_uq : bool }.

Section Deck.
  Variable D : Type.
  Variable atof : chars -> D.        (* std::atof *)
  Variable default_tolerance zero : D.
  Variable cfg : build.

  (** nimble_parser.h 400-430, the data members of Parser that ParseKeyValue assigns *)
  Record options := Options {
    o_genesis : chars; o_exodus : chars; o_two_level : bool; o_timing : bool; o_scheme : chars;
    o_tolerance : D; o_max_iterations : Z; o_initial_time : D; o_final_time : D;
    o_load_steps : Z; o_output_frequency : Z; o_contact : chars; o_contact_backend : chars;
    o_vis_entities : bool; o_vis_boxes : bool; o_vis_file : chars;
    o_materials : list (chars * chars); o_blocks : list (Z * block_props);
    o_bcs : list chars; o_output_fields : chars;
    o_dicing : Z; o_splitting : chars;
    o_uq_params : list (chars * chars); o_uq_model : chars }.
  (** Parser::Parser(), nimble_parser.cc 171-188 *)
  Definition defaults : options := Options
    (lit "none") (lit "none") false false (lit "explicit") default_tolerance 200 zero zero 0 1
    [] [] false false (lit "none") [] [] [] [] 0 [] [] [].

  (** the on/off values, nimble_parser.cc 246-258, 261-273 *)
  Definition parse_bool (value : chars) : outcome bool :=
    let v := map toupper value in
    if chars_eqb v (lit "TRUE") || chars_eqb v (lit "YES") || chars_eqb v (lit "ON") then Ok true
    else if chars_eqb v (lit "FALSE") || chars_eqb v (lit "NO") || chars_eqb v (lit "OFF") then Ok false
    else Throw.

  (** "contact visualization", nimble_parser.cc 292-317 *)
  Definition parse_visualization (value : chars) : outcome (bool * bool * chars) :=
    match words None value with
    | [a; b; c; d; e; f] =>
        if chars_eqb a (lit "visualize_contact_entities")
           && (chars_eqb b (lit "on") || chars_eqb b (lit "off"))
           && chars_eqb c (lit "visualize_bounding_boxes")
           && (chars_eqb d (lit "on") || chars_eqb d (lit "off"))
           && chars_eqb e (lit "file_name")
        then Ok (chars_eqb b (lit "on"), chars_eqb d (lit "on"), f) else Throw
    | _ => Throw
    end.
  (** "<first word> <rest>", nimble_parser.cc 319-321 *)
  Definition split_space (value : chars) : chars * chars :=
    let space := find_char " " value in (upto value space, skipn (succ_pos space) value).

  (** ParseKeyValue, nimble_parser.cc 238-360 *)
  Definition parse_key_value (o : options) (key value : chars) : outcome options :=
    let '(Options gen exo two tim sch tol mxi it ft nls ofr con cob ven vbo vfi mat blk bcs ofi dic spl uqp uqm) := o in
    if chars_eqb key (lit "genesis input file") then
      Ok (Options value exo two tim sch tol mxi it ft nls ofr con cob ven vbo vfi mat blk bcs ofi dic spl uqp uqm)
    else if chars_eqb key (lit "exodus output file") then
      Ok (Options gen value two tim sch tol mxi it ft nls ofr con cob ven vbo vfi mat blk bcs ofi dic spl uqp uqm)
    else if chars_eqb key (lit "use two level mesh decomposition") then
      do b <- parse_bool value;
      Ok (Options gen exo b tim sch tol mxi it ft nls ofr con cob ven vbo vfi mat blk bcs ofi dic spl uqp uqm)
    else if chars_eqb key (lit "write timing data file") then
      do b <- parse_bool value;
      Ok (Options gen exo two b sch tol mxi it ft nls ofr con cob ven vbo vfi mat blk bcs ofi dic spl uqp uqm)
    else if chars_eqb key (lit "time integration scheme") then
      Ok (Options gen exo two tim value tol mxi it ft nls ofr con cob ven vbo vfi mat blk bcs ofi dic spl uqp uqm)
    else if chars_eqb key (lit "nonlinear solver relative tolerance") then
      Ok (Options gen exo two tim sch (atof value) mxi it ft nls ofr con cob ven vbo vfi mat blk bcs ofi dic spl uqp uqm)
    else if chars_eqb key (lit "nonlinear solver maximum iterations") then
      do n <- atoi value;
      Ok (Options gen exo two tim sch tol n it ft nls ofr con cob ven vbo vfi mat blk bcs ofi dic spl uqp uqm)
    else if chars_eqb key (lit "initial time") then
      Ok (Options gen exo two tim sch tol mxi (atof value) ft nls ofr con cob ven vbo vfi mat blk bcs ofi dic spl uqp uqm)
    else if chars_eqb key (lit "final time") then
      Ok (Options gen exo two tim sch tol mxi it (atof value) nls ofr con cob ven vbo vfi mat blk bcs ofi dic spl uqp uqm)
    else if chars_eqb key (lit "number of load steps") then
      do n <- atoi value;
      Ok (Options gen exo two tim sch tol mxi it ft n ofr con cob ven vbo vfi mat blk bcs ofi dic spl uqp uqm)
    else if chars_eqb key (lit "output frequency") then
      do n <- atoi value;
      Ok (Options gen exo two tim sch tol mxi it ft nls n con cob ven vbo vfi mat blk bcs ofi dic spl uqp uqm)
    else if chars_eqb key (lit "contact") then
      Ok (Options gen exo two tim sch tol mxi it ft nls ofr value cob ven vbo vfi mat blk bcs ofi dic spl uqp uqm)
    else if chars_eqb key (lit "contact backend") then
      Ok (Options gen exo two tim sch tol mxi it ft nls ofr con value ven vbo vfi mat blk bcs ofi dic spl uqp uqm)
    else if chars_eqb key (lit "contact visualization") then
      do v <- parse_visualization value;
      Ok (Options gen exo two tim sch tol mxi it ft nls ofr con cob (fst (fst v)) (snd (fst v)) (snd v) mat blk bcs ofi dic spl uqp uqm)
    else if chars_eqb key (lit "material parameters") then
      Ok (Options gen exo two tim sch tol mxi it ft nls ofr con cob ven vbo vfi
            (assoc_set chars_eqb (fst (split_space value)) (snd (split_space value)) mat) blk bcs ofi dic spl uqp uqm)
    else if chars_eqb key (lit "element block") then
      let bp := block_properties value in
      Ok (Options gen exo two tim sch tol mxi it ft nls ofr con cob ven vbo vfi mat
            (assoc_set Z.eqb (bp_id bp) bp blk) bcs ofi dic spl uqp uqm)
    else if chars_eqb key (lit "boundary condition") then
      Ok (Options gen exo two tim sch tol mxi it ft nls ofr con cob ven vbo vfi mat blk (bcs ++ [value]) ofi dic spl uqp uqm)
    else if chars_eqb key (lit "output fields") then
      Ok (Options gen exo two tim sch tol mxi it ft nls ofr con cob ven vbo vfi mat blk bcs value dic spl uqp uqm)
    else if chars_eqb key (lit "contact dicing") then
      do n <- atoi value;
      Ok (Options gen exo two tim sch tol mxi it ft nls ofr con cob ven vbo vfi mat blk bcs ofi
            (if have_bvh cfg then n else dic) spl uqp uqm)
    else if chars_eqb key (lit "contact splitting") then
      Ok (Options gen exo two tim sch tol mxi it ft nls ofr con cob ven vbo vfi mat blk bcs ofi dic
            (if have_bvh cfg then snd (split_space value) else spl) uqp uqm)
    else if have_uq cfg && chars_eqb key (lit "uq parameters") then
      Ok (Options gen exo two tim sch tol mxi it ft nls ofr con cob ven vbo vfi mat blk bcs ofi dic spl
            (assoc_set chars_eqb (fst (split_space value)) (snd (split_space value)) uqp) uqm)
    else if have_uq cfg && chars_eqb key (lit "uq model") then
      Ok (Options gen exo two tim sch tol mxi it ft nls ofr con cob ven vbo vfi mat blk bcs ofi dic spl uqp value)
    else Throw.

  Definition blank_set : chars := [" "%char; "009"%char].

  (** ReadFile, nimble_parser.cc 212-221: comments, surrounding white space *)
  Definition strip_line (line : chars) : outcome chars :=
    let line := upto line (find_char "#" line) in
    match line with
    | [] => Ok []
    | _ =>
        let start := find_first_not_of blank_set line in
        let stop := find_last_not_of blank_set line in
        (* npos - npos + 1 is 1, but substr(npos, ..) throws before it matters *)
        let len := match start, stop with Some a, Some b => b - a + 1 | _, _ => 1 end in
        substr line start len
    end.
  (** ReadFile, nimble_parser.cc 226-232: key and value; the second argument of substr is a
      length, the code passes an end position *)
  Definition key_value (line : chars) : outcome (chars * chars) :=
    let colon := find_char ":" line in
    let key := upto line colon in
    do key <- substr key (find_first_not_of [" "%char] key) (succ_pos (find_last_not_of [" "%char] key));
    let value := skipn (succ_pos colon) line in
    do value <- substr value (find_first_not_of [" "%char] value) (succ_pos (find_last_not_of [" "%char] value));
    Ok (key, value).
  (** the body of the loop, nimble_parser.cc 209-235.  [std::string line(buf)] ends at a NUL *)
  Fixpoint until_nul (s : chars) : chars :=
    match s with [] => [] | c :: s => if ascii_dec c Ascii.zero then [] else c :: until_nul s end.
  Definition process_line (o : options) (buf : chars) : outcome options :=
    do line <- strip_line (until_nul buf);
    match line with
    | [] => Ok o
    | _ => do kv <- key_value line; parse_key_value o (fst kv) (snd kv)
    end.

  (** the lines of a file: fin.getline up to each newline; there is always a last, possibly empty, one *)
  Definition newline : ascii := "010".
  Fixpoint file_lines (s : chars) : list chars :=
    match s with
    | [] => [[]]
    | c :: s => if ascii_dec c newline then [] :: file_lines s
                else match file_lines s with l :: ls => (c :: l) :: ls | [] => [[c]] end
    end.

  Inductive run (A : Type) := Finished (r : outcome A) | Hangs.
  Arguments Finished {A} r.
  Arguments Hangs {A}.
  Definition max_chars_per_line := 1000.
  (** ReadFile, nimble_parser.cc 196-236, for a file that can be opened.  A line that does not fit
      the buffer leaves its first 999 characters there and sets failbit; every later getline then
      fails, stores the empty string and never sets eofbit: the loop does not end (unless the
      truncated line already throws). *)
  Fixpoint read_lines (o : options) (ls : list chars) : run options :=
    match ls with
    | [] => Finished (Ok o)
    | l :: ls =>
        if length l <? max_chars_per_line then
          match process_line o l with
          | Ok o' => read_lines o' ls
          | r => Finished r
          end
        else
          match process_line o (firstn (max_chars_per_line - 1) l) with
          | Ok _ => Hangs
          | r => Finished r
          end
    end.
  Definition read_file (text : chars) : run options := read_lines defaults (file_lines text).

  (** accessors, nimble_parser.h 137-148, 175-240, 252-262 *)
  Definition time_integration_scheme (o : options) : outcome chars :=
    if chars_eqb (o_scheme o) (lit "explicit") || chars_eqb (o_scheme o) (lit "quasistatic")
    then Ok (o_scheme o) else Throw.
  Definition has_contact (o : options) : bool := match o_contact o with [] => false | _ => true end.
  Definition contact_visualization (o : options) : bool := o_vis_entities o || o_vis_boxes o.
  Definition get_model_material_parameters (o : options) (id : Z) : outcome chars :=
    match assoc Z.eqb id (o_blocks o) with
    | None => Ok (lit "none")
    | Some b => match assoc chars_eqb (bp_material b) (o_materials o) with Some p => Ok p | None => Throw end
    end.
  (** the first block in the order of ids (std::map) whose material is the given one *)
  Definition get_block_id_from_material (o : options) (key : chars) : Z :=
    match filter (fun e => chars_eqb key (bp_material (snd e)))
                 (isort (fun a b => (fst a <=? fst b)%Z) (o_blocks o)) with
    | e :: _ => fst e
    | [] => (-1)%Z
    end.
  Definition get_output_field_string (o : options) : outcome chars :=
    match o_output_fields o with [] => Throw | f => Ok f end.
End Deck.
Arguments Finished {A} r.
Arguments Hangs {A}.

(** * Material parameters *)
Section Materials.
  Variable D : Type.
  Variable rdouble : chars -> option D.  (* operator>>(double): None when the extraction fails *)
  Variable zero : D.
  (** string_to_double, nimble_parser_util.h 91-99: a failed extraction stores 0 (C++11), which
      replaces the initial DBL_MAX; for the empty text the sentry fails and DBL_MAX stays *)
  Variable dbl_max : D.
  Definition string_to_double (s : chars) : D :=
    match skip_ws s with
    | [] => dbl_max
    | _ => match rdouble s with Some v => v | None => zero end
    end.
  (** std::map::insert: no effect on an existing key *)
  Definition map_insert {V} (k : chars) (v : V) (m : list (chars * V)) : list (chars * V) :=
    match assoc chars_eqb k m with Some _ => m | None => (k, v) :: m end.

  (** MaterialParameters, nimble_material.h 63-185 *)
  Record mat_params := MatParams {
    mp_name : chars; mp_strings : list (chars * chars); mp_doubles : list (chars * D); mp_points : Z }.
  Definition get_parameter_value (p : mat_params) (k : chars) : outcome D :=
    match assoc chars_eqb k (mp_doubles p) with Some v => Ok v | None => Throw end.
  Definition get_string_parameter_value (p : mat_params) (k : chars) : outcome chars :=
    match assoc chars_eqb k (mp_strings p) with Some v => Ok v | None => Throw end.

  Variable valid_double valid_string : list chars.
  Definition listed (k : chars) (l : list chars) : bool := existsb (chars_eqb k) l.
  (** the loop of nimble_material_factory_base.cc 79-95 (and, the same, 114-130): token and
      token + 1 are read, then token += 2; an odd list dereferences the end *)
  Fixpoint read_pairs (fuel : list chars) (str : list (chars * chars)) (dbl : list (chars * D))
    : outcome (list (chars * chars) * list (chars * D)) :=
    match fuel with
    | [] => Ok (str, dbl)
    | [_] => UB
    | key :: val :: rest =>
        if listed key valid_double then read_pairs rest str (map_insert key (string_to_double val) dbl)
        else if listed key valid_string then read_pairs rest (map_insert key val str) dbl
        else Throw
    end.
  (** ParseMaterialParametersString, nimble_material_factory_base.cc 62-98 *)
  Definition parse_material_parameters (s : chars) (points : Z) : outcome mat_params :=
    match tokenize_string s with
    | name :: (_ :: _) as rest => do r <- read_pairs rest [] []; Ok (MatParams name (fst r) (snd r) points)
    | _ => Abort
    end.
  (** ParseMaterialParamsStringToMap, nimble_material_factory_base.cc 100-132 *)
  Definition parse_material_map (s : chars) : outcome (list (chars * D)) :=
    match tokenize_string s with
    | name :: (_ :: _) as rest => do r <- read_pairs rest [] []; Ok (snd r)
    | _ => Abort
    end.

  (** MaterialFactory::create, nimble_material_factory.cc 56-68, and the constructors
      nimble_material.cc 59-66, 216-224 *)
  Inductive material_model :=
  | Neohookean (density bulk shear : D)
  | Elastic (density bulk shear : D).
  Definition create_material (p : mat_params) : outcome material_model :=
    let build (mk : D -> D -> D -> material_model) :=
      do d <- get_parameter_value p (lit "density");
      do b <- get_parameter_value p (lit "bulk_modulus");
      do s <- get_parameter_value p (lit "shear_modulus");
      Ok (mk d b s) in
    if chars_eqb (mp_name p) (lit "neohookean") then build Neohookean
    else if chars_eqb (mp_name p) (lit "elastic") then build Elastic
    else Throw.
End Materials.

(** the names registered by MaterialFactoryBase(), nimble_material_factory_base.cc 56-60,
    nimble_material.cc 51-57, 208-214 (duplicates are not added twice) *)
Definition base_double_names : list chars := [lit "bulk_modulus"; lit "shear_modulus"; lit "density"].
Definition base_string_names : list chars := [].

(** MaterialFactory::parse_and_create, nimble_material_factory_base.h 90-97 *)
Definition parse_and_create {D} (rdouble : chars -> option D) (zero dbl_max : D) (s : chars) (points : Z)
  : outcome (material_model D) :=
  do p <- parse_material_parameters rdouble zero dbl_max base_double_names base_string_names s points;
  create_material p.

(** * Boundary condition lines *)
Section BcLine.
  Variable D : Type.
  Variable rdouble : chars -> D.   (* ss >> magnitude_, 0 when the extraction fails *)
  Variable zero : D.
  Variable F : Type.
  Variable functor : chars -> outcome F.  (* the expression parser, ExprModel.bcfun_new *)

  (** nimble_boundary_condition.h 62-69, 98-108 *)
  Inductive bc_kind := InitialVelocity | PrescribedVelocity | PrescribedDisplacement | PrescribedTraction.
  Record bc_fields := BcFields {
    bf_kind : bc_kind; bf_node_set : chars; bf_node_set_id : Z; bf_side_set : chars; bf_side_set_id : Z;
    bf_coordinate : Z; bf_magnitude : D; bf_expression : option (chars * F) }.
  (** find_name_id, nimble_boundary_condition.cc 53-63; maps are listed in the order of their keys *)
  Definition find_name_id (m : list (Z * chars)) (name : chars) : Z :=
    match find (fun e => chars_eqb (snd e) name) m with Some e => fst e | None => (-1)%Z end.
  Definition kind_of (s : chars) : outcome bc_kind :=
    if chars_eqb s (lit "initial_velocity") then Ok InitialVelocity
    else if chars_eqb s (lit "prescribed_velocity") then Ok PrescribedVelocity
    else if chars_eqb s (lit "prescribed_displacement") then Ok PrescribedDisplacement
    else if chars_eqb s (lit "prescribed_traction") then Ok PrescribedTraction
    else Throw.
  Definition coordinate_of (s : chars) : outcome Z :=
    let c := map tolower s in
    if chars_eqb c (lit "x") then Ok 0%Z
    else if chars_eqb c (lit "y") then Ok 1%Z
    else if chars_eqb c (lit "z") then Ok 2%Z
    else Throw.
  Fixpoint count_char (c : ascii) (s : chars) : nat :=
    match s with [] => 0 | d :: s => (if ascii_dec d c then 1 else 0) + count_char c s end.
  (** between the first and the last quote, nimble_boundary_condition.cc 109-111 *)
  Definition rfind_char (c : ascii) (s : chars) : option nat := rfind_str [c] s.
  Definition quoted_part (s : chars) : chars :=
    let first := match find_char quote s with Some p => p | None => 0 end in
    let last := match rfind_char quote s with Some p => p | None => 0 end in
    firstn (last - first - 1) (skipn (first + 1) s).
  (** BoundaryCondition::Initialize, nimble_boundary_condition.cc 65-144; the bool is is_valid *)
  Definition bc_initialize (bc_string : chars) (node_sets side_sets : list (Z * chars))
    : outcome (bool * bc_fields) :=
    let ws := words None bc_string in
    let type_string := nth 0 ws (lit "undefined") in
    let set_name := nth 1 ws (lit "unknown") in
    let coordinate_string := nth 2 ws (lit "undefined") in
    do kind <- kind_of type_string;
    let neumann := match kind with PrescribedTraction => true | _ => false end in
    let quotes := count_char quote bc_string in
    do val <- (if quotes =? 2 then
                 do f <- functor (quoted_part bc_string); Ok (zero, Some (quoted_part bc_string, f))
               else if quotes =? 0 then
                 Ok (match nth_error ws 3 with Some w => rdouble w | None => zero end, None)
               else Throw);
    let node_name := if neumann then lit "unknown" else set_name in
    let side_name := if neumann then set_name else lit "unknown" in
    let id := find_name_id (if neumann then side_sets else node_sets) set_name in
    do c <- coordinate_of coordinate_string;
    Ok (negb (id =? -1)%Z,
        BcFields kind node_name (if neumann then -1 else id)%Z side_name (if neumann then id else -1)%Z c
                 (fst val) (snd val)).
End BcLine.

(** * Command line switches *)
(** nimble_cli.cc 52-63: the variables; 80-111: each flag with the variable it is bound to and the
    condition of its check.  The parsing itself is CLI11's: every occurrence of a flag sets the
    bound variable, a failed check makes the parse fail (non-zero error code). *)
Inductive switch := UseTpetra | UseVT | UseUQ.
Record cli_build := CliBuild { have_trilinos : bool; have_vt : bool; cli_have_uq : bool }.
Record cli := Cli { use_tpetra : bool; use_vt : bool; use_uq : bool }.
Definition cli_flag (cfg : cli_build) (c : cli) (s : switch) : outcome cli :=
  match s with
  | UseTpetra => if have_trilinos cfg then Ok (Cli true (use_vt c) (use_uq c)) else Throw
  | UseVT => if have_vt cfg then Ok (Cli (use_tpetra c) true (use_uq c)) else Throw
  | UseUQ => if cli_have_uq cfg then Ok (Cli (use_tpetra c) true (use_uq c)) else Throw  (* bound to use_vt_ *)
  end.
Definition cli_parse (cfg : cli_build) (given : list switch) : outcome cli :=
  ofold (cli_flag cfg) given (Cli false false false).

(** * StringsAreEqual, nimble_utils.h 60-83 (C strings without their NUL) *)
Fixpoint strings_loop (n : nat) (a b : chars) : bool :=
  match n, a, b with
  | S n, c :: a, d :: b => if ascii_dec c d then strings_loop n a b else false
  | _, _, _ => true
  end.
Definition strings_are_equal (a b : chars) : bool :=
  strings_loop (if length a <? length b then length a else length b) a b.
