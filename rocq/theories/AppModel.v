(** Model of NimbleApplication (src/nimble.cc) and main (src/nimble_main.cc): order of the stages of a
    run, exit codes, what is initialised and finalised.  The command line and the input deck are those
    of InputModel; reading the mesh, setting up the data and integrating are given by their outcomes
    ([stages]).  Without Tpetra (its ScopeGuard initialises MPI and Kokkos itself); the banner and the
    factories are left out. *)
From Verif Require Import Base Strings DataModel InputModel.
Set Implicit Arguments.
Local Open Scope nat_scope.
Local Open Scope list_scope.

(** How a call ends: a value, an exception, the end of the process, undefined behaviour, never *)
Inductive res (A : Type) := Val (a : A) | Exc | Ends | Undef | Loops.
Arguments Val {A} a. Arguments Exc {A}. Arguments Ends {A}. Arguments Undef {A}. Arguments Loops {A}.
Definition of_outcome {A} (o : outcome A) : res A := match o with Ok a => Val a | Throw => Exc | Abort => Ends | UB => Undef end.
Definition of_run {A} (r : InputModel.run A) : res A := match r with Finished o => of_outcome o | Hangs => Loops end.

Inductive event := MpiInit | KokkosInit | VtInit | DeckRead | MeshRead (file : chars) | OutputOpened (file : chars) | Integrated (scheme : chars)
  | VtFinal | KokkosFinal | MpiFinal.
(** a library that may be used once in a process *)
Inductive lib_state := Unused | Active | Done.
(** the process: state of the libraries, events so far; the application: contact_interface_ is set *)
Record world := World { w_mpi : lib_state; w_kokkos : lib_state; w_vt : lib_state; w_contact : bool; w_events : list event }.
Definition new_process : world := World Unused Unused Unused false [].

Definition M A := world -> res A * world.
Definition ret {A} (a : A) : M A := fun w => (Val a, w).
Definition bind {A B} (x : M A) (f : A -> M B) : M B := fun w =>
  match x w with
  | (Val a, w) => f a w
  | (Exc, w) => (Exc, w) | (Ends, w) => (Ends, w) | (Undef, w) => (Undef, w) | (Loops, w) => (Loops, w)
  end.
Notation "'run' x <- e ; f" := (bind e (fun x => f)) (at level 200, x name, e at level 100, f at level 200, right associativity).
Definition lift {A} (r : res A) : M A := fun w => (r, w).
Definition emit (e : event) : M unit := fun w => (Val tt, World (w_mpi w) (w_kokkos w) (w_vt w) (w_contact w) (w_events w ++ [e])).
Definition set_contact (b : bool) : M unit := fun w => (Val tt, World (w_mpi w) (w_kokkos w) (w_vt w) b (w_events w)).

(** Calling an initialisation twice, or a finalisation without initialisation, is not allowed *)
Definition mpi_init : M unit := fun w => match w_mpi w with Unused => emit MpiInit (World Active (w_kokkos w) (w_vt w) (w_contact w) (w_events w)) | _ => (Undef, w) end.
Definition mpi_finalize : M unit := fun w => match w_mpi w with Active => emit MpiFinal (World Done (w_kokkos w) (w_vt w) (w_contact w) (w_events w)) | _ => (Undef, w) end.
Definition kokkos_init : M unit := fun w => match w_kokkos w with Unused => emit KokkosInit (World (w_mpi w) Active (w_vt w) (w_contact w) (w_events w)) | _ => (Undef, w) end.
Definition kokkos_finalize : M unit := fun w => match w_kokkos w with Active => emit KokkosFinal (World (w_mpi w) Done (w_vt w) (w_contact w) (w_events w)) | _ => (Undef, w) end.
Definition vt_init : M unit := fun w => match w_vt w with Unused => emit VtInit (World (w_mpi w) (w_kokkos w) Active (w_contact w) (w_events w)) | _ => (Undef, w) end.
Definition vt_finalize : M unit := fun w => match w_vt w with Active => emit VtFinal (World (w_mpi w) (w_kokkos w) Done (w_contact w) (w_events w)) | _ => (Undef, w) end.

Section App.
  Variable D : Type.
  Variable atof : chars -> D.
  Variables default_tolerance zero : D.
  Variable deck_build : build.
  (** options the program was compiled with *)
  Variable have_mpi : bool.
  Variable cli_cfg : cli_build.

  (** What the stages do; mesh.ReadFile; the constructor of DataManager after the scheme is known;
      InitializeBlocks; InitializeOutput; Integrate of the chosen integrator *)
  Record stages := Stages { st_mesh : chars -> outcome unit; st_data : options D -> outcome unit; st_blocks : options D -> outcome unit;
                            st_output : chars -> outcome unit; st_integrate : options D -> chars -> bool -> outcome Z }.
  (** What a run is given: the switches, whether help is asked for, the (non-zero) error code of CLI11
      for bad arguments, the input file, the rank and the number of ranks *)
  Inductive file_arg := NoFile | NotAFile | File (text : chars).
  Record input := Input { in_switches : list switch; in_help : bool; in_cli_error : Z; in_file : file_arg; in_rank : N; in_ranks : N }.
  (** nimble_cli.cc 79-121 with CLI11 2.1.2: the values and their checks are processed first, then the
      request for help is thrown with exit code 0, then a missing file is an error.  Run (110-112) goes
      on when the code is 0. *)
  Definition arguments (i : input) : outcome cli :=
    match in_file i, in_help i with
    | File _, _ | NoFile, true => cli_parse cli_cfg (in_switches i)
    | _, _ => Throw
    end.
  (** Parser::Initialize, nimble_parser.cc 190-207: a file that can not be opened is an exception; the
      name of a file that was not given is empty *)
  Definition read_arg (i : input) : InputModel.run (options D) :=
    match in_file i with File text => read_file atof default_tolerance zero deck_build text | _ => Finished Throw end.

  (** InitializeSubsystems, 175-238 *)
  Definition initialize_subsystems (c : cli) (i : input) : M (options D) :=
    run _ <- (if have_mpi then mpi_init else ret tt);
    run _ <- kokkos_init;
    run _ <- (if have_vt cli_cfg && use_vt c then vt_init else ret tt);
    run o <- lift (of_run (read_arg i));
    run _ <- emit DeckRead;
    run _ <- (if has_contact o then set_contact true else ret tt);
    ret o.
  (** FinalizeSubsystems, 240-260 *)
  Definition finalize_subsystems (c : cli) : M unit :=
    run _ <- (if have_vt cli_cfg && use_vt c then vt_finalize else ret tt);
    run _ <- kokkos_finalize;
    if have_mpi then mpi_finalize else ret tt.
  (** MainLoop, 325-372, with CreateIntegrator, 292-305; the constructor of DataManager asks for the
      scheme (nimble_data_manager.cc 125) *)
  Definition main_loop (st : stages) (i : input) (o : options D) : M Z :=
    let mesh := io_file_name (o_genesis o) (lit "g") [] (in_rank i) (in_ranks i) in
    run _ <- lift (of_outcome (st_mesh st mesh));
    run _ <- emit (MeshRead mesh);
    let out := io_file_name (o_exodus o) (lit "e") (lit "out") (in_rank i) (in_ranks i) in
    run scheme <- lift (of_outcome (time_integration_scheme o));
    run _ <- lift (of_outcome (st_data st o));
    run _ <- lift (of_outcome (st_blocks st o));
    run _ <- lift (of_outcome (st_output st out));
    run _ <- emit (OutputOpened out);
    run scheme <- lift (of_outcome (time_integration_scheme o));
    fun w =>
      if chars_eqb scheme (lit "explicit") || chars_eqb scheme (lit "quasistatic") then
        (run r <- lift (of_outcome (st_integrate st o scheme (w_contact w))); run _ <- emit (Integrated scheme); ret r) w
      else (Undef, w).                                              (* no integrator: a null pointer *)
  (** Run, 104-153: an exception of the main loop is caught, one of the initialisation is not *)
  Definition app_run (st : stages) (i : input) : M Z :=
    match arguments i with
    | Ok c =>
      run o <- initialize_subsystems c i;
      fun w =>
        match main_loop st i o w with
        | (Val status, w) => (run _ <- set_contact false; run _ <- finalize_subsystems c; ret status) w
        | (Exc, w) => (Val 1%Z, w)
        | r => r
        end
    | _ => ret (in_cli_error i)
    end.
  (** main, nimble_main.cc 46-53: the exit code of the process; an exception that leaves Run ends the
      process abnormally (std::terminate) *)
  Definition exit_code (st : stages) (i : input) : option Z :=
    match fst (app_run st i new_process) with Val c => Some c | _ => None end.
End App.
