# Formal model of NimbleSM in Rocq (Coq 8.16.1)

Sources are read as text from /repo; nothing is compiled or run. All Coq files are in `rocq/theories`.

* `*Model*.v` - definitions that follow the C++ functions one by one; each cites file and lines in /repo and says
  where it simplifies.
* `*Spec.v` - the small vocabulary of the statements, written without looking at the model's helpers.
* `*Proofs*.v` - lemmas.
* `Prop*.v` - the property theorems `Cnn_...`, each followed by `Print Assumptions`, each with a concrete case that
  meets its hypotheses (`..._premise`, `..._used`, `ex_...`). `..._partial` proves part of a property;
  `..._refuted` proves that the code as it is violates a clause of the property (or of what a user would expect) and
  gives the witness or the exact condition.

## Conventions

* Outcomes of a call: `Ok v`, `Throw` (C++ exception), `Abort` (NIMBLE_ABORT, abort, stack exhaustion), `UB`
  (undefined behaviour: reading or writing outside a vector, `front()` of an empty list, signed overflow where
  it matters, ..). A theorem "`.. = Ok r`" therefore includes memory safety of the modelled code.
* Loops are `oloop a b body` / `ofold` (`Loops.v`, `Base.v`), so sizes, numbers of steps, blocks, ranks, samples,
  .. are always arbitrary. Proofs are by induction over these loops with an invariant.
* `std::vector`, `std::map`, `std::string` are lists; maps have the order of their keys where the code iterates.

## Trusted base

1. Coq's kernel (coqc 8.16.1; no kernel check is switched off, no plugin, no axiom of our own, no functor).
2. The axioms that `Print Assumptions` reports, all from the standard library (real numbers are classical
   Dedekind reals; some lemmas on cos/derivatives use classical logic). The per-theorem letters below refer to:

* **A** (159 theorems): no axioms ("Closed under the global context")
* **B** (17 theorems): `ClassicalDedekindReals.sig_forall_dec`
* **C** (112 theorems): `ClassicalDedekindReals.sig_forall_dec`, `FunctionalExtensionality.functional_extensionality_dep`
* **D** (1 theorems): `ClassicalDedekindReals.sig_forall_dec`, `Classical_Prop.classic`
* **E** (45 theorems): `ClassicalDedekindReals.sig_forall_dec`, `ClassicalDedekindReals.sig_not_dec`, `FunctionalExtensionality.functional_extensionality_dep`
* **F** (4 theorems): `ClassicalDedekindReals.sig_forall_dec`, `Classical_Prop.classic`, `FunctionalExtensionality.functional_extensionality_dep`
* **G** (15 theorems): `ClassicalDedekindReals.sig_forall_dec`, `ClassicalDedekindReals.sig_not_dec`, `Classical_Prop.classic`, `FunctionalExtensionality.functional_extensionality_dep`

3. The reading of the C++ text in the model files, i.e. that the cited functions do what the definitions say, and the
   following modelling decisions.

### What is idealised

* **Floating point**: `double` is a real number (exact arithmetic) in the mechanics, linear algebra, tensor, contact
  and UQ code; rounding, overflow, NaN and the sign of zero are not modelled. Division by zero is Coq's total
  division: theorems about values ask for non-zero denominators, or state the degenerate case separately. Where
  control flow does not depend on values (element data, expressions, input and mesh text) `double` is an arbitrary
  type with arbitrary operations, so those theorems hold for IEEE doubles as they are; laws used (e.g. for the
  optimiser of expressions) are explicit hypotheses.
* **Integers**: `int` is `Z` or `nat`; where a value can leave the range of `int` and the property is about it (entity
  ids, wire format, mesh and input text, UQ counts) overflow is explicit, elsewhere it is not represented.
* **Library contracts**: `atof`, `stod`, `operator>>(double)`, `operator<<(double)` are arbitrary functions with stated
  contracts; CLI11 sets the bound variable of each given flag; `std::getline`, `operator>>(int)`, `stoi` are modelled.
* **MPI**: point-to-point messages are FIFO per ordered pair of ranks; `Sendrecv` posts its send and then waits;
  Allgather, Gather, Scatter, Comm_split and (I)allreduce have their standard results; the schedule (which request
  completes first, which rank runs next) is arbitrary and universally quantified.
* **ArborX / search**: the broad phase is an arbitrary list of reported pairs; atomics make callbacks an arbitrary order.
* **Kokkos/threads**: loops over elements or entities with atomic additions are folds in an arbitrary order
  (order-independence theorems). The device version of the model data (KokkosModel) has explicit memory: views are
  numbered allocations, a parallel loop is a list of iterations made of reads, writes and atomic additions, and a
  schedule is an arbitrary interleaving of them if the loop is free of data races, arbitrary actions otherwise; a
  kernel that reads an element's slice and writes its slice does all its reads first.
* **Time integrator**: internal force, contact force and output are arbitrary functions of the state (`physics`
  record), 3-D fields; timers and console output left out.
* **Clocks**: timer readings are arbitrary integers (nanoseconds), not necessarily increasing.

### What is modelled

| Code (src/) | Model |
|---|---|
| nimble.mpi.reduction.*, rank_clique_reducer, quanta, arrayview, mpicontext; mpi.serialization | MpiModel, SerialModel |
| nimble_data_utils, field table of nimble_model_data | DataModel |
| nimble_linear_solver, nimble_mesh_utils, LU of nimble_utils.h | LinModel |
| tensor routines of nimble_utils.h | TensorModel |
| nimble_element (hex8), nimble_material (elastic, neo-Hookean) | ElementModel, MaterialModel |
| nimble_block, nimble_block_base: element loops | BlockModel |
| nimble_block, nimble_model_data: element data, output requests, stepping | ElemDataModel, ElemDataModel2 |
| nimble_boundary_condition_manager, residual of the quasistatic integrator | BcModel |
| integrators/explicit_time_integrator | IntegratorModel |
| integrators/quasistatic_time_integrator | QuasiModel |
| nimble_expression_parser | ExprModel |
| nimble_parser, nimble_parser_util, material factories, nimble_boundary_condition, nimble_cli, StringsAreEqual | InputModel |
| nimble_genesis_mesh (text, queries, boxes), nimble_exodus_output (text head; text steps) | MeshTextModel, OutTextModel |
| nimble_contact_manager, nimble_contact_entity, contact/serial, contact/parallel (ArborX) | SkinModel, SubmodelModel, ContactSetupModel (command, visualisation), ContactModel, ContactParModel, WireModel |
| nimble_kokkos_model_data, nimble_kokkos_block, FieldBase views, Kokkos copies of the element routines | KokkosModel |
| nimble_tpetra_utils (Tpetra's own calls described as trusted operations with arbitrary orders; matrix on one rank) | TpetraModel |
| nimble_view.h (without serialize) | ViewModel |
| nimble_model_data.cc ComputeLumpedMass, ComputeInternalForce over all ranks | ParModel |
| contact/parallel/bvh_contact_manager (pairs, results, update of the entities) | BvhModel |
| explicit_time_integrator.cc on all ranks (lockstep between reductions, no contact) | ParRunModel |
| nimble.cc, nimble_main.cc, nimble_cli.cc (order of stages, exit codes; stages given by their outcomes; without Tpetra; CLI11 described) | AppModel |
| the ExodusOutputManager of nimble_kokkos_model_data (what is asked for, computed and handed to the file; the file itself is not modelled) | KokkosOutModel |
| nimble_timer.h, nimble_profiling_timer.h | TimerModel |
| uq/ (parsing, samples, forces, closure, stepping) | UqModel |
| nimble.quanta.stopwatch.h (time stamps), nimble_timing_utils.{h,cc}, the end of explicit_time_integrator.cc | StopwatchModel |

### What is not modelled

Exodus (binary) files; the output manager of the Kokkos build; the VT (asynchronous) contact back end and the inside of the bvh and ArborX libraries (searches);
viscoplastic and externally supplied (NGP/LAME) materials; WriteSamples of the UQ
code; console output; the command line library itself; memory exhaustion.

## Findings

Deviations of the code (at the pinned commit) from what a user would expect, each a theorem `.._refuted` unless marked.

* linear solver: an empty row loses entries; re-allocation keeps stale data; CG that converges exactly at the last
  iteration reports failure; the LU code accepts singular matrices; a missing diagonal entry misaligns the
  preconditioner; on an indefinite matrix CG reports success without iterating, or divides by zero, after which every
  comparison with NaN ends the loop as a success.
* boundary conditions: a traction condition makes the tangent/right-hand-side modification throw before later
  conditions are applied, and applying it does nothing; `z` accepted in 2-D; the quasistatic residual norm looks only
  at the first num_nodes entries.
* tensors: the 3x3 inverse accepts singular matrices; the rotation logarithm leaves its result unset near pi and
  aborts for rotations by pi about x. Elements: characteristic length is not translation invariant. Materials: the
  elastic law is not rotation invariant.
* contact: entity ids overflow; serialisation loses one of 8 ints; duplicates in parallel break the force balance;
  boxes of deep penetrations do not meet; a secondary node is lost when its lowest rank lacks it;
  a command that ends with `penalty_parameter` leaves the penalty uninitialised; visualisation node ids overflow; the
  visualisation mesh can not be written as text.
* explicit integrator: velocity of prescribed displacements reported as 0; initial acceleration never computed;
  reversed times throw on rank 0 only; the critical time step each rank compares with is that of its own elements (it is only printed,
  by rank 0; not stated as a theorem).
* quasistatic integrator: a step that converges in the last permitted iteration is reported as a failure (a limit of 0
  fails everything), a negative limit accepts everything; overlapping prescribed velocities add up; when the unit step
  beats the secant step the element data of the secant step stay (not refuted formally: the statement C68 allows it);
  node ids that are not 0..N-1 are not supported (hypothesis of C68).
* expression parser, input text, mesh text: see C19-C24, C40, C48, C61, C62.
* timers: a double stop counts twice; recursion wrong. Element data: initial state values never applied; labels that
  differ only in case collide; volume written twice when asked twice; two blanks in an output request.
* UQ: out-of-bounds read without approximate samples; odd parameter list; block without own line; misspelled parameter
  silently ignored; prescribed displacement and contact force not applied to samples; missing or truncated samples file.
* views: layouts other than packed rows are not handled by `zero`, `copy` and `+=`; a moved-from View keeps its raw pointer (C80, C81).
* A run in which a stage throws finalises neither Kokkos nor MPI; a rejected input file, and `--help` without a file, end the
  process by an uncaught exception; Run can not be called twice (C79).
* Timing files: two runs an hour apart share a file when summer time ends; the stamp with milliseconds reads the clock twice (C84).
* Tpetra: a field with another number of components than 1 or dim is treated as a scalar field; replacing a matrix value
  always ends the program; the vectors are never cleared, which is right only because doExport replaces local entries.
* device output: a request for integration point 0 (`ipt00_..`) shows the element field without computing it; the point number is
  read from two characters, so `ipt10_stress` also means point 0; point 9 and above is an access out of bounds; volumes
  and means use the displacements gathered at the last force evaluation; a word `ipt..` of fewer than six characters
  throws even when no such field exists (C76_when, C76_short_request).
* device model data: with separate memory spaces the reference coordinates are never copied to the device; materials
  with state variables are undefined behaviour (lookups with the wrong type); a resize that keeps an allocation of the
  right size aliases the work arrays of blocks of equal size. Not stated as theorems: ComputeInternalForce ignores its
  displacement and force arguments; `unrotated_stress` is allocated under the label `stress`, so both share one field;
  the device copy of the lumped mass is not reduced over ranks; SCALAR and VECTOR integration point fields get one
  value per element.

## Properties

Each property with the theorems that prove it. The English statements are in properties.jsonl.

### C01 Vector reduction sums shared nodes exactly — proved

Theorems (file `PropMpi.v`; letter = axioms): `C01_reduction_sums_shared_nodes` C, `C01_without_nodup_refuted` A.
How: `MpiReduction*.v`: gathered id lists, clique table, per-rank index lists, packed buffers, asynchronous all-reduce as an oracle that sums over the members of the communicator; polling loop driven by an arbitrary schedule. Proof: refinement to `sum over ranks holding g`.
Note: Real-number sums; every schedule; needs each rank's ids to be duplicate-free (counterexample otherwise).

### C02 Reduction leaves private nodes untouched — proved

Theorems (file `PropMpi.v`; letter = axioms): `C02_reduction_frame` A.
How: Frame part of the same model.
Note: For an arbitrary reduction operator.

### C03 Node cliques are exactly the sharing classes — proved

Theorems (file `PropMpi.v`; letter = axioms): `C03_cliques_are_sharing_classes` A.
How: `fill_clique_lookup` as a fold over ranks with an invariant relating clique numbers to sets of ranks.

### C04 All ranks create sub-communicators in one global order — proved

Theorems (file `PropMpi.v`; letter = axioms): `C04_collective_order` A, `C04_communicators_line_up` A.
How: `GenerateReductionInfo` emits the list of collectives each rank performs; equality of lists over ranks.

### C05 The polling loop of a reduction finishes every clique exactly once for every schedule — proved

Theorems (file `PropMpi.v`; letter = axioms): `C05_each_clique_once` A, `C05_terminates_exactly_when_all_complete` A.
How: Polling loop as a fuelled function of a schedule (list of answers); permutation + progress.

### C06 Dense renumbering of global ids — proved

Theorems (file `PropMpi.v`; letter = axioms): `C06_dense_renumbering` A.
How: `PackIDSpace` over gathered lists; order isomorphism onto 0..k-1.

### C07 Grouping consecutive equal keys — proved

Theorems (file `PropMpi.v`; letter = axioms): `C07_group_consecutive` A.
How: List function with index arithmetic; induction.

### C08 Serialization round-trips — proved

Theorems (file `PropSerial.v`; letter = axioms): `C08_pack_unpack_round_trip` A, `C08_pack_avoid_resize_round_trip` A, `C08_exact_extent` A.
How: Universe of serialisable types as an inductive; size/pack/unpack by recursion on type; induction on type.
Note: Arrays of memcpy-able pairs and pointer types are not modelled.

### C09 Integration-point labels round-trip — proved

Theorems (file `PropData.v`; letter = axioms): `C09_integration_point_round_trip` A, `C09_plain_labels_untouched` A, `C09_any_label_refuted` A.
How: Strings as lists of ASCII; decimal printing and parsing.
Note: Round trip for every label and every non-negative int; labels starting with ipt that were not produced by prefixing are the refuted corner.

### C10 Component labels match the field length and are distinct — partial

Theorems (file `PropData.v`; letter = axioms): `C10_component_labels` A, `C10_component_label_agrees` A, `C10_full_tensor_2d_refuted` A, `C10_label_functions_agree_refuted` A.
How: Direct definitions; case analysis; refutation of distinctness for 2-D full tensors.
Note: Holds except for 2-D full tensors (duplicate _xy) and LENGTH_n in GetComponentLabel; the exceptions are proved as refutations.

### C11 Field registration assigns dense unique ids — partial

Theorems (file `PropData.v`; letter = axioms): `C11_registration_history` A, `C11_conflicts_rejected` A, `C11_allocation_effect` A, `C11_lookup_any_case_refuted` A.
How: State machine over the field table; invariant over operation lists.
Note: Full history theorem; the clause that a re-registration changes nothing is true of the table only: re-allocating zeroes the data (C11_allocation_effect).

### C12 Sparse matrix storage behaves like a matrix — partial

Theorems (file `PropBc.v`, `PropLinear.v`; letter = axioms): `C12_sparse_matrix_history` C, `C12_dense_matrix_history` B, `C12_empty_row_refuted` A, `C12_reallocate_keeps_values_refuted` A.
How: Compressed rows with binary search; refinement to a finite map; matvec over an abstract scalar ring / R.
Note: Every history of operations on a matrix allocated from a sorted pattern without empty rows; with an empty row the code loses entries (refuted corner).

### C13 Tangent sparsity pattern is exact — proved

Theorems (file `PropLinear.v`; letter = axioms): `C13_tangent_pattern_exact` A, `C13_pattern_usable` A.
How: Set of pairs built element by element, sorted; set equality.

### C14 Conjugate gradient reporting is sound — proved

Theorems (file `PropLinear.v`; letter = axioms): `C14_cg_reports_soundly` C, `C14_cg_converges` C, `C14_failure_report_refuted` C, `C14_indefinite_success_refuted` C, `C14_division_by_zero_refuted` C.
How: CG loop over R vectors; invariant r = b - A x; for positive definite matrices the directions are conjugate and the residuals orthogonal (Bessel), hence at most n steps.
Note: Exact arithmetic. C14_cg_converges: on symmetric positive definite matrices of size n the solver succeeds within n iterations (if the limit allows more than n). Refuted corners: a failure report does not mean that the solve did not converge; on indefinite matrices success is reported without any iteration, or the step divides by zero.

### C15 LU decomposition solves the system — partial

Theorems (file `PropLinear.v`; letter = axioms): `C15_lu_solves` C, `C15_singular_accepted_refuted` C.
How: LU as Crout loops on functions nat->nat->R; induction over columns.
Note: Proved for non-singular matrices; for singular ones the code may complete and return a wrong vector (refuted corner).

### C16 Kinematic boundary conditions set exactly the prescribed values — proved

Theorems (file `PropBc.v`; letter = axioms): `C16_kinematic_bc` C, `C16_offnominal_velocities` C, `C16_initial_conditions` B, `C16_z_in_2d_refuted` C.
How: BC list application as folds over field arrays; last-writer specification.
Note: For coordinates within the dimension; a z condition in two dimensions is accepted and writes outside the arrays (refuted corner).

### C17 Constrained rows of the tangent — partial

Theorems (file `PropBc.v`; letter = axioms): `C17_sets_known` C, `C17_tangent_sparse` B, `C17_tangent_dense` B, `C17_rhs` B, `C17_traction_refuted` B.
How: Same with matrices; traction BC as Throw outcome.
Note: Proved whenever every boundary condition's node set is known; a traction condition makes both calls throw before any ApplyKinematicBC (refuted corner).

### C18 Optimising an expression does not change its value — proved

Theorems (file `PropExpr.v`; letter = axioms): `C18_optimize` A, `C18_optimize_any_tree` A, `C18_constants_folded` A.
How: Expression trees, optimiser, evaluator; induction.
Note: For every arithmetic (nothing is assumed about the operations on double).

### C19 Expression operator precedence — partial

Theorems (file `PropExpr.v`; letter = axioms): `C19_written_value_partial` A, `C19_case_insensitive` A, `real_arith_laws` G, `C19_neg_power_refuted` A, `C19_neg_power_value_refuted` G, `C19_minus_times_neg_refuted` A, `C19_minus_exponent_refuted` A, `C19_minus_after_e_refuted` A, `C19_mod_refuted` A, `C19_regrouping_refuted` A, `C19_rejected_refuted` A, `C19_empty_condition_refuted` A, `C19_endless_recursion_refuted` A.
How: Character-level parser; refutation with concrete strings.
Note: Proved for every text of the grammar ExprSpec.written (arithmetic identities of the reals assumed as hypotheses, satisfied by real_arith_laws). The customary meaning fails outside that grammar: each restriction has a refutation.

### C20 File names of parallel runs are distinct — proved

Theorems (file `PropInput.v`; letter = axioms): `C20_rank_names` A, `C20_distinct_iff` A, `C20_serial_name` A, `C20_plain_base` A, `C20_thread_names` A, `C20_thread_serial` A, `C20_space_refuted` A, `C20_distinct_outputs_refuted` A.
How: Decimal width and padding; injectivity.
Note: C20_distinct_iff gives the exact condition under which rank names differ; names with white space are cut (refuted corner), and two different output names can be cut to the same one at '.g'.

### C21 Tokenizing — partial

Theorems (file `PropInput.v`; letter = axioms): `C21_words` A, `C21_maximal_runs` A, `C21_quoted` A, `C21_unclosed_quote` A, `C21_tab_refuted` A, `C21_quoted_literally_refuted` A.
How: Character-level scanner; specification by runs.
Note: Space-separated words exactly; tabs do not separate and quoted tokens lose leading blanks (refuted).

### C22 Material parameters are read faithfully — partial

Theorems (file `PropInput.v`; letter = axioms): `C22_parameters` A, `C22_map` A, `C22_unknown_rejected` A, `C22_no_parameters_rejected` A, `C22_material_created` A, `C22_other_material_rejected` A, `C22_odd_list_refuted` A, `C22_bad_number_refuted` A.
How: Token-level parser.
Note: An odd list reads past the end and a malformed number becomes 0 (refuted).

### C23 Command line switches select what they name — partial

Theorems (file `PropInput.v`; letter = axioms): `C23_switches_partial` A, `C23_uq_refuted` A, `C23_uq_never_refuted` A.
How: Option table; finite.
Note: --use_uq turns on VT instead of UQ (refuted).

### C24 String comparison — partial

Theorems (file `PropInput.v`; letter = axioms): `C24_prefix` A, `C24_same_length_partial` A, `C24_refuted` A.
How: List comparison; refutation.
Note: The function is a prefix test (refuted).

### C25 3x3 inverse and determinant — proved

Theorems (file `PropTensor.v`; letter = axioms): `C25_products` C, `C25_sums_norms_determinant` E, `C25_sym_skew_split` C, `C25_invert` C, `C25_singular_accepted_refuted` C.
How: R algebra by field.
Note: Positive determinants; a negative one aborts; Invert_Full33 accepts a singular matrix (refuted corner).

### C26 Hexahedron shape functions are a partition of unity — proved

Theorems (file `PropElement.v`; letter = axioms): `C26_partition_of_unity` C, `C26_interpolates_nodes` C, `C26_derivatives_of_values` C, `C26_tables` C.
How: R algebra by ring.
Note: Exact arithmetic; every point, not only the integration points.

### C27 Deformation gradient is exact for affine motions — proved

Theorems (file `PropElement.v`; letter = axioms): `C27_deformation_gradient` C, `C27_affine_motion` C, `C27_superposed_motion` C, `C27_inverted_element_aborts` C.
How: Linear maps on nodal coordinates; sums over 8 nodes.
Note: Exact arithmetic.

### C28 Internal nodal forces are self-equilibrated — proved

Theorems (file `PropElement.v`; letter = axioms): `C28_virtual_work` C, `C28_element_equilibrium` C, `C28_inverted_element_aborts` C, `C28_block_equilibrium` C, `C28_any_element_order` C, `C28_block_power` C.
How: Sums over nodes and integration points; induction over element list; permutation invariance.
Note: Exact arithmetic; any material (an arbitrary function of element and deformation gradients); any processing order of the elements.

### C29 Lumped mass conserves mass — proved

Theorems (file `PropElement.v`; letter = axioms): `C29_element_mass` C, `C29_volume_of_parallelepiped` C, `C29_block_mass` C, `C29_inverted_element_aborts` C.
How: Same; induction over elements.
Note: Exact arithmetic.

### C30 Tangent stiffness matrix is symmetric and rigid-body free — proved

Theorems (file `PropElement.v`; letter = axioms): `C30_tangent_form` C, `C30_tangent_properties` C, `C30_inverted_element_aborts` C, `C30_block_tangent` C, `C30_block_properties` C.
How: Same; B-matrix algebra.
Note: Exact arithmetic; the global matrix is an addressable array of entries.

### C31 Elastic material consistency — proved

Theorems (file `PropMaterial.v`; letter = axioms): `C31_elastic_stress` C, `C31_zero_and_linear` C, `C31_tangent` C, `C31_stress_is_tangent_times_strain` C, `C31_off_nominal` C, `C31_rotation_refuted` C.
How: R algebra.
Note: Exact arithmetic. The law is small strain: it is not invariant under rotations (refuted corner).

### C32 Explicit time integration — proved

Theorems (file `PropIntegrator.v`; letter = axioms): `C32_completes` C, `C32_rejects_reversed_times` C, `C32_schedule` C, `C32_initial_record` C, `C32_equation_of_motion` C, `C32_forces_of_records` C, `C32_output_frequency` C.
How: Time loop as recursion over steps; induction.
Note: Exact arithmetic, three dimensions, no UQ; internal and contact forces are arbitrary functions of the element state, times and displacement.

### C33 Contact skin is the exact boundary — proved

Theorems (file `PropSkin.v`; letter = axioms): `C33_skin_exact` A, `C33_triple_face_aborts` A, `C33_skin_closed` A, `C33_outward_normals` C, `C33_sides_of_the_cube` C.
How: Face multiset via a sorted-key map; induction over elements.
Note: Any number of blocks of hexahedra whose ids fit an int (see C35); a face of three or more sides makes the program stop.

### C34 Faces on rank boundaries are removed from the skin on both sides — proved

Theorems (file `PropSkin.v`; letter = axioms): `C34_exchange` A, `C34_no_deadlock` A, `C34_every_schedule_safe` A, `C34_distributed_skin` A.
How: Ring exchange by recursion on hops over a family of per-rank sets.
Note: Every interleaving of the ring exchange, MPI_Sendrecv modelled as a buffered send followed by a matching receive on FIFO channels.

### C35 Contact entity ids are unique — proved

Theorems (file `PropSkin.v`; letter = axioms): `C35_facet_ids` A, `C35_unique` A, `C35_overflow_refuted` A.
How: Integer shift/or arithmetic with explicit 32-bit wrap.
Note: For ids that fit an int; C35_overflow_refuted shows the undefined shift beyond that.

### C36 Contact forces obey action and reaction — proved

Theorems (file `PropContact.v`; letter = axioms): `C36_pair_action_reaction` C, `C36_serial_forces` E, `C36_order_independent` E, `C36_mesh_action_reaction` E, `C36_bad_penalty_aborts` E, `C36_parallel_forces` E, `C36_parallel_action_reaction` E, `C36_duplicate_report_refuted` E.
How: R algebra and permutation-invariant folds.
Note: Exact arithmetic; the proximity search is an arbitrary list of reported pairs. A pair reported twice in parallel breaks the balance (refuted corner).

### C37 Point-triangle projection — proved

Theorems (file `PropContact.v`; letter = axioms): `C37_contact_iff_penetrates` E, `C37_projection_outputs` E, `C37_outside_unchanged` E.
How: R algebra; projection as executable branch structure.
Note: Exact arithmetic.

### C38 Contact face exchange round-trips — proved

Theorems (file `PropWire.v`; letter = axioms): `C38_roundtrip` A, `C38_entity_restored` C, `C38_local_id_lost_refuted` C, `C38_empty_refuted` A.
How: Two parallel buffers, list induction.
Note: Non-empty lists; the local id is not transferred and an empty list is undefined behaviour (refuted corners).

### C39 Contact bounding boxes enclose their entity — proved

Theorems (file `PropContact.v`; letter = axioms): `C39_box_and_centroid` C, `C39_constructors_and_motion` C, `C39_search_reaches` E, `C39_deep_penetration_missed_refuted` E.
How: min/max over vertices.
Note: Exact arithmetic; a node deeper than the inflated boxes is not found (refuted corner).

### C40 Mesh text files round-trip and usable — partial

Theorems (file `PropMesh.v`; letter = axioms): `C40_roundtrip` A, `C40_roundtrip_same` A, `C40_initialized_roundtrip` A, `C40_text_mesh_cannot_be_written_refuted` A, `C40_text_mesh_exists` A, `C40_precision_refuted` C, `C40_short_row_refuted` A, `C40_element_count_refuted` A, `C40_truncated_refuted` A.
How: Token stream writer/reader; round trip by induction; refutation for re-writing.
Note: Round trip proved up to the printing of coordinates; a mesh read from text cannot be written out, 16 digits do not round-trip doubles, malformed files are accepted (refuted).

### C41 Mesh bounding box — proved

Theorems (file `PropMeshQuery.v`; letter = axioms): `C41_bounding_box` C, `C41_center` C, `C41_contact_box` C, `C41_longest_edge` C, `C41_average_length` C, `C41_no_nodes_refuted` C.
How: Fold of min/max; induction.
Note: A mesh without nodes gets an inverted box (refuted corner).

### C42 UQ parameter samples and closure — partial

Theorems (file `PropUq.v`; letter = axioms): `C42_scaled` C, `C42_forces` C, `C42_equal_forces` C, `C42_other_parameters_refuted` B, `C42_no_approximate_refuted` B.
How: Folds; induction; refutation for the off-by-one loop.
Note: Proved when there is at least one approximate sample; without one the trajectory loop reads and writes past the last trajectory (refuted). Only the two moduli of a sample are ever used.

### C43 Timers accumulate — proved

Theorems (file `PropTimer.v`; letter = axioms): `C43_elapsed` C, `C43_unknown_name` C, `C43_monotone` C, `C43_stop_report` C, `C43_double_stop_refuted` C, `C43_regions` C, `C43_recursion_refuted` C, `C43_kokkos_nesting_refuted` C, `C43_kokkos_flat` C.
How: State machine with clock readings; induction on history.
Note: For matched start/stop pairs; a second stop counts again, a recursive region and (with Kokkos) nested regions are wrong (refuted corners).

### C44 Material state is initialised as requested — partial

Theorems (file `PropElemData.v`; letter = axioms): `C44_start_partial` A, `C44_no_output_request` A, `C44_state_refuted` A.
How: Table of labels and offsets; refutation of initial values.
Note: Deformation gradients and stresses proved; requested initial values of state variables are never applied (refuted).

### C45 Critical time step — partial

Theorems (file `PropElement.v`; letter = axioms): `C45_characteristic_length_partial` E, `C45_location_independence_partial` E, `C45_positive` E, `C45_block_minimum` E, `C45_location_independence_refuted` E.
How: Fold of min; refutation of translation invariance.
Note: Location independence holds only for nonnegative coordinates; refuted in general (running maximum starts at 0).

### C46 Quasistatic convergence measure sees the whole residual — partial

Theorems (file `PropBc.v`; letter = axioms): `C46_residual_partial` E, `C46_measure_ignores_entries_refuted` E.
How: Norm over prefix of vector; refutation.
Note: The residual vector is exact; the scalar measure only looks at the first num_nodes entries (refuted).

### C47 Array views tile the data — partial

Theorems (file `PropMpi.v`; letter = axioms): `C47_partition_tiles` A, `C47_pointer_pair_view_refuted` A.
How: Tiling lemma by induction; refutation for pointer-pair constructor.
Note: Tiling proved; the (begin,end) constructor violates the size clause: the refutation is the finding.

### C48 Input deck parsing — partial

Theorems (file `PropDeck.v`; letter = axioms): `C48_options` A, `C48_accepted` A, `C48_rejected` A, `C48_only_settings_count` A, `C48_case_refuted` A, `C48_blank_line_refuted` A, `C48_tab_refuted` A, `C48_no_colon_refuted` A, `C48_long_line_refuted` A.
How: Line-level parser on character lists.
Note: Keys are case sensitive, blank-only lines and indented comments end the run, long lines hang (refuted).

### C49 Gather returns every rank's data — partial

Theorems (file `PropMpi.v`; letter = axioms): `C49_gather_refuted` A.
How: Ring/gather over an arbitrary number of ranks as lists; induction over ranks.
Note: The code violates the property; refuted with a witness.

### C50 Node output arrays — proved

Theorems (file `PropData.v`; letter = axioms): `C50_node_output` A, `C50_ambiguous_label_refuted` A.
How: Output loops over nodes and components; induction with index arithmetic.

### C51 Logarithm of a rotation — partial

Theorems (file `PropTensor.v`; letter = axioms): `C51_log_rotation` G, `C51_log_rotation_pi` G, `C51_half_turn_refuted` G, `C51_half_turn_x_refuted` G.
How: Real-number algebra and trigonometry of the rotation formula; branch analysis; witnesses at angle pi.
Note: Exact away from a half turn; at a half turn nothing is written, and Log_Rotation_Pi aborts about x (both refuted).

### C52 Baker-Campbell-Hausdorff series — proved

Theorems (file `PropTensor.v`; letter = axioms): `C52_bch` C, `C52_bch_sym` C, `C52_bch_commuting` C.
How: Non-commutative polynomial identity by ring on 3x3 entries.
Note: Exact arithmetic.

### C53 Eigen and polar decompositions — partial

Theorems (file `PropTensor.v`; letter = axioms): `C53_eigenvectors_orthogonal` E, `C53_helper_accuracy` G, `C53_first_eigenvalue_accuracy` G, `C53_eigenpairs_partial` G, `C53_polar_partial` G, `C53_polar_rejects_inverted` E.
How: Jacobi-free closed-form eigenvalue code over R, with the code's own rational cosine; theorems take the quality of that approximation as an explicit hypothesis or conclude up to its residual.
Note: Orthogonality, the helper's accuracy and the first eigenvalue's accuracy hold for the code as is; exact eigenpairs and polar factors are proved with the exact cos(acos(x)/3) in place of its rational approximation.

### C54 Volume averages of element data — proved

Theorems (file `PropElement.v`; letter = axioms): `C54_volume_average` C, `C54_inverted_element_aborts` C.
How: Loop over integration points; weighted sums by induction.
Note: Exact arithmetic.

### C55 Neo-Hookean material — partial

Theorems (file `PropMaterial.v`; letter = axioms): `C55_neo_hookean_partial` G, `C55_objective_partial` G, `C55_dilated_rotation` G, `C55_rigid_rotation` G, `C55_inverted_aborts` G.
How: R algebra on top of C53.
Note: The general formula is proved with the exact cos(acos(x)/3) in place of its rational approximation and away from the eigenvalue cut-off; dilated rotations and inverted deformations are proved for the code as is.

### C56 Closest point of a contact triangle — proved

Theorems (file `PropContact.v`; letter = axioms): `C56_closest_point` C.
How: Branch structure of the projection; convexity argument for optimality.
Note: Exact arithmetic, non-degenerate triangles, positive tolerance.

### C57 Contact surfaces are represented faithfully — proved

Theorems (file `PropSubmodel.v`; letter = axioms): `C57_submodel` E, `C57_other_faces_abort` E, `C57_entities_fit` E, `C57_triangles_cover` C, `C57_owner` E, `C57_lost_node_refuted` E.
How: Sub-model construction over lists of faces and ranks; list induction.
Note: Exact arithmetic. A surface node whose lowest rank has it on no secondary face of its own becomes a contact node nowhere (refuted corner).

### C58 Conservation and stability of the explicit scheme — proved

Theorems (file `PropIntegrator.v`; letter = axioms): `C58_momentum` C, `C58_angular_momentum` C, `C58_energy` C, `C58_stability` C.
How: Time loop invariants (momentum, energy of the linear oscillator) by induction over steps.
Note: Exact arithmetic; stated on the records of a run with output after every step (C32_output_frequency carries them over to any output frequency).

### C59 Prescribed motion in explicit runs — partial

Theorems (file `PropIntegrator.v`; letter = axioms): `C59_prescribed_motion` C, `C59_reported_velocity_refuted` C.
How: Time loop with boundary conditions; induction over steps.
Note: The displacement is exact; the velocity reported for a prescribed displacement is always 0 (refuted).

### C60 Copying and assigning boundary condition expressions — proved

Theorems (file `PropExpr.v`; letter = axioms): `C60_copy_and_assign` A, `C60_assign_empty_refuted` A.
How: Explicit heap of shared expression nodes; invariant over an arbitrary history of copies and assignments.
Note: Assigning a functor that was made from the empty text throws although copying it works (refuted corner).

### C61 Each element block gets the material assigned to it — proved

Theorems (file `PropDeck.v`; letter = axioms): `C61_block_material` A, `C61_block_of_material` A, `C61_named_blocks_refuted` A.
How: Token-level parser and block table; induction on lines.
Note: Names without numeric suffix collide (refuted corner).

### C62 Boundary condition lines are read faithfully — proved

Theorems (file `PropDeck.v`; letter = axioms): `C62_number` A, `C62_expression` A, `C62_rejected` A, `C62_quotes_rejected` A, `C62_missing_number_refuted` A, `C62_type_case_refuted` A.
How: Token-level parser of boundary condition lines.
Note: A missing number is read as 0 (refuted corner).

### C63 Blocks are found by name and id — proved

Theorems (file `PropMeshQuery.v`; letter = axioms): `C63_has_block` A, `C63_block_id` A, `C63_on_processor` A, `C63_block_sizes` A, `C63_element_type` A, `C63_max_node_id` A, `C63_triangle_refuted` A.
How: List search; induction.
Note: A 2-D triangle block is reported with a stray colon (refuted corner).

### C64 Element data are kept per integration point and carried from step to step — proved

Theorems (file `PropElemData.v`; letter = axioms): `C64_cells` A, `C64_evaluation` A, `C64_order_independent` A, `C64_history` A, `C64_case_refuted` A.
How: Index arithmetic of per-block data; induction over steps.
Note: State labels must be distinct even ignoring case (refuted corner).

### C65 Element output — proved

Theorems (file `PropElemOutput.v`; letter = axioms): `C65_point_output` A, `C65_accepted_requests` A, `C65_derived_output` C, `C65_volume_twice_refuted` A, `C65_two_blanks_refuted` A.
How: Output request tables; induction.

### C66 Sample trajectories of an uncertainty quantification run — proved

Theorems (file `PropUq.v`; letter = axioms): `C66_motion` C, `C66_follow` C, `C66_prescribed_displacement_refuted` C.
How: Time loop over a list of samples; simulation against a single-sample run.
Note: With at least one approximate sample (see C42) and no contact; prescribed displacements do not move samples (refuted corner).

### C67 Uncertain parameters and the samples file are read as written — proved

Theorems (file `PropUq.v`; letter = axioms): `C67_parameters` C, `C67_samples_file` A, `C67_accepted_shape` B, `C67_truncated_refuted` A, `C67_undefined_refuted` A, `C67_block_without_line_refuted` C.
How: Token-level parser and samples reader; induction over lines and values.

### C68 A successful quasistatic run has solved every load step — proved

Theorems (file `PropQuasi.v`; letter = axioms): `C68_load_steps_solved` E, `C68_limit_zero_refuted` E, `C68_negative_limit_refuted` E, `C68_overlapping_velocities_refuted` C.
How: Integrate as a state machine over views, matrix and element data; invariant `settled` (force, imbalance and element data belong to the displacement) through Newton passes, induction over passes and load steps.
Note: Exact arithmetic; serial; the internal force and the tangents are arbitrary functions. Runs that divide by zero in the linear solver or the secant step (infinities or NaN in the program) are not followed further: the theorem says nothing about them.

### C69 Quasistatic runs on linear problems succeed — proved

Theorems (file `PropQuasi.v`; letter = axioms): `C69_linear_problems` E, `C69_last_iteration_refuted` E.
How: The assembled matrix is positive definite (stiffness on the free unknowns, average diagonal on the held ones), so CG succeeds (C14) and one pass reduces the imbalance by the solver's tolerance.
Note: Exact arithmetic; serial.

### C70 Device runs give the results of the sequential program — proved

Theorems (file `PropKokkos.v`; letter = axioms): `C70_same_results` E, `C70_any_schedule` E, `C70_equilibrium` E, `C70_next_step` E, `C70_separate_memory_refuted` E, `C70_state_variables_refuted` E, `C70_shared_work_arrays_refuted` B.
How: A heap of allocations; every parallel loop is a list of iterations of reads, writes and atomic additions, run in an arbitrary interleaving when the loop has no data race (and as an arbitrary list of actions otherwise). Each loop is proved race free and equal to its serial meaning; invariant relating heap and field tables to whole arrays, induction over the calls.
Note: Exact arithmetic; eight-node blocks; materials without state variables. Host and device sharing memory, or not (then every mesh with an element fails).

### C71 Lumped masses and the critical time step on the device — proved

Theorems (file `PropKokkos.v`; letter = axioms): `C71_masses` E.
How: Corollary of the C70 refinement and of the element theorems (C27, C30).
Note: Serial (one rank); shared memory.

### C72 Fields allocated for the device are found again and never overlap — proved

Theorems (file `PropKokkos.v`; letter = axioms): `C72_allocations` B.
How: Invariant of the field tables (keys to views, freshness, disjointness) by induction over the allocations.

### C73 The contact command means what it says — proved

Theorems (file `PropContactSetup.v`; letter = axioms): `C73_contact_command` A, `C73_penalty_missing_refuted` A.
How: Induction over the words of the text: the loops over the stream are related to an inductive description of the text.

### C74 The picture of contact shows the contact entities — proved

Theorems (file `PropContactSetup.v`; letter = axioms): `C74_visualization_mesh` A, `C74_visualization_records` A, `C74_large_ids_refuted` A, `C74_text_picture_refuted` A.
How: Lists of points and ids computed in closed form; distinctness of ids by arithmetic; induction over the entities for the records.

### C75 Results written as text can be read back — proved

Theorems (file `PropOutText.v`; letter = axioms): `C75_results_read_back` A.
How: An independent reader (lines, words, counts) is run on the text of the writer: induction over steps, blocks and columns.

### C76 Element output of the device code shows the fields as they are — proved

Theorems (file `PropKokkosOut.v`; letter = axioms): `C76_results` F, `C76_when` F, `C76_schedules` F, `C76_fields` F, `C76_short_request` D.
How: Invariant of the field tables under SpecifyOutputFields (grow), of the memory under the three phases of ComputeElementData (which element fields hold computed data), preserved by every loop under any schedule; induction over sessions.
Note: Mean and point requests, volumes and nodal columns over any session; success characterised exactly. Examples: a cube with constant stress (C76_example), a flat element (C76_flat_element).

### C77 Sums over the ranks by Tpetra — proved

Theorems (file `PropTpetra.v`; letter = axioms): `C77_reduction` C, `C77_same_as_without_tpetra` C, `C77_other_lengths_refuted` C, `C77_depends_on_replacing` C.
How: The one-to-one map is computed (least rank owns); export then import of any loaded vector is the sum of the contributions up to permutation; degree-of-freedom numbers are injective, so vectors reduce to scalars; induction over the history; compared with C01/C02.
Note: Tpetra's own calls are described, not modelled (orders are parameters). Fields with other numbers of components are not summed (C77_other_lengths_refuted); the result relies on doExport replacing local entries (C77_depends_on_replacing).

### C78 The tangent matrix of Tpetra — partial

Theorems (file `PropTpetra.v`; letter = axioms): `C78_matrix_pattern` B, `C78_set_scalar` A, `C78_replace_value_refuted` B.
How: The nested loops add exactly the coupled pairs to a sorted map of sorted sets; the room counted per row suffices.
Note: One rank. Replacing a value ends the program for every entry (refuted): the list of columns handed to the library is empty.

### C79 A whole run: exit code, files and finalisation — proved

Theorems (file `PropApp.v`; letter = axioms): `C79_exit_code` A, `C79_zero_means_success` A, `C79_clean_end` A, `C79_files_of_ranks_differ` A, `C79_failed_run_not_finalised_refuted` A, `C79_rejected_deck_escapes_refuted` A, `C79_help_refuted` A, `C79_rerun_refuted` A.
How: Case analysis of the state machine of the run over the outcome of every stage; libraries are machines that may be initialised once.
Note: Stages are given by their outcomes (they are modelled elsewhere); without Tpetra.

### C80 Arithmetic on views of memory — proved

Theorems (file `PropView.v`; letter = axioms): `C80_plus_assign` C, `C80_assign_to` C, `C80_zero_copy` B, `C80_entries` A, `C80_when` C, `C80_columns_refuted` C, `C80_padding_refuted` B, `C80_overlap_refuted` C.
How: Induction over the loop with an explicit memory: a cell read later was not written earlier unless x reaches into y from the front.
Note: Real arithmetic. Layouts other than the one the program uses are refuted corners.

### C81 Copies of an array handle share the array — proved

Theorems (file `PropHandle.v`; letter = axioms): `C81_handles` B, `C81_shape` A, `C81_moved_from_refuted` B.
How: Simulation of an object semantics; the reference count is the number of owning handles (multiset of owners up to permutation).
Note: Without serialize (DARMA only).

### C82 Masses and forces do not depend on the distribution of the mesh — proved

Theorems (file `PropPar.v`; letter = axioms): `C82_mass_of_the_whole_mesh` C, `C82_force_of_the_whole_mesh` C, `C82_element_force_unique` C.
How: Sum over elements on each rank by induction over blocks and elements, then C01 (holders of a node) and exchange of sums; the element forces from the virtual-work theorem of C28 and their uniqueness.
Note: Exact arithmetic; hexahedral elements; the material is a function of the deformation gradients of the element; the result may differ by rounding between distributions in the program.

### C83 An explicit run gives the same motion on every distribution of the mesh — proved

Theorems (file `PropParRun.v`; letter = axioms): `C83_same_motion_on_every_distribution` C.
How: Invariant of the lockstep run: after k steps every rank agrees with the motion at its nodes; the head of a step is local, the force is C82, the tail is the step theorem of C32 with the received force.
Note: Exact arithmetic; no contact; stresses that depend on the deformation gradients only; first and last time in order. As long as no element of the undistributed motion inverts.

### C84 The timing file of every run is kept and named by its time — proved

Theorems (file `PropStopwatch.v`; letter = axioms): `C84_stamp` A, `C84_names` A, `C84_files` A, `C84_summer_time_refuted` A, `C84_milliseconds_refuted` A.
How: The calendar is computed by counting years and months (closed form proved); lexicographic order of fields of fixed width; induction over the history of runs.
Note: The time zone is an arbitrary function that is never set back; printing of a double is an arbitrary text without tab or line break.

### C85 Contact with the bvh back end exerts every reported pair, whoever owns its node and face — proved

Theorems (file `PropBvh.v`; letter = axioms): `C85_bvh_forces` E, `C85_bvh_action_reaction` E, `C85_created_entities` E, `C85_same_as_arborx` E, `C85_same_as_serial` E.
How: The results are a flat map over the pairs; a fold invariant gives each rank the sum of the gains of its results and the statuses; the sum over an arbitrary order by permutation, local ids name one entity per rank; then the halves of C36 and the weights of a touching face sum to one.
Note: Exact arithmetic. The bvh library is described: it reports some list of pairs and hands every result to the owner of its entity once, in any order. Local ids are the places of the entities on their rank, which C85_created_entities proves of the entities made by CreateContactEntities (C57).

### C86 Contact forces do not depend on the distribution of the contact surface over ranks — proved

Theorems (file `PropBvh.v`; letter = axioms): `C86_contact_distribution_independent` E.
How: For one pair the sum over ranks and nodes picks the owner of its node and of its face (weights are sums of indicators of node ids, so renaming ids commutes with them); then linearity over pairs and the serial theorem of C36.
Note: Exact arithmetic, bvh back end (equal to ArborX by C85_same_as_arborx when no pair is reported twice). The same pairs are reported in the distributed and in the undistributed search; the sum over ranks is taken for granted here and is C01 in the program.


