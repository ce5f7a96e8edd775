{
 "claims": [
  {
   "property": "C01",
   "status": "proved",
   "theorems": [
    "C01_reduction_sums_shared_nodes",
    "C01_without_nodup_refuted"
   ],
   "note": "Real-number sums; every schedule; needs each rank's ids to be duplicate-free (counterexample otherwise)."
  },
  {
   "property": "C02",
   "status": "proved",
   "theorems": [
    "C02_reduction_frame"
   ],
   "note": "For an arbitrary reduction operator."
  },
  {
   "property": "C03",
   "status": "proved",
   "theorems": [
    "C03_cliques_are_sharing_classes"
   ],
   "note": ""
  },
  {
   "property": "C04",
   "status": "proved",
   "theorems": [
    "C04_collective_order",
    "C04_communicators_line_up"
   ],
   "note": ""
  },
  {
   "property": "C05",
   "status": "proved",
   "theorems": [
    "C05_each_clique_once",
    "C05_terminates_exactly_when_all_complete"
   ],
   "note": ""
  },
  {
   "property": "C06",
   "status": "proved",
   "theorems": [
    "C06_dense_renumbering"
   ],
   "note": ""
  },
  {
   "property": "C07",
   "status": "proved",
   "theorems": [
    "C07_group_consecutive"
   ],
   "note": ""
  },
  {
   "property": "C08",
   "status": "proved",
   "theorems": [
    "C08_pack_unpack_round_trip",
    "C08_pack_avoid_resize_round_trip",
    "C08_exact_extent"
   ],
   "note": "Arrays of memcpy-able pairs and pointer types are not modelled."
  },
  {
   "property": "C09",
   "status": "proved",
   "theorems": [
    "C09_integration_point_round_trip",
    "C09_plain_labels_untouched",
    "C09_any_label_refuted"
   ],
   "note": "Round trip for every label and every non-negative int; labels starting with ipt that were not produced by prefixing are the refuted corner."
  },
  {
   "property": "C10",
   "status": "partial",
   "theorems": [
    "C10_component_labels",
    "C10_component_label_agrees",
    "C10_full_tensor_2d_refuted",
    "C10_label_functions_agree_refuted"
   ],
   "note": "Holds except for 2-D full tensors (duplicate _xy) and LENGTH_n in GetComponentLabel; the exceptions are proved as refutations."
  },
  {
   "property": "C11",
   "status": "partial",
   "theorems": [
    "C11_registration_history",
    "C11_conflicts_rejected",
    "C11_allocation_effect",
    "C11_lookup_any_case_refuted"
   ],
   "note": "Full history theorem; the clause that a re-registration changes nothing is true of the table only: re-allocating zeroes the data (C11_allocation_effect)."
  },
  {
   "property": "C12",
   "status": "partial",
   "theorems": [
    "C12_sparse_matrix_history",
    "C12_dense_matrix_history",
    "C12_empty_row_refuted",
    "C12_reallocate_keeps_values_refuted"
   ],
   "note": "Every history of operations on a matrix allocated from a sorted pattern without empty rows; with an empty row the code loses entries (refuted corner)."
  },
  {
   "property": "C13",
   "status": "proved",
   "theorems": [
    "C13_tangent_pattern_exact",
    "C13_pattern_usable"
   ],
   "note": ""
  },
  {
   "property": "C14",
   "status": "proved",
   "theorems": [
    "C14_cg_reports_soundly",
    "C14_cg_converges",
    "C14_failure_report_refuted",
    "C14_indefinite_success_refuted",
    "C14_division_by_zero_refuted"
   ],
   "note": "Exact arithmetic. C14_cg_converges: on symmetric positive definite matrices of size n the solver succeeds within n iterations (if the limit allows more than n). Refuted corners: a failure report does not mean that the solve did not converge; on indefinite matrices success is reported without any iteration, or the step divides by zero."
  },
  {
   "property": "C15",
   "status": "partial",
   "theorems": [
    "C15_lu_solves",
    "C15_singular_accepted_refuted"
   ],
   "note": "Proved for non-singular matrices; for singular ones the code may complete and return a wrong vector (refuted corner)."
  },
  {
   "property": "C16",
   "status": "proved",
   "theorems": [
    "C16_kinematic_bc",
    "C16_offnominal_velocities",
    "C16_initial_conditions",
    "C16_z_in_2d_refuted"
   ],
   "note": "For coordinates within the dimension; a z condition in two dimensions is accepted and writes outside the arrays (refuted corner)."
  },
  {
   "property": "C17",
   "status": "partial",
   "theorems": [
    "C17_sets_known",
    "C17_tangent_sparse",
    "C17_tangent_dense",
    "C17_rhs",
    "C17_traction_refuted"
   ],
   "note": "Proved whenever every boundary condition's node set is known; a traction condition makes both calls throw before any ApplyKinematicBC (refuted corner)."
  },
  {
   "property": "C18",
   "status": "proved",
   "theorems": [
    "C18_optimize",
    "C18_optimize_any_tree",
    "C18_constants_folded"
   ],
   "note": "For every arithmetic (nothing is assumed about the operations on double)."
  },
  {
   "property": "C19",
   "status": "partial",
   "theorems": [
    "C19_written_value_partial",
    "C19_case_insensitive",
    "real_arith_laws",
    "C19_neg_power_refuted",
    "C19_neg_power_value_refuted",
    "C19_minus_times_neg_refuted",
    "C19_minus_exponent_refuted",
    "C19_minus_after_e_refuted",
    "C19_mod_refuted",
    "C19_regrouping_refuted",
    "C19_rejected_refuted",
    "C19_empty_condition_refuted",
    "C19_endless_recursion_refuted"
   ],
   "note": "Proved for every text of the grammar ExprSpec.written (arithmetic identities of the reals assumed as hypotheses, satisfied by real_arith_laws). The customary meaning fails outside that grammar: each restriction has a refutation."
  },
  {
   "property": "C20",
   "status": "proved",
   "theorems": [
    "C20_rank_names",
    "C20_distinct_iff",
    "C20_serial_name",
    "C20_plain_base",
    "C20_thread_names",
    "C20_thread_serial",
    "C20_space_refuted",
    "C20_distinct_outputs_refuted"
   ],
   "note": "C20_distinct_iff gives the exact condition under which rank names differ; names with white space are cut (refuted corner), and two different output names can be cut to the same one at '.g'."
  },
  {
   "property": "C21",
   "status": "partial",
   "theorems": [
    "C21_words",
    "C21_maximal_runs",
    "C21_quoted",
    "C21_unclosed_quote",
    "C21_tab_refuted",
    "C21_quoted_literally_refuted"
   ],
   "note": "Space-separated words exactly; tabs do not separate and quoted tokens lose leading blanks (refuted)."
  },
  {
   "property": "C22",
   "status": "partial",
   "theorems": [
    "C22_parameters",
    "C22_map",
    "C22_unknown_rejected",
    "C22_no_parameters_rejected",
    "C22_material_created",
    "C22_other_material_rejected",
    "C22_odd_list_refuted",
    "C22_bad_number_refuted"
   ],
   "note": "An odd list reads past the end and a malformed number becomes 0 (refuted)."
  },
  {
   "property": "C23",
   "status": "partial",
   "theorems": [
    "C23_switches_partial",
    "C23_uq_refuted",
    "C23_uq_never_refuted"
   ],
   "note": "--use_uq turns on VT instead of UQ (refuted)."
  },
  {
   "property": "C24",
   "status": "partial",
   "theorems": [
    "C24_prefix",
    "C24_same_length_partial",
    "C24_refuted"
   ],
   "note": "The function is a prefix test (refuted)."
  },
  {
   "property": "C25",
   "status": "proved",
   "theorems": [
    "C25_products",
    "C25_sums_norms_determinant",
    "C25_sym_skew_split",
    "C25_invert",
    "C25_singular_accepted_refuted"
   ],
   "note": "Positive determinants; a negative one aborts; Invert_Full33 accepts a singular matrix (refuted corner)."
  },
  {
   "property": "C26",
   "status": "proved",
   "theorems": [
    "C26_partition_of_unity",
    "C26_interpolates_nodes",
    "C26_derivatives_of_values",
    "C26_tables"
   ],
   "note": "Exact arithmetic; every point, not only the integration points."
  },
  {
   "property": "C27",
   "status": "proved",
   "theorems": [
    "C27_deformation_gradient",
    "C27_affine_motion",
    "C27_superposed_motion",
    "C27_inverted_element_aborts"
   ],
   "note": "Exact arithmetic."
  },
  {
   "property": "C28",
   "status": "proved",
   "theorems": [
    "C28_virtual_work",
    "C28_element_equilibrium",
    "C28_inverted_element_aborts",
    "C28_block_equilibrium",
    "C28_any_element_order",
    "C28_block_power"
   ],
   "note": "Exact arithmetic; any material (an arbitrary function of element and deformation gradients); any processing order of the elements."
  },
  {
   "property": "C29",
   "status": "proved",
   "theorems": [
    "C29_element_mass",
    "C29_volume_of_parallelepiped",
    "C29_block_mass",
    "C29_inverted_element_aborts"
   ],
   "note": "Exact arithmetic."
  },
  {
   "property": "C30",
   "status": "proved",
   "theorems": [
    "C30_tangent_form",
    "C30_tangent_properties",
    "C30_inverted_element_aborts",
    "C30_block_tangent",
    "C30_block_properties"
   ],
   "note": "Exact arithmetic; the global matrix is an addressable array of entries."
  },
  {
   "property": "C31",
   "status": "proved",
   "theorems": [
    "C31_elastic_stress",
    "C31_zero_and_linear",
    "C31_tangent",
    "C31_stress_is_tangent_times_strain",
    "C31_off_nominal",
    "C31_rotation_refuted"
   ],
   "note": "Exact arithmetic. The law is small strain: it is not invariant under rotations (refuted corner)."
  },
  {
   "property": "C32",
   "status": "proved",
   "theorems": [
    "C32_completes",
    "C32_rejects_reversed_times",
    "C32_schedule",
    "C32_initial_record",
    "C32_equation_of_motion",
    "C32_forces_of_records",
    "C32_output_frequency"
   ],
   "note": "Exact arithmetic, three dimensions, no UQ; internal and contact forces are arbitrary functions of the element state, times and displacement."
  },
  {
   "property": "C33",
   "status": "proved",
   "theorems": [
    "C33_skin_exact",
    "C33_triple_face_aborts",
    "C33_skin_closed",
    "C33_outward_normals",
    "C33_sides_of_the_cube"
   ],
   "note": "Any number of blocks of hexahedra whose ids fit an int (see C35); a face of three or more sides makes the program stop."
  },
  {
   "property": "C34",
   "status": "proved",
   "theorems": [
    "C34_exchange",
    "C34_no_deadlock",
    "C34_every_schedule_safe",
    "C34_distributed_skin"
   ],
   "note": "Every interleaving of the ring exchange, MPI_Sendrecv modelled as a buffered send followed by a matching receive on FIFO channels."
  },
  {
   "property": "C35",
   "status": "proved",
   "theorems": [
    "C35_facet_ids",
    "C35_unique",
    "C35_overflow_refuted"
   ],
   "note": "For ids that fit an int; C35_overflow_refuted shows the undefined shift beyond that."
  },
  {
   "property": "C36",
   "status": "proved",
   "theorems": [
    "C36_pair_action_reaction",
    "C36_serial_forces",
    "C36_order_independent",
    "C36_mesh_action_reaction",
    "C36_bad_penalty_aborts",
    "C36_parallel_forces",
    "C36_parallel_action_reaction",
    "C36_duplicate_report_refuted"
   ],
   "note": "Exact arithmetic; the proximity search is an arbitrary list of reported pairs. A pair reported twice in parallel breaks the balance (refuted corner)."
  },
  {
   "property": "C37",
   "status": "proved",
   "theorems": [
    "C37_contact_iff_penetrates",
    "C37_projection_outputs",
    "C37_outside_unchanged"
   ],
   "note": "Exact arithmetic."
  },
  {
   "property": "C38",
   "status": "proved",
   "theorems": [
    "C38_roundtrip",
    "C38_entity_restored",
    "C38_local_id_lost_refuted",
    "C38_empty_refuted"
   ],
   "note": "Non-empty lists; the local id is not transferred and an empty list is undefined behaviour (refuted corners)."
  },
  {
   "property": "C39",
   "status": "proved",
   "theorems": [
    "C39_box_and_centroid",
    "C39_constructors_and_motion",
    "C39_search_reaches",
    "C39_deep_penetration_missed_refuted"
   ],
   "note": "Exact arithmetic; a node deeper than the inflated boxes is not found (refuted corner)."
  },
  {
   "property": "C40",
   "status": "partial",
   "theorems": [
    "C40_roundtrip",
    "C40_roundtrip_same",
    "C40_initialized_roundtrip",
    "C40_text_mesh_cannot_be_written_refuted",
    "C40_text_mesh_exists",
    "C40_precision_refuted",
    "C40_short_row_refuted",
    "C40_element_count_refuted",
    "C40_truncated_refuted"
   ],
   "note": "Round trip proved up to the printing of coordinates; a mesh read from text cannot be written out, 16 digits do not round-trip doubles, malformed files are accepted (refuted)."
  },
  {
   "property": "C41",
   "status": "proved",
   "theorems": [
    "C41_bounding_box",
    "C41_center",
    "C41_contact_box",
    "C41_longest_edge",
    "C41_average_length",
    "C41_no_nodes_refuted"
   ],
   "note": "A mesh without nodes gets an inverted box (refuted corner)."
  },
  {
   "property": "C42",
   "status": "partial",
   "theorems": [
    "C42_scaled",
    "C42_forces",
    "C42_equal_forces",
    "C42_other_parameters_refuted",
    "C42_no_approximate_refuted"
   ],
   "note": "Proved when there is at least one approximate sample; without one the trajectory loop reads and writes past the last trajectory (refuted). Only the two moduli of a sample are ever used."
  },
  {
   "property": "C43",
   "status": "proved",
   "theorems": [
    "C43_elapsed",
    "C43_unknown_name",
    "C43_monotone",
    "C43_stop_report",
    "C43_double_stop_refuted",
    "C43_regions",
    "C43_recursion_refuted",
    "C43_kokkos_nesting_refuted",
    "C43_kokkos_flat"
   ],
   "note": "For matched start/stop pairs; a second stop counts again, a recursive region and (with Kokkos) nested regions are wrong (refuted corners)."
  },
  {
   "property": "C44",
   "status": "partial",
   "theorems": [
    "C44_start_partial",
    "C44_no_output_request",
    "C44_state_refuted"
   ],
   "note": "Deformation gradients and stresses proved; requested initial values of state variables are never applied (refuted)."
  },
  {
   "property": "C45",
   "status": "partial",
   "theorems": [
    "C45_characteristic_length_partial",
    "C45_location_independence_partial",
    "C45_positive",
    "C45_block_minimum",
    "C45_location_independence_refuted"
   ],
   "note": "Location independence holds only for nonnegative coordinates; refuted in general (running maximum starts at 0)."
  },
  {
   "property": "C46",
   "status": "partial",
   "theorems": [
    "C46_residual_partial",
    "C46_measure_ignores_entries_refuted"
   ],
   "note": "The residual vector is exact; the scalar measure only looks at the first num_nodes entries (refuted)."
  },
  {
   "property": "C47",
   "status": "partial",
   "theorems": [
    "C47_partition_tiles",
    "C47_pointer_pair_view_refuted"
   ],
   "note": "Tiling proved; the (begin,end) constructor violates the size clause: the refutation is the finding."
  },
  {
   "property": "C48",
   "status": "partial",
   "theorems": [
    "C48_options",
    "C48_accepted",
    "C48_rejected",
    "C48_only_settings_count",
    "C48_case_refuted",
    "C48_blank_line_refuted",
    "C48_tab_refuted",
    "C48_no_colon_refuted",
    "C48_long_line_refuted"
   ],
   "note": "Keys are case sensitive, blank-only lines and indented comments end the run, long lines hang (refuted)."
  },
  {
   "property": "C49",
   "status": "partial",
   "theorems": [
    "C49_gather_refuted"
   ],
   "note": "The code violates the property; refuted with a witness."
  },
  {
   "property": "C50",
   "status": "proved",
   "theorems": [
    "C50_node_output",
    "C50_ambiguous_label_refuted"
   ],
   "note": ""
  },
  {
   "property": "C51",
   "status": "partial",
   "theorems": [
    "C51_log_rotation",
    "C51_log_rotation_pi",
    "C51_half_turn_refuted",
    "C51_half_turn_x_refuted"
   ],
   "note": "Exact away from a half turn; at a half turn nothing is written, and Log_Rotation_Pi aborts about x (both refuted)."
  },
  {
   "property": "C52",
   "status": "proved",
   "theorems": [
    "C52_bch",
    "C52_bch_sym",
    "C52_bch_commuting"
   ],
   "note": "Exact arithmetic."
  },
  {
   "property": "C53",
   "status": "partial",
   "theorems": [
    "C53_eigenvectors_orthogonal",
    "C53_helper_accuracy",
    "C53_first_eigenvalue_accuracy",
    "C53_eigenpairs_partial",
    "C53_polar_partial",
    "C53_polar_rejects_inverted"
   ],
   "note": "Orthogonality, the helper's accuracy and the first eigenvalue's accuracy hold for the code as is; exact eigenpairs and polar factors are proved with the exact cos(acos(x)/3) in place of its rational approximation."
  },
  {
   "property": "C54",
   "status": "proved",
   "theorems": [
    "C54_volume_average",
    "C54_inverted_element_aborts"
   ],
   "note": "Exact arithmetic."
  },
  {
   "property": "C55",
   "status": "partial",
   "theorems": [
    "C55_neo_hookean_partial",
    "C55_objective_partial",
    "C55_dilated_rotation",
    "C55_rigid_rotation",
    "C55_inverted_aborts"
   ],
   "note": "The general formula is proved with the exact cos(acos(x)/3) in place of its rational approximation and away from the eigenvalue cut-off; dilated rotations and inverted deformations are proved for the code as is."
  },
  {
   "property": "C56",
   "status": "proved",
   "theorems": [
    "C56_closest_point"
   ],
   "note": "Exact arithmetic, non-degenerate triangles, positive tolerance."
  },
  {
   "property": "C57",
   "status": "proved",
   "theorems": [
    "C57_submodel",
    "C57_other_faces_abort",
    "C57_entities_fit",
    "C57_triangles_cover",
    "C57_owner",
    "C57_lost_node_refuted"
   ],
   "note": "Exact arithmetic. A surface node whose lowest rank has it on no secondary face of its own becomes a contact node nowhere (refuted corner)."
  },
  {
   "property": "C58",
   "status": "proved",
   "theorems": [
    "C58_momentum",
    "C58_angular_momentum",
    "C58_energy",
    "C58_stability"
   ],
   "note": "Exact arithmetic; stated on the records of a run with output after every step (C32_output_frequency carries them over to any output frequency)."
  },
  {
   "property": "C59",
   "status": "partial",
   "theorems": [
    "C59_prescribed_motion",
    "C59_reported_velocity_refuted"
   ],
   "note": "The displacement is exact; the velocity reported for a prescribed displacement is always 0 (refuted)."
  },
  {
   "property": "C60",
   "status": "proved",
   "theorems": [
    "C60_copy_and_assign",
    "C60_assign_empty_refuted"
   ],
   "note": "Assigning a functor that was made from the empty text throws although copying it works (refuted corner)."
  },
  {
   "property": "C61",
   "status": "proved",
   "theorems": [
    "C61_block_material",
    "C61_block_of_material",
    "C61_named_blocks_refuted"
   ],
   "note": "Names without numeric suffix collide (refuted corner)."
  },
  {
   "property": "C62",
   "status": "proved",
   "theorems": [
    "C62_number",
    "C62_expression",
    "C62_rejected",
    "C62_quotes_rejected",
    "C62_missing_number_refuted",
    "C62_type_case_refuted"
   ],
   "note": "A missing number is read as 0 (refuted corner)."
  },
  {
   "property": "C63",
   "status": "proved",
   "theorems": [
    "C63_has_block",
    "C63_block_id",
    "C63_on_processor",
    "C63_block_sizes",
    "C63_element_type",
    "C63_max_node_id",
    "C63_triangle_refuted"
   ],
   "note": "A 2-D triangle block is reported with a stray colon (refuted corner)."
  },
  {
   "property": "C64",
   "status": "proved",
   "theorems": [
    "C64_cells",
    "C64_evaluation",
    "C64_order_independent",
    "C64_history",
    "C64_case_refuted"
   ],
   "note": "State labels must be distinct even ignoring case (refuted corner)."
  },
  {
   "property": "C65",
   "status": "proved",
   "theorems": [
    "C65_point_output",
    "C65_accepted_requests",
    "C65_derived_output",
    "C65_volume_twice_refuted",
    "C65_two_blanks_refuted"
   ],
   "note": ""
  },
  {
   "property": "C66",
   "status": "proved",
   "theorems": [
    "C66_motion",
    "C66_follow",
    "C66_prescribed_displacement_refuted"
   ],
   "note": "With at least one approximate sample (see C42) and no contact; prescribed displacements do not move samples (refuted corner)."
  },
  {
   "property": "C67",
   "status": "proved",
   "theorems": [
    "C67_parameters",
    "C67_samples_file",
    "C67_accepted_shape",
    "C67_truncated_refuted",
    "C67_undefined_refuted",
    "C67_block_without_line_refuted"
   ],
   "note": ""
  },
  {
   "property": "C68",
   "status": "proved",
   "theorems": [
    "C68_load_steps_solved",
    "C68_limit_zero_refuted",
    "C68_negative_limit_refuted",
    "C68_overlapping_velocities_refuted"
   ],
   "note": "Exact arithmetic; serial; the internal force and the tangents are arbitrary functions. Runs that divide by zero in the linear solver or the secant step (infinities or NaN in the program) are not followed further: the theorem says nothing about them."
  },
  {
   "property": "C69",
   "status": "proved",
   "theorems": [
    "C69_linear_problems",
    "C69_last_iteration_refuted"
   ],
   "note": "Exact arithmetic; serial."
  },
  {
   "property": "C70",
   "status": "proved",
   "theorems": [
    "C70_same_results",
    "C70_any_schedule",
    "C70_equilibrium",
    "C70_next_step",
    "C70_separate_memory_refuted",
    "C70_state_variables_refuted",
    "C70_shared_work_arrays_refuted"
   ],
   "note": "Exact arithmetic; eight-node blocks; materials without state variables. Host and device sharing memory, or not (then every mesh with an element fails)."
  },
  {
   "property": "C71",
   "status": "proved",
   "theorems": [
    "C71_masses"
   ],
   "note": "Serial (one rank); shared memory."
  },
  {
   "property": "C72",
   "status": "proved",
   "theorems": [
    "C72_allocations"
   ],
   "note": ""
  },
  {
   "property": "C73",
   "status": "proved",
   "theorems": [
    "C73_contact_command",
    "C73_penalty_missing_refuted"
   ],
   "note": ""
  },
  {
   "property": "C74",
   "status": "proved",
   "theorems": [
    "C74_visualization_mesh",
    "C74_visualization_records",
    "C74_large_ids_refuted",
    "C74_text_picture_refuted"
   ],
   "note": ""
  },
  {
   "property": "C75",
   "status": "proved",
   "theorems": [
    "C75_results_read_back"
   ],
   "note": ""
  },
  {
   "property": "C76",
   "status": "proved",
   "theorems": [
    "C76_results",
    "C76_when",
    "C76_schedules",
    "C76_fields",
    "C76_short_request"
   ],
   "note": "Mean and point requests, volumes and nodal columns over any session; success characterised exactly. Examples: a cube with constant stress (C76_example), a flat element (C76_flat_element)."
  },
  {
   "property": "C77",
   "status": "proved",
   "theorems": [
    "C77_reduction",
    "C77_same_as_without_tpetra",
    "C77_other_lengths_refuted",
    "C77_depends_on_replacing"
   ],
   "note": "Tpetra's own calls are described, not modelled (orders are parameters). Fields with other numbers of components are not summed (C77_other_lengths_refuted); the result relies on doExport replacing local entries (C77_depends_on_replacing)."
  },
  {
   "property": "C78",
   "status": "partial",
   "theorems": [
    "C78_matrix_pattern",
    "C78_set_scalar",
    "C78_replace_value_refuted"
   ],
   "note": "One rank. Replacing a value ends the program for every entry (refuted): the list of columns handed to the library is empty."
  },
  {
   "property": "C79",
   "status": "proved",
   "theorems": [
    "C79_exit_code",
    "C79_zero_means_success",
    "C79_clean_end",
    "C79_files_of_ranks_differ",
    "C79_failed_run_not_finalised_refuted",
    "C79_rejected_deck_escapes_refuted",
    "C79_help_refuted",
    "C79_rerun_refuted"
   ],
   "note": "Stages are given by their outcomes (they are modelled elsewhere); without Tpetra."
  },
  {
   "property": "C80",
   "status": "proved",
   "theorems": [
    "C80_plus_assign",
    "C80_assign_to",
    "C80_zero_copy",
    "C80_entries",
    "C80_when",
    "C80_columns_refuted",
    "C80_padding_refuted",
    "C80_overlap_refuted"
   ],
   "note": "Real arithmetic. Layouts other than the one the program uses are refuted corners."
  },
  {
   "property": "C81",
   "status": "proved",
   "theorems": [
    "C81_handles",
    "C81_shape",
    "C81_moved_from_refuted"
   ],
   "note": "Without serialize (DARMA only)."
  },
  {
   "property": "C82",
   "status": "proved",
   "theorems": [
    "C82_mass_of_the_whole_mesh",
    "C82_force_of_the_whole_mesh",
    "C82_element_force_unique"
   ],
   "note": "Exact arithmetic; hexahedral elements; the material is a function of the deformation gradients of the element; the result may differ by rounding between distributions in the program."
  },
  {
   "property": "C83",
   "status": "proved",
   "theorems": [
    "C83_same_motion_on_every_distribution"
   ],
   "note": "Exact arithmetic; no contact; stresses that depend on the deformation gradients only; first and last time in order. As long as no element of the undistributed motion inverts."
  },
  {
   "property": "C84",
   "status": "proved",
   "theorems": [
    "C84_stamp",
    "C84_names",
    "C84_files",
    "C84_summer_time_refuted",
    "C84_milliseconds_refuted"
   ],
   "note": "The time zone is an arbitrary function that is never set back; printing of a double is an arbitrary text without tab or line break."
  },
  {
   "property": "C85",
   "status": "proved",
   "theorems": [
    "C85_bvh_forces",
    "C85_bvh_action_reaction",
    "C85_created_entities",
    "C85_same_as_arborx",
    "C85_same_as_serial"
   ],
   "note": "Exact arithmetic. The bvh library is described: it reports some list of pairs and hands every result to the owner of its entity once, in any order. Local ids are the places of the entities on their rank, which C85_created_entities proves of the entities made by CreateContactEntities (C57)."
  },
  {
   "property": "C86",
   "status": "proved",
   "theorems": [
    "C86_contact_distribution_independent"
   ],
   "note": "Exact arithmetic, bvh back end (equal to ArborX by C85_same_as_arborx when no pair is reported twice). The same pairs are reported in the distributed and in the undistributed search; the sum over ranks is taken for granted here and is C01 in the program."
  }
 ]
}