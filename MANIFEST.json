{
 "claims": [
  {
   "property": "C01",
   "status": "proved",
   "theorems": [
    "C01_steps_stay_in_window_and_max_time",
    "C01_time_never_exceeds_max_time"
   ],
   "note": "One participant with a fixed time window size, any partner, any history."
  },
  {
   "property": "C02",
   "status": "proved",
   "theorems": [
    "C02_oversized_steps_rejected",
    "C02_zero_and_negative_steps_rejected",
    "C02_admissible_steps_not_rejected"
   ],
   "note": ""
  },
  {
   "property": "C03",
   "status": "proved",
   "theorems": [
    "C03_max_step_is_positive",
    "C03_max_step_ends_the_window",
    "C03_tolerance_refuted"
   ],
   "note": "Holds for participants that never exceed getMaxTimeStepSize(); refuted for accepted steps that use the tolerance."
  },
  {
   "property": "C04",
   "status": "proved",
   "theorems": [
    "C04_window_starts_do_not_drift"
   ],
   "note": ""
  },
  {
   "property": "C05",
   "status": "proved",
   "theorems": [
    "C05_repeated_window_restarts"
   ],
   "note": ""
  },
  {
   "property": "C06",
   "status": "proved",
   "theorems": [
    "C06_ends_exactly_at_the_limits",
    "C06_window_count_bounded",
    "C06_no_step_after_the_end"
   ],
   "note": ""
  },
  {
   "property": "C07",
   "status": "proved",
   "theorems": [
    "C07_C08_complete_read_write"
   ],
   "note": ""
  },
  {
   "property": "C08",
   "status": "proved",
   "theorems": [
    "C07_C08_complete_read_write",
    "C08_write_iff_window_completed_and_ongoing",
    "C08_initialize_requests_write",
    "C08_write_after_end_refuted",
    "C08_missing_write_refuted"
   ],
   "note": "The write-checkpoint clause needs steps that hit the limits exactly; two refutations show what happens with steps that use the tolerance."
  },
  {
   "property": "C09",
   "status": "proved",
   "theorems": [
    "C09_ignored_checkpoint_stops",
    "C09_ignored_initial_data_stops"
   ],
   "note": ""
  },
  {
   "property": "C10",
   "status": "proved",
   "theorems": [
    "C10_at_most_max_iterations",
    "C10_at_least_min_iterations",
    "C10_no_measure_unlimited_never_completes"
   ],
   "note": ""
  },
  {
   "property": "C11",
   "status": "proved",
   "theorems": [
    "C11_convergence_decision",
    "C11_order_of_measures_irrelevant"
   ],
   "note": ""
  },
  {
   "property": "C12",
   "status": "proved",
   "theorems": [
    "C12_failed_strict_measure_stops_at_max_iterations"
   ],
   "note": ""
  },
  {
   "property": "C13",
   "status": "proved",
   "theorems": [
    "C13_serial_explicit",
    "C13_within_tolerance_refuted"
   ],
   "note": "For solvers that take the maximal step or stay more than the tolerance below it; the refutation shows that steps ending within the tolerance of the window end can deadlock."
  },
  {
   "property": "C14",
   "status": "proved",
   "theorems": [
    "C14_serial_implicit",
    "C14_truncated_window_refuted"
   ],
   "note": "Needs cut_safe: substeps are exchanged, or max-time is a multiple of the window size; the refutation shows the failure otherwise."
  },
  {
   "property": "C15",
   "status": "proved",
   "theorems": [
    "C15_parallel_explicit"
   ],
   "note": ""
  },
  {
   "property": "C16",
   "status": "proved",
   "theorems": [
    "C16_parallel_implicit"
   ],
   "note": ""
  },
  {
   "property": "C17",
   "status": "proved",
   "theorems": [
    "C17_multi_buffered",
    "C17_multi_blocking",
    "C17_blocking_mutual_refuted"
   ],
   "note": "Any number of participants, any exchange tags and every schedule if sends are buffered; if sends wait for the receiver, for exchanges from and to the controller. The refutation shows the deadlock when two other participants exchange data in both directions with blocking sends. Solvers as in C13."
  },
  {
   "property": "C18",
   "status": "proved",
   "theorems": [
    "C18_first_participant"
   ],
   "note": ""
  },
  {
   "property": "C19",
   "status": "proved",
   "theorems": [
    "C13_serial_explicit",
    "C14_serial_implicit",
    "C15_parallel_explicit",
    "C16_parallel_implicit",
    "C18_first_participant",
    "C19_stamped_at_window_end",
    "C19_stamped_at_next_window_end"
   ],
   "note": "The first five theorems contain agree: the n-th data block received is the n-th data block sent, for every schedule."
  },
  {
   "property": "C20",
   "status": "proved",
   "theorems": [
    "C20_explicit_exchange_waits_for_convergence",
    "C20_schemes_in_step",
    "C20_explicit_schemes_in_step",
    "C20_in_step_with_tolerance_refuted",
    "C20_unaligned_windows_refuted"
   ],
   "note": "Any number of explicit schemes with at most one implicit scheme (the code allows no second one), every history of calls and any partners. With an implicit scheme the steps are exact (the maximal one or shorter by more than the tolerance) and explicit windows are multiples of the implicit one; without these two conditions the claim is false, see the refuted theorems."
  },
  {
   "property": "C21",
   "status": "proved",
   "theorems": [
    "C21_calls_follow_the_life_cycle",
    "C21_initialize_and_finalize_once",
    "C21_wrong_phase_is_reported",
    "C21_wrong_phase_reported_always_refuted",
    "C21_nothing_after_finalize_refuted"
   ],
   "note": "Accepted calls always follow the life cycle and failing ones keep the phase. Some calls after finalize() run into an assertion instead of an error and the profiling calls are accepted: refuted for those."
  },
  {
   "property": "C22",
   "status": "proved",
   "theorems": [
    "C22_locked_mesh_cannot_be_set",
    "C22_open_mesh_can_be_set",
    "C22_mesh_changes_only_by_permitted_calls",
    "C22_failed_attempt_changes_nothing",
    "C22_failed_attempt_changes_nothing_refuted",
    "C22_degenerate_elements_rejected_refuted"
   ],
   "note": "A locked mesh cannot be changed. While a mesh may be set, a failing setMeshQuads() keeps the first triangles, and repeated vertex IDs are treated differently by different calls: refuted for those."
  },
  {
   "property": "C23",
   "status": "proved",
   "theorems": [
    "C23_vertex_ids_are_consecutive_and_stable",
    "C23_ids_keep_their_coordinates"
   ],
   "note": ""
  },
  {
   "property": "C24",
   "status": "proved",
   "theorems": [
    "C24_initialize_hands_over_written_values",
    "C24_advance_hands_over_written_values",
    "C24_write_is_checked",
    "C24_read_returns_the_values_of_the_vertices",
    "C24_read_data_stays_until_advance",
    "C24_values_do_not_survive_reset_refuted"
   ],
   "note": "Needs that no value is written before resetMesh() in the same step; the refutation shows that such a value reappears at a new vertex."
  },
  {
   "property": "C25",
   "status": "proved",
   "theorems": [
    "C25_samples_ordered"
   ],
   "note": ""
  },
  {
   "property": "C26",
   "status": "proved",
   "theorems": [
    "C26_read_at_stored_time",
    "C26_write_replaces_only_that_sample",
    "C26_write_after_last_appends"
   ],
   "note": ""
  },
  {
   "property": "C27",
   "status": "proved",
   "theorems": [
    "C27_degree_0_returns_next_sample",
    "C27_single_sample_is_constant",
    "C27_degree_1_interpolates_linearly",
    "C27_line_stays_between",
    "C27_line_exact_for_linear_data"
   ],
   "note": "The linear solver is assumed to solve the (solvable) interpolation system."
  },
  {
   "property": "C28",
   "status": "proved",
   "theorems": [
    "C28_read_depends_on_samples_only",
    "C28_stale_interpolation_refuted"
   ],
   "note": "Holds for all storage operations except setAllSamples and writing through stamples(), which leave a stale cached spline: refuted for those."
  },
  {
   "property": "C29",
   "status": "proved",
   "theorems": [
    "C29_move_keeps_the_end_state",
    "C29_data_moves_to_its_last_sample",
    "C29_trim_after",
    "C29_trim_before",
    "C29_trim_to_window_start"
   ],
   "note": ""
  },
  {
   "property": "C30",
   "status": "proved",
   "theorems": [
    "C30_substeps_lossless"
   ],
   "note": ""
  },
  {
   "property": "C31",
   "status": "proved",
   "theorems": [
    "C31_mesh_lossless",
    "C31_mesh_broadcast_lossless",
    "C31_received_into_empty",
    "C31_add_mesh_lossless"
   ],
   "note": ""
  },
  {
   "property": "C32",
   "status": "proved",
   "theorems": [
    "C32_connection_map_lossless",
    "C32_connection_map_broadcast_lossless",
    "C32_bounding_box_lossless",
    "C32_bounding_box_map_lossless",
    "C32_bounding_box_map_broadcast_lossless",
    "C32_empty_connection_map_refuted"
   ],
   "note": "The refutation shows that an empty connection map trips an assertion of the sender."
  },
  {
   "property": "C33",
   "status": "proved",
   "theorems": [
    "C33_ranges_lossless"
   ],
   "note": ""
  },
  {
   "property": "C34",
   "status": "proved",
   "theorems": [
    "C34_gather_scatter_delivers_sums"
   ],
   "note": "Every number of ranks, distribution and schedule of messages; values are rationals."
  },
  {
   "property": "C35",
   "status": "proved",
   "theorems": [
    "C35_matching_layouts",
    "C35_point_to_point_delivers_sums",
    "C35_point_to_point_delivers_sums_back",
    "C35_same_as_gather_scatter",
    "C35_same_as_gather_scatter_refuted"
   ],
   "note": "Both directions. A receiving rank none of whose vertices is held by a sending rank keeps its old buffer, unlike with gather-scatter (C35_same_as_gather_scatter_refuted)."
  },
  {
   "property": "C36",
   "status": "proved",
   "theorems": [
    "C36_allreduce_vector",
    "C36_reduce_vector",
    "C36_allreduce_double",
    "C36_allreduce_int",
    "C36_reduce_int",
    "C36_broadcast_vector",
    "C36_broadcast_double",
    "C36_broadcast_int",
    "C36_broadcast_bool",
    "C36_dot_product",
    "C36_barrier"
   ],
   "note": "Sums over the rationals."
  },
  {
   "property": "C37",
   "status": "proved",
   "theorems": [
    "C37_ring_is_connected"
   ],
   "note": "The single-rank case is an Example."
  },
  {
   "property": "C38",
   "status": "proved",
   "theorems": [
    "C38_shutdown_completes",
    "C38_closing_for_reinitialization_completes",
    "C38_nobody_leaves_before_the_partners_arrive",
    "C38_leaving_early_without_wait"
   ],
   "note": "Primary ranks of all participants; the synchronization exists only with wait-in-finalize."
  },
  {
   "property": "C39",
   "status": "proved",
   "theorems": [
    "C39_messages_keep_order",
    "C39_one_write_at_a_time",
    "C39_completion_is_reported_once",
    "C39_every_run_ends",
    "C39_everything_is_sent",
    "C39_blocking_send_refuted",
    "C39_failed_send_is_reported_refuted",
    "C39_close_loses_messages_refuted"
   ],
   "note": "Every interleaving of any number of sending threads with the thread of the io context, including the lock. Blocking sends are covered if the program waits for its asynchronous sends first; otherwise C39_blocking_send_refuted."
  },
  {
   "property": "C40",
   "status": "proved",
   "theorems": [
    "C40_value_of_a_nearest_vertex",
    "C40_constants_and_range",
    "C40_reading_at_coordinates"
   ],
   "note": "The spatial search is assumed to return a nearest vertex."
  },
  {
   "property": "C41",
   "status": "proved",
   "theorems": [
    "C41_each_value_goes_to_one_nearest_vertex",
    "C41_sum_is_preserved",
    "C41_writing_from_coordinates"
   ],
   "note": ""
  },
  {
   "property": "C42",
   "status": "proved",
   "theorems": [
    "C42_constants_are_reproduced",
    "C42_sum_is_preserved",
    "C42_consistent_and_conservative_are_transposes"
   ],
   "note": "Both mappings; up to the weights dropped as numerically zero."
  },
  {
   "property": "C43",
   "status": "proved",
   "theorems": [
    "C43_edge",
    "C43_triangle_in_space",
    "C43_triangle_in_the_plane",
    "C43_tetrahedron"
   ],
   "note": ""
  },
  {
   "property": "C44",
   "status": "proved",
   "theorems": [
    "C44_integral_is_preserved_nearest_neighbor",
    "C44_integral_is_preserved",
    "C44_zero_integral_refuted"
   ],
   "note": ""
  },
  {
   "property": "C45",
   "status": "proved",
   "theorems": [
    "C45_stored_iteration_is_used",
    "C45_samples_are_combinations",
    "C45_values_stay_between",
    "C45_same_grid_succeeds",
    "C45_converged_data_is_unchanged"
   ],
   "note": ""
  },
  {
   "property": "C46",
   "status": "proved",
   "theorems": [
    "C46_first_factor_is_bounded",
    "C46_first_factor_after_a_window",
    "C46_initial_factor",
    "C46_affine_problems_are_solved_in_two_iterations",
    "C46_factor_minimizes_predicted_residual",
    "C46_zero_factor_is_kept",
    "C46_nonzero_factor_refuted"
   ],
   "note": "The factor is bounded by the initial relaxation in the first iteration of every window; exact solution for scalar affine problems; in general the factor minimizes the predicted residual."
  },
  {
   "property": "C47",
   "status": "proved",
   "theorems": [
    "C47_clamped_values_respect_bounds",
    "C47_violating_step_is_discarded",
    "C47_scaled_step_respects_bounds",
    "C47_substeps_refuted"
   ],
   "note": "For data with one time step per window; with several time steps per window the code looks at the wrong entries, which C47_substeps_refuted shows."
  },
  {
   "property": "C48",
   "status": "proved",
   "theorems": [
    "C48_columns_are_limited",
    "C48_newest_first",
    "C48_no_reuse",
    "C48_at_most_reused_windows",
    "C48_reuse_of_independent_columns",
    "C48_deleted_window_refuted",
    "C48_age_of_columns_refuted"
   ],
   "note": "Least-squares variant (IQN-ILS)."
  },
  {
   "property": "C49",
   "status": "proved",
   "theorems": [
    "C49_unique_owner",
    "C49_two_level_one_owner",
    "C49_two_level_some_owner",
    "C49_two_level_outside_refuted"
   ],
   "note": "One-level and two-level initialization, every number of ranks and schedule. Two-level: exactly one owner if every rank only needs vertices inside its own box; without that at least one, and a witness with two."
  },
  {
   "property": "C50",
   "status": "proved",
   "theorems": [
    "C50_global_numbering",
    "C50_empty_mesh_stops"
   ],
   "note": "Every number of ranks and schedule. A serial participant without vertices trips an assertion before the check that is meant for this case."
  },
  {
   "property": "C51",
   "status": "proved",
   "theorems": [
    "C51_preprocess_closes_connectivity",
    "C51_coinciding_vertices_refuted"
   ],
   "note": "Needs that no two vertices are at (nearly) the same place; the refutation shows that elements on coinciding vertices are lost."
  },
  {
   "property": "C52",
   "status": "proved",
   "theorems": [
    "C52_filter_keeps_exactly_the_selected",
    "C52_add_mesh_appends"
   ],
   "note": ""
  },
  {
   "property": "C53",
   "status": "proved",
   "theorems": [
    "C53_mesh_box_encloses_and_is_smallest",
    "C53_mesh_box_again",
    "C53_contains_iff_inside",
    "C53_merged_box_encloses_both",
    "C53_overlap_iff_common_point",
    "C53_empty_mesh_overlaps_nothing",
    "C53_enlarging_keeps_points",
    "C53_bounds_round_trip",
    "C53_smallest_after_clear_refuted"
   ],
   "note": "After Mesh::clear the old box is kept, so that the box is then not the smallest: refuted for that case."
  },
  {
   "property": "C54",
   "status": "proved",
   "theorems": [
    "C54_check_terminates_in_bounds",
    "C54_accepted_quad_is_split",
    "C54_proper_quads_are_accepted",
    "C54_collinear_corners_refuted"
   ],
   "note": "The order is that of the convex hull unless the first three corners are on one line: refuted for that case. Exact arithmetic."
  },
  {
   "property": "C55",
   "status": "proved",
   "theorems": [
    "C55_missing_times_are_mapped",
    "C55_mapping_succeeds",
    "C55_missing_data_is_reported",
    "C55_read_data_is_the_mapped_received_data",
    "C55_written_data_is_mapped_at_the_window_end",
    "C55_written_data_follows_the_window",
    "C55_initial_written_data_is_mapped",
    "C55_initial_read_data_is_mapped"
   ],
   "note": "The single mapping step, and its use before and after the exchange in advance: after any completed or repeated window the read data is the mapped received data."
  },
  {
   "property": "C56",
   "status": "proved",
   "theorems": [
    "C56_constant_data"
   ],
   "note": "Unique solvability of the interpolation system is a hypothesis (it holds by the Schoenberg-Whitney theorem, not proved here)."
  },
  {
   "property": "C57",
   "status": "proved",
   "theorems": [
    "C57_connectivity_is_appended",
    "C57_meshes_stay_well_formed"
   ],
   "note": "Quads are covered by C54."
  },
  {
   "property": "C58",
   "status": "proved",
   "theorems": [
    "C58_direct_access_returns_the_region",
    "C58_region_is_set_once_before_initialize"
   ],
   "note": ""
  },
  {
   "property": "C59",
   "status": "proved",
   "theorems": [
    "C59_handshake_reaches_direct_partners",
    "C59_handshake_agrees_when_all_are_connected",
    "C59_handshake_agreement_refuted"
   ],
   "note": "Agreement holds if every two participants are connected; it is refuted for a chain, see the findings."
  },
  {
   "property": "C60",
   "status": "proved",
   "theorems": [
    "C60_both_ends_are_configured",
    "C60_duplicate_connections_are_rejected",
    "C60_participants_connect",
    "C60_mismatch_is_reported_by_both",
    "C60_self_connection_refuted"
   ],
   "note": ""
  },
  {
   "property": "C61",
   "status": "proved",
   "theorems": [
    "C61_projection_is_as_close_as_any_vertex_or_candidate",
    "C61_linear_functions_in_cells",
    "C61_gradients_reproduce_linear_functions",
    "C61_closest_element_refuted"
   ],
   "note": ""
  },
  {
   "property": "C62",
   "status": "proved",
   "theorems": [
    "C62_no_assertion_fails",
    "C62_rejected_columns_refuted",
    "C62_dependent_column_refuted",
    "C62_few_unknowns_refuted",
    "C62_convergence_after_change_refuted"
   ],
   "note": "Least-squares variant (IQN-ILS)."
  },
  {
   "property": "C63",
   "status": "proved",
   "theorems": [
    "C63_only_the_published_address",
    "C63_everybody_connects",
    "C63_leftover_file_is_detected",
    "C63_leftover_temporary_file_stops_every_run",
    "C63_address_of_this_run_refuted"
   ],
   "note": "Starting without leftover files. With a file of a crashed run the acceptor stops, but a requester may read the old address first (refuted)."
  },
  {
   "property": "C64",
   "status": "proved",
   "theorems": [
    "C64_connections_use_different_files",
    "C64_clean_up_keeps_other_files",
    "C64_digits_refuted",
    "C64_clean_up_refuted",
    "C64_rings_of_two_participants_refuted"
   ],
   "note": "Needs names without '-' and requesters whose name does not end with a digit; refuted otherwise, and for the ring of the quasi-Newton acceleration, whose names do not contain the participant."
  },
  {
   "property": "C65",
   "status": "proved",
   "theorems": [
    "C65_exact_at_input_vertices",
    "C65_linear_functions_are_exact",
    "C65_conservative_keeps_sum_and_moments",
    "C65_conservative_is_transposed_consistent",
    "C65_consistent_in_parallel_as_in_serial",
    "C65_conservative_in_parallel_as_in_serial",
    "C65_filtered_vertices_refuted",
    "C65_constants_without_polynomial_refuted"
   ],
   "note": "Exact arithmetic; Eigen's decompositions are parameters that solve their systems. In parallel if every vertex of the source mesh has an owner; refuted if some were filtered out everywhere."
  },
  {
   "property": "C66",
   "status": "proved",
   "theorems": [
    "C66_partition_of_unity",
    "C66_can_be_computed",
    "C66_edge_of_a_cluster_refuted",
    "C66_exact_at_input_vertices",
    "C66_linear_functions_are_exact",
    "C66_conservative_is_transposed_consistent",
    "C66_conservative_keeps_sum_and_moments",
    "C66_reading_at_coordinates_as_mapping",
    "C66_writing_is_transposed_reading",
    "C66_writing_keeps_sum_and_moments",
    "C66_writing_at_coordinates_as_mapping",
    "C66_lost_loads_refuted"
   ],
   "note": "Exact arithmetic; the clustering (centers, radius) and Eigen's decompositions are parameters. Refuted: a vertex within the tolerance of the edge of a cluster makes computeMapping fail, although it is covered; loads written at coordinates out of reach of all basis functions of a cluster are dropped although a polynomial is used."
  },
  {
   "property": "C67",
   "status": "proved",
   "theorems": [
    "C67_parts_have_the_nearest_vertices",
    "C67_reading",
    "C67_reading_as_in_serial",
    "C67_writing",
    "C67_writing_as_in_serial",
    "C67_sum_is_preserved",
    "C67_two_level_initialization_filters_the_same",
    "C67_nearest_vertex_outside_the_box_refuted",
    "C67_single_vertex_refuted",
    "C67_two_level_without_filter_refuted"
   ],
   "note": "The search for a nearest vertex is a parameter that finds one. Refuted outside the condition of the statement: a nearest vertex outside the enlarged box is replaced by another one without notice; the box of a rank with one vertex is not enlarged by any safety factor; with two-level initialization no-filter still drops the parts of ranks that do not overlap."
  },
  {
   "property": "C68",
   "status": "proved",
   "theorems": [
    "C68_insertion",
    "C68_deletion",
    "C68_ends",
    "C68_refused_columns_are_dependent",
    "C68_rebuilding",
    "C68_filtering",
    "C68_every_history",
    "C68_least_squares",
    "C68_columns_are_independent"
   ],
   "note": "Exact arithmetic over an arbitrary field; the square roots and the norm are parameters with their defining equations (an example gives them for the real numbers, with the axioms of the standard library's reals; the theorems themselves use no axiom). Filter and re-orthogonalization decisions are arbitrary."
  },
  {
   "property": "C69",
   "status": "proved",
   "theorems": [
    "C69_weights",
    "C69_steps",
    "C69_nothing_refused",
    "C69_columns_are_secants",
    "C69_linear_problems_are_solved",
    "C69_solutions_stay",
    "C69_iterations_are_bounded",
    "C69_stagnation_refuted"
   ],
   "note": "Exact arithmetic over an arbitrary field, numbers and decisions of filters as in C68. The steps are described for calls in which a rebuilt factorization did not refuse two or more columns at once (see the finding of C62); C69_nothing_refused shows where this always holds. Refuted: without the condition on the directions the iterations can repeat and then an assertion fails although the problem has exactly one solution."
  },
  {
   "property": "C70",
   "status": "proved",
   "theorems": [
    "C70_scaling",
    "C70_scaling_succeeds",
    "C70_integral",
    "C70_inverse",
    "C70_summation",
    "C70_summation_checks_times",
    "C70_received_with_substeps_once",
    "C70_received_at_the_end_once",
    "C70_window_start_refuted",
    "C70_mapped_window_start_refuted",
    "C70_written_window_start_refuted",
    "C70_later_samples_refuted",
    "C70_area_in_parallel_refuted"
   ],
   "note": "Exact rational arithmetic; lengths and areas of elements are given numbers. The refuted parts concern the sample at the start of a window, sources with more samples and meshes that are distributed."
  },
  {
   "property": "C71",
   "status": "proved",
   "theorems": [
    "C71_timetable",
    "C71_levels",
    "C71_trees",
    "C71_ring_refuted",
    "C71_order_refuted",
    "C71_initial_data_refuted"
   ],
   "note": "Deadlock freedom up to errors that a participant reports. Compositions with an implicit scheme, different window sizes and runs without a limit are not covered; the refuted parts are rings, orders without a timetable and initial data behind a wait."
  },
  {
   "property": "C72",
   "status": "proved",
   "theorems": [
    "C72_tree",
    "C72_accepted",
    "C72_again",
    "C72_definitions",
    "C72_group_refuted",
    "C72_namespace_refuted",
    "C72_alternatives_refuted"
   ],
   "note": "Readers of values are arbitrary functions here (C73 treats the actual ones). The refuted parts are groups of tags with a namespace."
  },
  {
   "property": "C73",
   "status": "proved",
   "theorems": [
    "C73_double",
    "C73_double_accepted",
    "C73_fraction",
    "C73_vector",
    "C73_int",
    "C73_int_accepted",
    "C73_steady",
    "C73_bool",
    "C73_decode",
    "C73_decode_ends",
    "C73_blank_refuted",
    "C73_comma_refuted",
    "C73_broken_refuted",
    "C73_overflow_refuted",
    "C73_words_refuted",
    "C73_decode_twice_refuted"
   ],
   "note": "Numbers are exact; the rounding to double is not modelled. The stream of the standard library is modelled after libstdc++. The refuted parts are the texts that are accepted although they are not numbers."
  },
  {
   "property": "C74",
   "status": "proved",
   "theorems": [
    "C74_every_history_is_logged",
    "C74_rows",
    "C74_window_exports",
    "C74_iteration_exports",
    "C74_integral_table",
    "C74_point_table",
    "C74_reductions",
    "C74_parallel_integral",
    "C74_parallel_area",
    "C74_one_writer",
    "C74_point_linear",
    "C74_iteration_series_refuted",
    "C74_remeshing_refuted",
    "C74_mixed_refuted",
    "C74_area_refuted",
    "C74_edges_only_refuted",
    "C74_nobody_refuted",
    "C74_stale_point_refuted"
   ],
   "note": "The histories are those of C01 to C12 with a fixed window size. Contents of mesh files, digits and file names are not modelled. The refuted parts are stated for all cases where possible."
  },
  {
   "property": "C75",
   "status": "proved",
   "theorems": [
    "C75_radial_spread",
    "C75_radial_collect",
    "C75_radial_round_trip",
    "C75_radial_order_refuted",
    "C75_radial_values_refuted",
    "C75_axial_spread",
    "C75_axial_refused",
    "C75_profile_range",
    "C75_profile_sign_refuted",
    "C75_square_spread",
    "C75_line_square_refuted",
    "C75_axial_collect",
    "C75_axial_round_trip",
    "C75_line_error",
    "C75_axial_round_trip_refuted",
    "C75_plane_spread",
    "C75_plane_square",
    "C75_square_refused",
    "C75_plane_rim_refuted",
    "C75_plane_collect",
    "C75_plane_round_trip",
    "C75_plane_moved",
    "C75_plane_square_moved_refuted"
   ],
   "note": "Exact arithmetic; the powers of the square profile are arbitrary functions with the properties stated. Serial participants only, as in the code."
  },
  {
   "property": "C76",
   "status": "proved",
   "theorems": [
    "C76_exchanges",
    "C76_agreement",
    "C76_same_for_all",
    "C76_one_direction",
    "C76_measured",
    "C76_one_implicit",
    "C76_implicit",
    "C76_remeshing",
    "C76_mappings",
    "C76_flows",
    "C76_fields",
    "C76_channels",
    "C76_channel_ends",
    "C76_never_broken",
    "C76_multi_connected_refuted",
    "C76_channel_refuted",
    "C76_channel_ends_refuted",
    "C76_one_source_refuted",
    "C76_just_in_time_refuted",
    "C76_names_refuted",
    "C76_written_mesh_refuted",
    "C76_read_comes_refuted",
    "C76_accepted_by_all_refuted",
    "C76_assertions_refuted"
   ],
   "note": "Tags in the order data, meshes, connections, participants, schemes; parameters of mappings, communications, exports and time stepping are left out. The refuted theorems show what is not checked."
  },
  {
   "property": "C77",
   "status": "proved",
   "theorems": [
    "C77_vtu",
    "C77_vtp",
    "C77_vtk",
    "C77_vtk_exact",
    "C77_csv",
    "C77_parallel",
    "C77_names",
    "C77_vtk_triangles_refuted",
    "C77_vtp_tetrahedra_refuted",
    "C77_digits_refuted",
    "C77_array_names_refuted",
    "C77_text_refuted",
    "C77_file_names_refuted",
    "C77_rank_type_refuted",
    "C77_csv_connectivity_refuted"
   ],
   "note": "Files are sequences of what is sent to the stream; printing a number with p digits and reading it is an arbitrary function. The refuted theorems show what gets lost."
  },
  {
   "property": "C78",
   "status": "proved",
   "theorems": [
    "C78_written",
    "C78_accepted",
    "C78_not_required",
    "C78_next_step",
    "C78_mapped",
    "C78_linear_fields",
    "C78_linear_fields_other_order",
    "C78_vector_linear_refuted",
    "C78_zero_values_refuted",
    "C78_reset_mesh_refuted"
   ],
   "note": "One rank, one sample. Linear fields are reproduced for scalar data and symmetric Jacobians; the refuted theorems show the order of vector gradients, the skipped mapping of zero values and the buffer that survives resetMesh."
  },
  {
   "property": "C79",
   "status": "proved",
   "theorems": [
    "C79_read",
    "C79_write",
    "C79_write_total",
    "C79_coarse_graining",
    "C79_accepted",
    "C79_remesh_refuted",
    "C79_coarse_graining_total_refuted",
    "C79_kernel_nonneg",
    "C79_kernel_outside",
    "C79_kernel_decreasing",
    "C79_kernel_normalised"
   ],
   "note": "One rank, nearest-neighbor and coarse-graining mappings. Data written in a window at whose end meshes are exchanged is lost, and coarse graining does not preserve sums, as the refuted theorems show. The theorems about the function of coarse graining are over the real numbers of the standard library."
  },
  {
   "property": "C80",
   "status": "proved",
   "theorems": [
    "C80_covers",
    "C80_no_error",
    "C80_used",
    "C80_error_iff",
    "C80_projected_refuted",
    "C80_no_overlap_refuted",
    "C80_one_vertex_per_cluster_refuted",
    "C80_neighbours_apart",
    "C80_only_duplicates_removed",
    "C80_duplicates_refuted"
   ],
   "note": "Without rounding. With projection, which is the default, input vertices can be left out even if the meshes are the same; the other refuted theorems are about settings the configuration accepts."
  },
  {
   "property": "C81",
   "status": "proved",
   "theorems": [
    "C81_update",
    "C81_update_always",
    "C81_relaxation",
    "C81_columns",
    "C81_window",
    "C81_window_secant",
    "C81_window_always",
    "C81_restart_zero",
    "C81_restart_ls",
    "C81_restart_ls_small",
    "C81_restart_ls_pairs",
    "C81_restart_ls_window",
    "C81_restart_svd",
    "C81_restart_slide",
    "C81_first_iteration",
    "C81_single_iteration",
    "C81_qr3_first",
    "C81_first_iteration_refuted",
    "C81_single_iteration_refuted",
    "C81_window_always_refuted",
    "C81_restart_slide_refuted",
    "C81_restart_svd_refuted",
    "C81_forced_relaxation_refuted"
   ],
   "note": "Over a field, with the factorizations as inputs. The first update of a window without reuse is excluded from C81_update: there the code counts the correction twice, see C81_first_iteration; the other refuted theorems are about RS-SLIDE, changed weights, windows that converge at once, always-build-jacobian and forced relaxation in restart mode."
  },
  {
   "property": "C82",
   "status": "proved",
   "theorems": [
    "C82_cyclic_safe",
    "C82_cyclic_progress",
    "C82_cyclic_terminates",
    "C82_cyclic_result",
    "C82_cyclic_completes",
    "C82_dot",
    "C82_dot_rows",
    "C82_blocks",
    "C82_small"
   ],
   "note": "Over a field, so sums may be taken in any order. A send is only complete when its data have been received, the worst case for deadlocks. The connection of the ring and the collective sums are those of C37 and C36."
  },
  {
   "property": "C83",
   "status": "proved",
   "theorems": [
    "C83_records",
    "C83_crash",
    "C83_pending",
    "C83_file",
    "C83_nested",
    "C83_off",
    "C83_slash",
    "C83_flush_refuted",
    "C83_flush_all_refuted",
    "C83_uninitialized_refuted",
    "C83_second_refuted",
    "C83_newline_refuted"
   ],
   "note": "One rank and one participant at a time; flush-every 0 or at least 10 (7 without MPI): smaller numbers, two participants in a process, finalize without initialize and line breaks in names are refuted."
  },
  {
   "property": "C84",
   "status": "proved",
   "theorems": [
    "C84_history",
    "C84_steps",
    "C84_identity",
    "C84_offsets",
    "C84_adaptive_refuted",
    "C84_short_refuted"
   ],
   "note": "Exact times; the steps of the window have to be further apart than the tolerance of times, shorter windows are refuted. Data written at other steps than those of the first window are resampled and lost, also refuted."
  },
  {
   "property": "C85",
   "status": "proved",
   "theorems": [
    "C85_cpp",
    "C85_cpp_create",
    "C85_c",
    "C85_fortran",
    "C85_text",
    "C85_version",
    "C85_unchecked_refuted",
    "C85_recreate_refuted",
    "C85_trailing_refuted",
    "C85_blank_refuted",
    "C85_count_refuted",
    "C85_version_refuted",
    "C85_symbol_refuted"
   ],
   "note": "Numbers of entries up to 2^31-1, more are refuted. Calls that the C bindings do not check without participant and second creations in Fortran are excluded and refuted."
  },
  {
   "property": "C86",
   "status": "proved",
   "theorems": [
    "C86_update",
    "C86_error",
    "C86_history",
    "C86_reports",
    "C86_chunk",
    "C86_zero_refuted",
    "C86_wide_refuted",
    "C86_filter_refuted"
   ],
   "note": "Exact arithmetic, without the filter and with at most as many columns as rows; the latter two are refuted otherwise. The decomposition of the small matrix (Eigen) is assumed to be one."
  },
  {
   "property": "C87",
   "status": "proved",
   "theorems": [
    "C87_compact",
    "C87_wendland",
    "C87_gaussian_radius",
    "C87_gaussian_shape",
    "C87_gaussian_explicit",
    "C87_global",
    "C87_units",
    "C87_two_vertices",
    "C87_cutoff_refuted",
    "C87_zero_radius_refuted"
   ],
   "note": "Over real numbers, with the standard library's axioms for them. Positive definiteness is proved for two vertices only, as the property says. The Gaussian is 1e-9 and not zero at its radius, and accepts the radius 0: both refuted."
  },
  {
   "property": "C88",
   "status": "proved",
   "theorems": [
    "C88_accepted",
    "C88_created",
    "C88_participant",
    "C88_python",
    "C88_timing",
    "C88_no_source_refuted",
    "C88_no_path_refuted",
    "C88_no_python_refuted",
    "C88_empty_target_refuted",
    "C88_no_target_refuted",
    "C88_no_function_refuted"
   ],
   "note": "Names of data are not empty; Python actions need source data, target data and path although the documentation calls them optional, each of these and a build without Python is refuted. Python and NumPy are an oracle."
  },
  {
   "property": "C89",
   "status": "proved",
   "theorems": [
    "C89_exact",
    "C89_refused",
    "C89_unique",
    "C89_alone",
    "C89_alias_dead_refuted",
    "C89_alias_clusters_refuted",
    "C89_executors_refuted",
    "C89_threads_refuted"
   ],
   "note": "Doubles, std::stoi and the constructors of basis functions are oracles; meshes, directions and duplicates are in M_Wiring, attributes of multiscale mappings are left out. Four expectations about mapping:rbf, several executors and negative threads are refuted."
  },
  {
   "property": "C90",
   "status": "proved",
   "theorems": [
    "C90_answers",
    "C90_questions",
    "C90_distinct",
    "C90_ends",
    "C90_meshes",
    "C90_different",
    "C90_known"
   ],
   "note": "The checks of repeated names and the other parameters of meshes are in M_Wiring."
  }
 ]
}