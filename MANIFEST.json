{
 "claims": [
  {
   "property": "C01",
   "status": "proved",
   "theorems": [
    "C01_history_independent",
    "C01_embed_R",
    "C01_embed_Q",
    "C01_embed_F",
    "C01_fresh_power",
    "C01_decreasing_times_refuted"
   ],
   "note": "Full claim for nondecreasing query times, for every carrier with ordered comparisons (reals, rationals, finite binary64); decreasing times refuted by a witness."
  },
  {
   "property": "C02",
   "status": "proved",
   "theorems": [
    "C02_position_on_segment",
    "C02_speed_limit",
    "C02_zero_duration_refuted"
   ],
   "note": "Exact real arithmetic, segments of positive duration; zero-duration first event gives NaN in binary64 (refuted witness)."
  },
  {
   "property": "C03",
   "status": "proved",
   "theorems": [
    "C03_after_the_end",
    "C03_empty_path_undefined"
   ],
   "note": "Every object state, hence every history; empty path is UB."
  },
  {
   "property": "C04",
   "status": "proved",
   "theorems": [
    "C04_segment_file",
    "C04_end_times_nondecreasing",
    "C04_tokens",
    "C04_end_marker_after_announced_refuted",
    "C04_negative_dwell_refuted",
    "C04_short_file",
    "C04_bad_count"
   ],
   "note": "Exact iff-characterisation of the loader for every parser of numbers; end times nondecreasing over R for nonnegative dwell times; negative dwell and late end marker are refutation witnesses."
  },
  {
   "property": "C05",
   "status": "proved",
   "theorems": [
    "C05_event_file"
   ],
   "note": "Exact iff-characterisation of the loader."
  },
  {
   "property": "C06",
   "status": "proved",
   "theorems": [
    "C06_reread_history",
    "C06_past_unchanged",
    "C06_shorter_file_refuted"
   ],
   "note": "Arbitrary interleavings of queries and append-only re-reads; shrunk file is UB (refuted witness)."
  },
  {
   "property": "C07",
   "status": "proved",
   "theorems": [
    "C07_inverse",
    "C07_isometry",
    "C07_orientation",
    "C07_composition",
    "C07_division",
    "C07_sign",
    "C07_axis_fixed",
    "C07_quarter_turn"
   ],
   "note": "Exact real arithmetic."
  },
  {
   "property": "C08",
   "status": "proved",
   "theorems": [
    "C08_shortest_arc",
    "C08_reaches_both_ends",
    "C08_opposite_signs_refuted",
    "C08_without_rotations"
   ],
   "note": "Exact real arithmetic; opposite-sign pairs give NaN (refutation theorem)."
  },
  {
   "property": "C09",
   "status": "proved",
   "theorems": [
    "C09_goldak_law",
    "C09_goldak_inputs",
    "C09_goldak_bounds",
    "C09_goldak_defined",
    "C09_goldak_on",
    "C09_goldak_off",
    "C09_goldak_after_end",
    "C09_ebeam_law",
    "C09_ebeam_inputs",
    "C09_ebeam_defined",
    "C09_ebeam_on",
    "C09_ebeam_off",
    "C09_ebeam_after_end",
    "C09_ebeam_nonneg",
    "C09_ebeam_nonneg_refuted",
    "C09_cube",
    "C09_database"
   ],
   "note": "Exact real arithmetic; density law, bounds, on/off; nonnegativity of the electron beam holds up to a third of the depth above the beam and is refuted above."
  },
  {
   "property": "C10",
   "status": "proved",
   "theorems": [
    "C10_cube",
    "C10_goldak",
    "C10_goldak_error",
    "C10_ebeam",
    "C10_goldak_mixed",
    "C10_goldak_every_batch_refuted",
    "C10_ebeam_every_batch_refuted"
   ],
   "note": "Batches of any width; the mixed-batch disagreement is a refutation theorem, with an error bound for Goldak."
  },
  {
   "property": "C11",
   "status": "proved",
   "theorems": [
    "C11_box_is_scaled_beam",
    "C11_well_formed",
    "C11_support_in_box",
    "C11_scaling_two_refuted",
    "C11_five_axis_refuted",
    "C11_cube"
   ],
   "note": "Exact real arithmetic; scaling 2 and five-axis motion are refutation witnesses."
  },
  {
   "property": "C12",
   "status": "proved",
   "theorems": [
    "C12_read_iff",
    "C12_times_sorted",
    "C12_box"
   ],
   "note": "Exact iff-characterisation of the reader for every parser; sortedness and box geometry over the reals."
  },
  {
   "property": "C13",
   "status": "proved",
   "theorems": [
    "C13_covers_powered_path",
    "C13_vertical_never_ends_refuted",
    "C13_zero_length_never_ends_refuted",
    "C13_five_axis_never_ends_refuted",
    "C13_no_segments"
   ],
   "note": "Exact real arithmetic, three-axis paths with horizontal powered legs: termination, coverage, times, pairing of the columns. Vertical legs, zero length and five-axis paths: non-termination theorems."
  },
  {
   "property": "C14",
   "status": "proved",
   "theorems": [
    "C14_merge"
   ],
   "note": "For every implementation of std::sort meeting its contract; exact real arithmetic for the comparisons."
  },
  {
   "property": "C15",
   "status": "proved",
   "theorems": [
    "C15_every_box",
    "C15_window",
    "C15_windows_in_turn",
    "C15_any_period_refuted"
   ],
   "note": "Exact arithmetic, thermal runs with a given duration. Windows are proved to cover [0, duration) and each window to contain only boxes of its time; other activation periods are a _refuted theorem."
  },
  {
   "property": "C16",
   "status": "proved",
   "theorems": [
    "C16_device_partition",
    "C16_device_powder_is_least",
    "C16_device_liquid",
    "C16_cell_same",
    "C16_device_binary64",
    "C16_host_batch",
    "C16_host_solid_liquid",
    "C16_host_sum_refuted"
   ],
   "note": "Device and per-cell updates: partition of unity and powder = least value so far, over every history, over R, and in binary64 (ranges exact, sum within 2^-52) for finite temperatures and 0 <= solidus < liquidus. The host batch update is characterised exactly; the sum-to-2 defect is a refutation theorem."
  },
  {
   "property": "C17",
   "status": "proved",
   "theorems": [
    "C17_law",
    "C17_monotone",
    "C17_continuous",
    "C17_binary64_range",
    "C17_unset_never_liquid",
    "C17_equal_temperatures_nan_refuted"
   ],
   "note": "Exact arithmetic for the law, monotonicity and continuity; the range also in binary64; solidus = liquidus gives NaN in binary64."
  },
  {
   "property": "C18",
   "status": "proved",
   "theorems": [
    "C18_parse",
    "C18_below",
    "C18_above",
    "C18_between",
    "C18_full_table_last_interval_refuted",
    "C18_range"
   ],
   "note": "Exact arithmetic; parsing for every decimal parser. The last interval of a full table is a refutation theorem."
  },
  {
   "property": "C19",
   "status": "proved",
   "theorems": [
    "C19_weighted_mean",
    "C19_unrolled",
    "C19_between"
   ],
   "note": "Exact arithmetic; std::pow with an integer exponent is modelled as a power."
  },
  {
   "property": "C20",
   "status": "proved",
   "theorems": [
    "C20_mean",
    "C20_partition",
    "C20_round_trip",
    "C20_device_agrees",
    "C20_device_leaves_inactive",
    "C20_initial",
    "C20_initial_ub",
    "C20_leaves_others"
   ],
   "note": "Exact arithmetic; cells are indices, the map from cells to batches is a parameter."
  },
  {
   "property": "C21",
   "status": "proved",
   "theorems": [
    "C21_flux",
    "C21_sign",
    "C21_equilibrium",
    "C21_cell_coefficient",
    "C21_cell_coefficient_unset"
   ],
   "note": "Exact arithmetic; temperatures nonnegative (Kelvin) for the sign."
  },
  {
   "property": "C22",
   "status": "proved",
   "theorems": [
    "C22_solid_liquid",
    "C22_powder_iff",
    "C22_fresh_powder_refuted",
    "C22_cell_agrees",
    "C22_heat_of_melting",
    "C22_outside"
   ],
   "note": "Exact arithmetic; full characterisation of the disagreement."
  },
  {
   "property": "C23",
   "status": "proved",
   "theorems": [
    "C23_symmetric",
    "C23_principal_directions",
    "C23_dissipative"
   ],
   "note": "Exact arithmetic, any unit vector (cos, sin)."
  },
  {
   "property": "C24",
   "status": "proved",
   "theorems": [
    "C24_accepts_iff",
    "C24_otherwise_throws",
    "C24_adiabatic_exclusive_refuted",
    "C24_file_deposition_rejected",
    "C24_unit_factors",
    "C24_velocity_units",
    "C24_accepted_unit_scales_refuted",
    "C24_beam_builds",
    "C24_accepted_beam_builds_refuted"
   ],
   "note": "Property-tree model; every check of validate_input_database, for any translators of booleans and numbers; the exceptions named in the statement are _refuted theorems. Path names are assumed to contain no dot."
  },
  {
   "property": "C25",
   "status": "proved",
   "theorems": [
    "C25_declared_type",
    "C25_printed_surface",
    "C25_largest_id_refuted",
    "C25_clamped_kept_refuted",
    "C25_ids_with_flag",
    "C25_unknown_word_undefined",
    "C25_validated_is_defined",
    "C25_no_ids_undefined",
    "C25_unknown_id_throws"
   ],
   "note": "All boundary databases and id lists. The claim for the largest id is refuted (the printed-surface line overwrites it)."
  },
  {
   "property": "C26",
   "status": "proved",
   "theorems": [
    "C26_every_member_once",
    "C26_owned_in_range",
    "C26_group_agrees",
    "C26_refused",
    "C26_equal_groups",
    "C26_single_groups",
    "C26_binary64_quotient"
   ],
   "note": "All process counts and ensemble sizes; the binary64 quotient of the code is proved to take the decisions of the exact one below 2^32."
  },
  {
   "property": "C27",
   "status": "proved",
   "theorems": [
    "C27_restart_first_group",
    "C27_others_load_first",
    "C27_files_distinct",
    "C27_reloads_own_member_refuted"
   ],
   "note": "Exact characterisation (own file iff first group), what the others load, and a counterexample to the property as wanted."
  },
  {
   "property": "C28",
   "status": "proved",
   "theorems": [
    "C28_nonnegative",
    "C28_partition_independent",
    "C28_rejections_refuted",
    "C28_never_ends"
   ],
   "note": "Any arithmetic and stream; nonnegativity with any rejections, partition independence without rejections, counterexample with one."
  },
  {
   "property": "C29",
   "status": "proved",
   "theorems": [
    "C29_bounds_diameter",
    "C29_attained",
    "C29_total",
    "C29_bounds_depth_refuted"
   ],
   "note": "Real arithmetic; diameters bound and are attained, counterexample for the depth."
  },
  {
   "property": "C30",
   "status": "proved",
   "theorems": [
    "C30_recorded_iff",
    "C30_whole_run",
    "C30_once_per_cell",
    "C30_gradient_norm",
    "C30_gradient",
    "C30_rate_only_if",
    "C30_rate_negative",
    "C30_rate_refuted",
    "C30_files"
   ],
   "note": "Point recorded iff temperature crosses the liquidus downwards, once per cell; gradient norm; cooling-rate theorem with a counterexample for its sign convention; file layout."
  },
  {
   "property": "C31",
   "status": "proved",
   "theorems": [
    "C31_exactly_the_wanted",
    "C31_consecutive_refuted",
    "C31_blank_characters"
   ],
   "note": "Necessary and sufficient characterisation of a successful read; counterexample for the consecutiveness check."
  },
  {
   "property": "C32",
   "status": "proved",
   "theorems": [
    "C32_each_frame_once",
    "C32_spaced_frames",
    "C32_binary64",
    "C32_two_in_a_step",
    "C32_stamp_used",
    "C32_first_frame_refuted",
    "C32_restart_before_first",
    "C32_restart_aborts",
    "C32_restart_out_of_bounds",
    "C32_output_at_frames",
    "C32_output_refuted"
   ],
   "note": "Real and binary64 arithmetic, first_frame = 0; counterexamples for first_frame > 0, restart and output on assimilation."
  },
  {
   "property": "C33",
   "status": "proved",
   "theorems": [
    "C33_textbook",
    "C33_ends",
    "C33_decreasing",
    "C33_range",
    "C33_continuous",
    "C33_localization",
    "C33_cutoff",
    "C33_binary64_refuted"
   ],
   "note": "Real arithmetic; binary64 counterexample for the end points of the taper."
  },
  {
   "property": "C34",
   "status": "proved",
   "theorems": [
    "C34_estimator",
    "C34_symmetric",
    "C34_psd",
    "C34_identical",
    "C34_shift",
    "C34_pattern",
    "C34_renumbered_refuted",
    "C34_localised",
    "C34_localised_shape",
    "C34_none_is_step",
    "C34_wide_cutoff",
    "C34_step_psd_refuted",
    "C34_augmented_psd_refuted"
   ],
   "note": "PSD for the unlocalised covariance; counterexamples for step localisation and augmented parameters; PSD of the Gaspari-Cohn tapered matrix is not claimed (needs Bochner's theorem). Sparsity pattern under dofs numbered in cell order, counterexample otherwise."
  },
  {
   "property": "C35",
   "status": "proved",
   "theorems": [
    "C35_operator",
    "C35_value",
    "C35_duplicate_refuted",
    "C35_innovation",
    "C35_draws"
   ],
   "note": "Normal variates are an argument; Cholesky branch for non diagonal R (never built by the program) not modelled."
  },
  {
   "property": "C36",
   "status": "proved",
   "theorems": [
    "C36_gather",
    "C36_scatter",
    "C36_round_trip",
    "C36_lossless",
    "C36_parameters_refuted",
    "C36_out_of_range",
    "C36_out_of_range_case"
   ],
   "note": "Counterexample for parameters on non-root processes."
  },
  {
   "property": "C37",
   "status": "proved",
   "theorems": [
    "C37_ends_at_duration",
    "C37_zero_step_never_ends",
    "C37_mechanical_never_ends",
    "C37_binary64",
    "C37_binary64_always_ends_refuted"
   ],
   "note": "Exact arithmetic, plus binary64: monotone times, exact end, termination when the step is at least ulp(duration), stagnation otherwise (_refuted)."
  },
  {
   "property": "C38",
   "status": "proved",
   "theorems": [
    "C38_output_steps",
    "C38_schedule",
    "C38_output_times",
    "C38_refinement_interval",
    "C38_no_zero_period",
    "C38_zero_period_undefined",
    "C38_loop_reports_nothing"
   ],
   "note": "Any carrier, any run; the unsigned step counter is assumed not to wrap around."
  },
  {
   "property": "C39",
   "status": "proved",
   "theorems": [
    "C39_same_passes",
    "C39_same_windows_refuted",
    "C39_first_output",
    "C39_files_found",
    "C39_file_names"
   ],
   "note": "Exact arithmetic; times, steps and schedule after restart; windows and file names differ as the statement says (_refuted / exact characterisation)."
  },
  {
   "property": "C40",
   "status": "proved",
   "theorems": [
    "C40_duration_fixed",
    "C40_unfinished_never_ends",
    "C40_finished_earliest",
    "C40_ends_with_last_path_refuted"
   ],
   "note": "Any carrier and any history of the scan path files."
  },
  {
   "property": "C41",
   "status": "proved",
   "theorems": [
    "C41_succeeds",
    "C41_activates_exactly",
    "C41_state_kept",
    "C41_history_kept",
    "C41_new_direction",
    "C41_temperature_kept",
    "C41_temperature_serial",
    "C41_temperature_new",
    "C41_box_flags",
    "C41_parallel_refuted",
    "C41_unmelted_refuted"
   ],
   "note": "Preservation of states, directions and melted flags on any number of processes; temperatures on one process, on several under a condition on the node's owner; refuted: on several processes a temperature at the interface can be lost; deposited cells are marked as melted."
  },
  {
   "property": "C42",
   "status": "proved",
   "theorems": [
    "C42_round_trip",
    "C42_current",
    "C42_saved",
    "C42_stale",
    "C42_current_refuted",
    "C42_current_mechanics_refuted"
   ],
   "note": "Round trip for any change of the number of processes. Refuted: the saved material state may be stale (no set_state_to_material_properties before save_checkpoint)."
  },
  {
   "property": "C43",
   "status": "proved",
   "theorems": [
    "C43_history",
    "C43_missing_flags",
    "C43_average_is_mean",
    "C43_average_bounds",
    "C43_material_refuted",
    "C43_missed_refuted"
   ],
   "note": "Refuted: the threshold of the run is the solidus of the first material for every cell."
  },
  {
   "property": "C44",
   "status": "proved",
   "theorems": [
    "C44_trial_stress",
    "C44_effective_stress",
    "C44_elastic",
    "C44_radial_return",
    "C44_volume_untouched",
    "C44_yield_monotone",
    "C44_stays_regular",
    "C44_isotropic_admissible",
    "C44_kinematic_condition",
    "C44_kinematic_admissible_refuted",
    "C44_zero_limit_refuted",
    "C44_cells",
    "C44_solves_volume",
    "C44_solves_elastic",
    "C44_missing_states_undefined"
   ],
   "note": "Real-number plasticity at a point, for paths, cells and successive solves; refuted: admissibility with kinematic hardening (squared plastic modulus), elastic limit zero gives NaN. deal.II's stiffness tensor contraction is modelled as lambda tr(e) I + 2 mu e."
  },
  {
   "property": "C45",
   "status": "proved",
   "theorems": [
    "C45_round_trip",
    "C45_transfer"
   ],
   "note": "All numbers of cells, points and processes; the interpolation of the displacement is deal.II's."
  },
  {
   "property": "C46",
   "status": "proved",
   "theorems": [
    "C46_construct",
    "C46_setup",
    "C46_setup_unchanged",
    "C46_history"
   ],
   "note": "Refinement of any history of setups, stress updates and mesh changes to the history of single cells."
  },
  {
   "property": "C47",
   "status": "proved",
   "theorems": [
    "C47_energy",
    "C47_symmetric",
    "C47_nonnegative",
    "C47_rigid"
   ],
   "note": "The element matrix; distribution to the global matrix and constraints are deal.II's."
  },
  {
   "property": "C48",
   "status": "proved",
   "theorems": [
    "C48_exactly_when",
    "C48_value",
    "C48_deviator",
    "C48_shear_refuted",
    "C48_lost_shear",
    "C48_homogeneous",
    "C48_hydrostatic",
    "C48_cells",
    "C48_two_dimensions_refuted"
   ],
   "note": "Exact condition; refuted for xz shear and in two dimensions."
  },
  {
   "property": "C49",
   "status": "proved",
   "theorems": [
    "C49_refining_takes_nearest",
    "C49_coarsening_takes_nearest",
    "C49_round_trip",
    "C49_round_trip_refuted",
    "C49_binary64_refining",
    "C49_binary64_refining_UB",
    "C49_binary64_coarsening",
    "C49_binary64_coarsening_UB"
   ],
   "note": "Nearest-point transfer over the reals (first minimiser) and in binary64 (least computed distance, NaN passed over, UB otherwise); round trip under a correspondence condition and refuted without it."
  },
  {
   "property": "C50",
   "status": "proved",
   "theorems": [
    "C50_reading",
    "C50_alternating",
    "C50_second_start_discards_first",
    "C50_reset_clean_refuted",
    "C50_bounded_by_last_reading_refuted",
    "C50_stop_without_start",
    "C50_printed",
    "C50_other_ranks_silent",
    "C50_driver_sections",
    "C50_driver_within_main",
    "C50_driver_nested",
    "C50_sparsity_timer_reads_zero"
   ],
   "note": "All histories; refuted: reset forgets the running start, reading bounded by the last clock reading after two stops; ensemble driver schedules."
  },
  {
   "property": "C51",
   "status": "proved",
   "theorems": [
    "C51_announced_triangles",
    "C51_written_files",
    "C51_truncated_refused",
    "C51_missing_refused",
    "C51_short_file_refuted",
    "C51_short_file_uninitialised",
    "C51_words_exact",
    "C51_words_special",
    "C51_coordinates_rounded_once",
    "C51_words_in_range",
    "C51_box_tight",
    "C51_box_any",
    "C51_box_2d",
    "C51_box_empty",
    "C51_box_from_input"
   ],
   "note": "Bytes to triangles, written files read back, IEEE single decoding exact, box tight; refuted: files shorter than 84 bytes are not refused (uninitialised count)."
  },
  {
   "property": "C52",
   "status": "proved",
   "theorems": [
    "C52_nearest",
    "C52_all_processes",
    "C52_reported_once",
    "C52_nearest_of_mesh",
    "C52_boxes",
    "C52_point_in_triangle",
    "C52_count",
    "C52_degenerate_binary64",
    "C52_rows",
    "C52_other_process_refuted",
    "C52_found_on_one_process",
    "C52_direction_length_refuted"
   ],
   "note": "Intersection over R (flat faces; the ArborX search result is an input), box meshes, all processes, file rows; binary64: degenerate faces never hit; refuted: candidates on another process are lost, the parallel test depends on the length of the direction."
  },
  {
   "property": "C53",
   "status": "proved",
   "theorems": [
    "C53_candidates",
    "C53_intersect_means_common_point"
   ],
   "note": "Mesh as a list of cells with bounding boxes; ArborX query modelled as exact box intersection."
  },
  {
   "property": "C54",
   "status": "proved",
   "theorems": [
    "C54_rows",
    "C54_empty_field_refuted",
    "C54_frame",
    "C54_file_names"
   ],
   "note": "Waiting for files and std::regex beyond literal patterns are not modelled."
  },
  {
   "property": "C55",
   "status": "proved",
   "theorems": [
    "C55_nodes",
    "C55_mapping",
    "C55_written",
    "C55_no_node"
   ],
   "note": "ArborX' nearest neighbour search is a parameter."
  },
  {
   "property": "C56",
   "status": "proved",
   "theorems": [
    "C56_update",
    "C56_assimilate",
    "C56_sizes",
    "C56_system",
    "C56_residual",
    "C56_smaller",
    "C56_observation_covariance",
    "C56_unique",
    "C56_single",
    "C56_uncorrelated",
    "C56_step_unique_refuted",
    "C56_no_uncertainty_refuted"
   ],
   "note": "GMRES is an argument assumed to solve the system where the theorem says so."
  },
  {
   "property": "C57",
   "status": "proved",
   "theorems": [
    "C57_put",
    "C57_order",
    "C57_unchanged",
    "C57_no_beam_refuted"
   ],
   "note": "Databases reduced to the entries concerned."
  },
  {
   "property": "C58",
   "status": "proved",
   "theorems": [
    "C58_flags",
    "C58_intersects",
    "C58_beam_met",
    "C58_samples",
    "C58_samples_are_steps",
    "C58_between_samples_refuted",
    "C58_transfer",
    "C58_coarsening_refuted"
   ],
   "note": "ArborX' single precision boxes and the interpolation of the temperature are not modelled; refuted: cells passed between two samples, coarsening of children with different data."
  },
  {
   "property": "C59",
   "status": "proved",
   "theorems": [
    "C59_load_work",
    "C59_free_expansion",
    "C59_plane_strain",
    "C59_expansion_stress",
    "C59_free_expansion_stress_refuted",
    "C59_reference",
    "C59_weight"
   ],
   "note": "Element right hand side; refuted: zero stress in free expansion. The application never passes body forces."
  },
  {
   "property": "C60",
   "status": "proved",
   "theorems": [
    "C60_decided_by_last",
    "C60_last_exists",
    "C60_kept",
    "C60_shared_refuted"
   ],
   "note": "Exact rule by the last cell; refuted: kept in general."
  },
  {
   "property": "C61",
   "status": "proved",
   "theorems": [
    "C61_side_of_nearest",
    "C61_convex_inside",
    "C61_box_exact",
    "C61_cut_cells_refused",
    "C61_two_dimensions_refused",
    "C61_outside_refused_refuted"
   ],
   "note": "Nearest query of ArborX is an input constrained by nearest_answer; refuted for centres near sharp tips outside the part."
  },
  {
   "property": "C62",
   "status": "proved",
   "theorems": [
    "C62_layers",
    "C62_no_powder",
    "C62_layers_binary64",
    "C62_initial_data"
   ],
   "note": "Layers over R, monotone in binary64."
  },
  {
   "property": "C63",
   "status": "proved",
   "theorems": [
    "C63_names_distinct",
    "C63_ensemble_names_distinct",
    "C63_vtu",
    "C63_pvtu",
    "C63_pvd",
    "C63_only_these",
    "C63_unfinished",
    "C63_command_line_directory",
    "C63_directory",
    "C63_restart",
    "C63_relative_directory_refuted",
    "C63_no_final_slash_refuted",
    "C63_prefix_with_directory_refuted",
    "C63_coupled_directory_refuted",
    "C63_experiment_directory_refuted",
    "C63_restart_pvd_complete_refuted"
   ],
   "note": "Distinctness, completeness and references for all names (references: exact conditions); refuted: relative output_dir, no final slash, prefix with a directory, thermo-mechanics and experimental data ignore output_dir, .pvd after a restart."
  },
  {
   "property": "C64",
   "status": "proved",
   "theorems": [
    "C64_strain",
    "C64_strain_exact",
    "C64_strain_symmetric_binary64",
    "C64_material",
    "C64_material_sum",
    "C64_material_throws"
   ],
   "note": "Strain in every number structure, exact symmetry in binary64; material fields with the numbering of reinit_dofs."
  },
  {
   "property": "C65",
   "status": "proved",
   "theorems": [
    "C65_parameters",
    "C65_refused_iff",
    "C65_nothing_lost",
    "C65_thermal",
    "C65_mechanical",
    "C65_material_values",
    "C65_moduli_follow_the_table_refuted",
    "C65_blanks_ignored"
   ],
   "note": "Refuted: mechanical tables are not functions of the temperature."
  },
  {
   "property": "C66",
   "status": "proved",
   "theorems": [
    "C66_the_simulation_asked_for",
    "C66_every_run",
    "C66_stops_with_1",
    "C66_several_materials_do_nothing",
    "C66_valid_input_is_run_refuted",
    "C66_invalid_input_status",
    "C66_errors_exit_nonzero_refuted"
   ],
   "note": "Refuted: a valid input is run (two or more materials start nothing, status 0); errors exit with a nonzero status."
  },
  {
   "property": "C67",
   "status": "proved",
   "theorems": [
    "C67_weak_form",
    "C67_balance",
    "C67_step",
    "C67_conserved",
    "C67_run",
    "C67_heat_content_refuted",
    "C67_printed_input"
   ],
   "note": "Refuted: with a heat capacity that varies in space the heat content is not conserved by conduction."
  },
  {
   "property": "C68",
   "status": "proved",
   "theorems": [
    "C68_uniform",
    "C68_uniform_run",
    "C68_dissipation",
    "C68_stable",
    "C68_symmetric",
    "C68_hanging_unused",
    "C68_hanging_rate",
    "C68_total_mass"
   ],
   "note": "The rate of a hanging node is its own entry (harmless: not used)."
  },
  {
   "property": "C69",
   "status": "proved",
   "theorems": [
    "C69_faces",
    "C69_adiabatic_only",
    "C69_shortcut",
    "C69_own_boundary_refuted"
   ],
   "note": "Refuted: a boundary \"convective,adiabatic\" behaves the same whatever the other boundaries are."
  },
  {
   "property": "C70",
   "status": "proved",
   "theorems": [
    "C70_methods",
    "C70_method_names",
    "C70_validated",
    "C70_unknown",
    "C70_stages",
    "C70_bounds",
    "C70_linear",
    "C70_powers",
    "C70_sources_on"
   ],
   "note": ""
  },
  {
   "property": "C71",
   "status": "proved",
   "theorems": [
    "C71_same_rates",
    "C71_sources_off",
    "C71_only_adiabatic",
    "C71_small_cells_refuted"
   ],
   "note": "Refuted: small cells; the device leaves nodes with a mass of at most 1e-15 at their temperature."
  },
  {
   "property": "C72",
   "status": "proved",
   "theorems": [
    "C72_solve",
    "C72_outcome",
    "C72_constraints",
    "C72_clamped",
    "C72_symmetric",
    "C72_semidefinite",
    "C72_kernel",
    "C72_unique",
    "C72_error",
    "C72_expansion",
    "C72_no_load",
    "C72_small",
    "C72_gravity",
    "C72_solvable_refuted",
    "C72_mechanical_only_refuted"
   ],
   "note": "Refuted: solvable systems are solved (max_iter is a tenth of the number of unknowns, 0 below ten: exception); mechanical-only runs (reference temperatures are always given, the thermal DoFHandler is null: undefined behaviour)."
  },
  {
   "property": "C73",
   "status": "proved",
   "theorems": [
    "C73_last_load",
    "C73_elastic",
    "C73_equilibrium",
    "C73_mechanical",
    "C73_defect",
    "C73_plastic_refuted",
    "C73_repeat",
    "C73_kinematic_refuted",
    "C73_imbalance",
    "C73_history",
    "C73_added",
    "C73_solidified_refuted"
   ],
   "note": "Refuted: equilibrium after yielding (no second solve); equilibrium after a cell solidifies (its stress starts at zero, the displacement does not); repeated solves with kinematic hardening leave the stress unchanged."
  },
  {
   "property": "C74",
   "status": "proved",
   "theorems": [
    "C74_sources",
    "C74_parameters_used",
    "C74_efficiency_bounds_refuted",
    "C74_no_assimilation",
    "C74_no_spread",
    "C74_perturbation_used_refuted",
    "C74_restart",
    "C74_restart_continues",
    "C74_restart_refuted",
    "C74_data_file",
    "C74_data_file_names_differ"
   ],
   "note": "Refuted: assimilated parameters stay in their physical range; uncertain material properties spread the members (MaterialProperty, Geometry and Boundary are built from the common input); a restart keeps the assimilated parameters."
  },
  {
   "property": "C75",
   "status": "proved",
   "theorems": [
    "C75_determined",
    "C75_goldak_power",
    "C75_goldak_profile",
    "C75_ebeam_power",
    "C75_ebeam_profile",
    "C75_goldak_above_refuted",
    "C75_ebeam_above_refuted",
    "C75_goldak_2d",
    "C75_2d_radius_refuted"
   ],
   "note": "Beams of a scan path without rotation (not five-axis).  Refuted: at most the absorbed power is deposited when material lies above the plane; in two dimensions the heat does not depend on the diameter."
  },
  {
   "property": "C76",
   "status": "proved",
   "theorems": [
    "C76_box",
    "C76_box_2d",
    "C76_tiling",
    "C76_cells",
    "C76_sides",
    "C76_sides_covered",
    "C76_boundary_ids",
    "C76_material",
    "C76_active_height",
    "C76_powder_height",
    "C76_imported",
    "C76_unknown_unit_refuted",
    "C76_units_refuted",
    "C76_divisions_refuted"
   ],
   "note": "subdivided_hyper_rectangle is modelled as documented by deal.II.  Refuted: the unit of the mesh applies to a generated mesh; an accepted unit or number of divisions is usable."
  },
  {
   "property": "C77",
   "status": "proved",
   "theorems": [
    "C77_energy",
    "C77_whole_path",
    "C77_share",
    "C77_runs",
    "C77_heat_content",
    "C77_part_heat",
    "C77_flash_refuted",
    "C77_first_flash_refuted"
   ],
   "note": "Mesh and boundary conditions fixed during the run; cubes left out (no scan path).  Refuted: the error is a fraction of the energy (flashes)."
  },
  {
   "property": "C78",
   "status": "proved",
   "theorems": [
    "C78_step",
    "C78_run",
    "C78_nodes",
    "C78_decay",
    "C78_rows",
    "C78_some_step",
    "C78_cells",
    "C78_boxes",
    "C78_mode",
    "C78_long_step_refuted"
   ],
   "note": "Exact arithmetic; laws that do not depend on the temperature within a step, no radiation, no sources; constant 1/100 of the decay not sharp; limits 1.99, 2.5, 2.75 instead of 2, 2.512, 2.785."
  },
  {
   "property": "C79",
   "status": "proved",
   "theorems": [
    "C79_step",
    "C79_run",
    "C79_hanging",
    "C79_boxes",
    "C79_flat_refuted"
   ],
   "note": "Exact arithmetic; no radiation, no sources; with the Runge-Kutta schemes the laws do not depend on the temperature within a step; the criterion for boxes is for insulated meshes without hanging nodes."
  },
  {
   "property": "C80",
   "status": "proved",
   "theorems": [
    "C80_complete",
    "C80_mean",
    "C80_mean_closer",
    "C80_agreed",
    "C80_relations",
    "C80_deviation",
    "C80_kalman",
    "C80_spread",
    "C80_observed_spread",
    "C80_solvable",
    "C80_step_spread_refuted",
    "C80_range_refuted"
   ],
   "note": "Exact arithmetic; GMRES is an argument (exact where the statement says so); the perturbations are arbitrary numbers, statements about expectations are replaced by conditions on their values over the members."
  },
  {
   "property": "C81",
   "status": "proved",
   "theorems": [
    "C81_factor",
    "C81_unique",
    "C81_accepted",
    "C81_rejected",
    "C81_exact_refuted",
    "C81_lower_triangle",
    "C81_branches",
    "C81_application",
    "C81_complete",
    "C81_sample",
    "C81_kalman",
    "C81_solvable"
   ],
   "note": "Exact arithmetic; deal.II's factorisation (not in the repository) is modelled after its loops; a zero pivot, which gives infinities in binary64, is modelled as the failure that follows.  The program itself only builds diagonal matrices; the class accepts any."
  },
  {
   "property": "C82",
   "status": "proved",
   "theorems": [
    "C82_current",
    "C82_step",
    "C82_run",
    "C82_boxes",
    "C82_limit",
    "C82_conduction_limit_refuted"
   ],
   "note": "Exact arithmetic, no sources, forward Euler; the explicit limit is for Gauss-Lobatto points without hanging nodes."
  },
  {
   "property": "C83",
   "status": "proved",
   "theorems": [
    "C83_never_colder",
    "C83_step",
    "C83_run",
    "C83_boxes",
    "C83_reached"
   ],
   "note": "Exact arithmetic, forward Euler; the explicit limit is for Gauss-Lobatto points without hanging nodes."
  },
  {
   "property": "C84",
   "status": "proved",
   "theorems": [
    "C84_cells",
    "C84_map",
    "C84_round_trip",
    "C84_orientation",
    "C84_too_few_angles",
    "C84_device_cells",
    "C84_device_orientation",
    "C84_device_mean",
    "C84_faces",
    "C84_faces_of_other_processes_refuted"
   ],
   "note": "Faces whose side with material belongs to another process: refuted (read as material 0)."
  },
  {
   "property": "C85",
   "status": "proved",
   "theorems": [
    "C85_same",
    "C85_steps",
    "C85_heat_input",
    "C85_numbering",
    "C85_numbering_steps",
    "C85_bitwise_refuted"
   ],
   "note": "Over the reals; bitwise equality in binary64 is refuted."
  },
  {
   "property": "C86",
   "status": "proved",
   "theorems": [
    "C86_fourier",
    "C86_rate",
    "C86_steps",
    "C86_boxes",
    "C86_gradient"
   ],
   "note": "Exact arithmetic; box meshes with Gauss-Lobatto points for the divergence theorem."
  },
  {
   "property": "C87",
   "status": "proved",
   "theorems": [
    "C87_exists",
    "C87_heating",
    "C87_supported",
    "C87_held",
    "C87_energy",
    "C87_superposition",
    "C87_refused",
    "C87_falling"
   ],
   "note": "Exact arithmetic; the residual that the solver checks is taken to be that of the iterate."
  },
  {
   "property": "C88",
   "status": "proved",
   "theorems": [
    "C88_segment_file",
    "C88_event_file",
    "C88_deposition_file",
    "C88_scan_path",
    "C88_unknown_format_is_reported",
    "C88_table",
    "C88_number_without_comma",
    "C88_polynomial_is_reported",
    "C88_wide_segment_lines",
    "C88_wide_event_lines",
    "C88_wide_deposition_lines",
    "C88_wide_table",
    "C88_short_line",
    "C88_cut_file_is_reported_refuted"
   ],
   "note": "The outcomes of the number parser (number or exception) are a parameter."
  },
  {
   "property": "C89",
   "status": "proved",
   "theorems": [
    "C89_run",
    "C89_rate",
    "C89_step",
    "C89_beam",
    "C89_position",
    "C89_run_case",
    "C89_five_axis_refuted"
   ],
   "note": "Full statement; that paths with rotations do not satisfy it is C89_five_axis_refuted."
  },
  {
   "property": "C90",
   "status": "proved",
   "theorems": [
    "C90_superposition",
    "C90_two_groups",
    "C90_every_beam",
    "C90_power",
    "C90_degrees",
    "C90_two_groups_case",
    "C90_superposition_case",
    "C90_degrees_case",
    "C90_superposition_refuted"
   ],
   "note": "Full statement; that runs with radiation do not satisfy it is C90_superposition_refuted."
  },
  {
   "property": "C91",
   "status": "proved",
   "theorems": [
    "C91_solution",
    "C91_one_solution",
    "C91_order",
    "C91_equal_steps",
    "C91_case"
   ],
   "note": "Full statement."
  },
  {
   "property": "C92",
   "status": "proved",
   "theorems": [
    "C92_matrix",
    "C92_rhs",
    "C92_history",
    "C92_balance",
    "C92_case"
   ],
   "note": "Full statement in exact arithmetic; the linear solver's iterates are an argument (its preconditioner depends on the distribution)."
  },
  {
   "property": "C93",
   "status": "proved",
   "theorems": [
    "C93_step",
    "C93_run",
    "C93_boxes",
    "C93_another_beam",
    "C93_more_power",
    "C93_never_below",
    "C93_run_case",
    "C93_another_beam_case",
    "C93_conduction_limit_refuted",
    "C93_more_power_case",
    "C93_any_scheme",
    "C93_any_scheme_case"
   ],
   "note": "Forward Euler, except C93_any_scheme (all three schemes for runs that differ in their start only, without radiation; with sources the Runge-Kutta schemes would need other limits); electron beams are excluded from C93_another_beam since the code lets them release negative heat above the surface (C09); real arithmetic."
  }
 ]
}