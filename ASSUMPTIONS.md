# What Print Assumptions lists

Generated by `tools/gen_assumptions.py` from the output of the `Print Assumptions` command behind each theorem. No axiom is ours: all are
declared by the standard library of Coq 8.16.1. Groups:

* **R** construction of the real numbers (ClassicalDedekindReals): `ClassicalDedekindReals.sig_forall_dec`, `ClassicalDedekindReals.sig_not_dec`
* **X** functional extensionality: `FunctionalExtensionality.functional_extensionality_dep`
* **C** excluded middle (Classical_Prop), through Flocq and the library of reals: `Classical_Prop.classic`
* **P** primitive integers and binary64 floats: types and operations implemented by the kernel (declared with `Primitive`): `PrimFloat.add`, `PrimFloat.div`, `PrimFloat.eqb`, `PrimFloat.float`, `PrimFloat.leb`, `PrimFloat.ltb`, `PrimFloat.mul`, `PrimFloat.opp`, `PrimFloat.sqrt`, `PrimFloat.sub`, `PrimInt63.add`, `PrimInt63.eqb`, `PrimInt63.int`, `PrimInt63.land`, `PrimInt63.leb`, `PrimInt63.lor`, `PrimInt63.lsl`, `PrimInt63.lsr`, `PrimInt63.ltb`, `PrimInt63.sub`, `abs`, `add`, `div`, `eqb`, `float`, `frshiftexp`, `int`, `land`, `ldshiftexp`, `leb`, `lor`, `lsl`, `lsr`, `ltb`, `mul`, `normfr_mantissa`, `of_uint63`, `opp`, `sqrt`, `sub`
* **S** their specifications (FloatAxioms, Uint63): `FloatAxioms.div_spec`, `FloatAxioms.eqb_spec`, `FloatAxioms.leb_spec`, `FloatAxioms.ltb_spec`, `Prim2SF_SF2Prim`, `Prim2SF_valid`, `SF2Prim_Prim2SF`, `Uint63.add_spec`, `Uint63.eqb_correct`, `Uint63.eqb_refl`, `Uint63.leb_spec`, `Uint63.lor_spec`, `Uint63.lsl_spec`, `Uint63.lsr_spec`, `Uint63.ltb_spec`, `Uint63.of_to_Z`, `Uint63.sub_spec`, `abs_spec`, `add_spec`, `div_spec`, `eqb_correct`, `eqb_refl`, `eqb_spec`, `ldshiftexp_spec`, `leb_spec`, `lor_spec`, `lsl_spec`, `lsr_spec`, `ltb_spec`, `mul_spec`, `of_to_Z`, `of_uint63_spec`, `opp_spec`, `sub_spec`

| Theorem | Groups |
|---|---|
| C01_decreasing_times_refuted | none |
| C01_embed_F | C P R S X |
| C01_embed_Q | R X |
| C01_embed_R | R X |
| C01_fresh_power | none |
| C01_history_independent | R X |
| C02_position_on_segment | R X |
| C02_speed_limit | R X |
| C02_zero_duration_refuted | P |
| C03_after_the_end | none |
| C03_empty_path_undefined | none |
| C04_bad_count | none |
| C04_end_marker_after_announced_refuted | none |
| C04_end_times_nondecreasing | R X |
| C04_negative_dwell_refuted | none |
| C04_segment_file | none |
| C04_short_file | none |
| C04_tokens | none |
| C05_event_file | none |
| C06_past_unchanged | none |
| C06_reread_history | R X |
| C06_shorter_file_refuted | none |
| C07_axis_fixed | R X |
| C07_composition | R X |
| C07_division | R X |
| C07_inverse | R X |
| C07_isometry | R X |
| C07_orientation | R X |
| C07_quarter_turn | R X |
| C07_sign | R X |
| C08_opposite_signs_refuted | C R X |
| C08_reaches_both_ends | C R X |
| C08_shortest_arc | C R X |
| C08_without_rotations | none |
| C09_cube | R X |
| C09_database | R X |
| C09_ebeam_after_end | C R X |
| C09_ebeam_defined | C R X |
| C09_ebeam_inputs | C R X |
| C09_ebeam_law | C R X |
| C09_ebeam_nonneg | C R X |
| C09_ebeam_nonneg_refuted | C R X |
| C09_ebeam_off | C R X |
| C09_ebeam_on | C R X |
| C09_goldak_after_end | C R X |
| C09_goldak_bounds | C R X |
| C09_goldak_defined | R X |
| C09_goldak_inputs | C R X |
| C09_goldak_law | C R X |
| C09_goldak_off | C R X |
| C09_goldak_on | C R X |
| C10_cube | R X |
| C10_ebeam | C R X |
| C10_ebeam_every_batch_refuted | C R X |
| C10_goldak | C R X |
| C10_goldak_error | C R X |
| C10_goldak_every_batch_refuted | C R X |
| C10_goldak_mixed | C R X |
| C11_box_is_scaled_beam | C R X |
| C11_cube | R X |
| C11_five_axis_refuted | C R X |
| C11_scaling_two_refuted | C R X |
| C11_support_in_box | C R X |
| C11_well_formed | C R X |
| C12_box | R X |
| C12_read_iff | none |
| C12_times_sorted | R X |
| C13_covers_powered_path | R X |
| C13_five_axis_never_ends_refuted | R X |
| C13_no_segments | none |
| C13_vertical_never_ends_refuted | R X |
| C13_zero_length_never_ends_refuted | R X |
| C14_merge | R X |
| C15_any_period_refuted | none |
| C15_every_box | R X |
| C15_window | R X |
| C15_windows_in_turn | R X |
| C16_cell_same | R X |
| C16_device_binary64 | C P R S X |
| C16_device_liquid | R X |
| C16_device_partition | R X |
| C16_device_powder_is_least | R X |
| C16_host_batch | R X |
| C16_host_solid_liquid | R X |
| C16_host_sum_refuted | R X |
| C17_binary64_range | C P R S X |
| C17_continuous | R X |
| C17_equal_temperatures_nan_refuted | P |
| C17_law | R X |
| C17_monotone | R X |
| C17_unset_never_liquid | R X |
| C18_above | R X |
| C18_below | R X |
| C18_between | R X |
| C18_full_table_last_interval_refuted | R X |
| C18_parse | none |
| C18_range | R X |
| C19_between | R X |
| C19_unrolled | R X |
| C19_weighted_mean | R X |
| C20_device_agrees | R X |
| C20_device_leaves_inactive | R X |
| C20_initial | R X |
| C20_initial_ub | R X |
| C20_leaves_others | R X |
| C20_mean | R X |
| C20_partition | R X |
| C20_round_trip | R X |
| C21_cell_coefficient | R X |
| C21_cell_coefficient_unset | R X |
| C21_equilibrium | R X |
| C21_flux | R X |
| C21_sign | R X |
| C22_cell_agrees | R X |
| C22_fresh_powder_refuted | R X |
| C22_heat_of_melting | R X |
| C22_outside | R X |
| C22_powder_iff | R X |
| C22_solid_liquid | R X |
| C23_dissipative | R X |
| C23_principal_directions | R X |
| C23_symmetric | R X |
| C24_accepted_beam_builds_refuted | none |
| C24_accepted_unit_scales_refuted | R X |
| C24_accepts_iff | none |
| C24_adiabatic_exclusive_refuted | none |
| C24_beam_builds | none |
| C24_file_deposition_rejected | none |
| C24_otherwise_throws | none |
| C24_unit_factors | R X |
| C24_velocity_units | R X |
| C25_clamped_kept_refuted | none |
| C25_declared_type | none |
| C25_ids_with_flag | none |
| C25_largest_id_refuted | none |
| C25_no_ids_undefined | none |
| C25_printed_surface | none |
| C25_unknown_id_throws | none |
| C25_unknown_word_undefined | none |
| C25_validated_is_defined | none |
| C26_binary64_quotient | C P R S X |
| C26_equal_groups | none |
| C26_every_member_once | none |
| C26_group_agrees | none |
| C26_owned_in_range | none |
| C26_refused | none |
| C26_single_groups | none |
| C27_files_distinct | none |
| C27_others_load_first | none |
| C27_reloads_own_member_refuted | none |
| C27_restart_first_group | none |
| C28_never_ends | R X |
| C28_nonnegative | none |
| C28_partition_independent | none |
| C28_rejections_refuted | none |
| C29_attained | R X |
| C29_bounds_depth_refuted | none |
| C29_bounds_diameter | R X |
| C29_total | R X |
| C30_files | none |
| C30_gradient | R X |
| C30_gradient_norm | R X |
| C30_once_per_cell | none |
| C30_rate_negative | R X |
| C30_rate_only_if | R X |
| C30_rate_refuted | none |
| C30_recorded_iff | none |
| C30_whole_run | none |
| C31_blank_characters | none |
| C31_consecutive_refuted | none |
| C31_exactly_the_wanted | none |
| C32_binary64 | C P R S X |
| C32_each_frame_once | R X |
| C32_first_frame_refuted | P |
| C32_output_at_frames | R X |
| C32_output_refuted | P |
| C32_restart_aborts | R X |
| C32_restart_before_first | R X |
| C32_restart_out_of_bounds | R X |
| C32_spaced_frames | R X |
| C32_stamp_used | none |
| C32_two_in_a_step | R X |
| C33_binary64_refuted | P |
| C33_continuous | R X |
| C33_cutoff | R X |
| C33_decreasing | C R X |
| C33_ends | C R X |
| C33_localization | R X |
| C33_range | C R X |
| C33_textbook | R X |
| C34_augmented_psd_refuted | R X |
| C34_estimator | R X |
| C34_identical | R X |
| C34_localised | R X |
| C34_localised_shape | C R X |
| C34_none_is_step | R X |
| C34_pattern | none |
| C34_psd | R X |
| C34_renumbered_refuted | none |
| C34_shift | R X |
| C34_step_psd_refuted | R X |
| C34_symmetric | R X |
| C34_wide_cutoff | R X |
| C35_draws | none |
| C35_duplicate_refuted | none |
| C35_innovation | none |
| C35_operator | R X |
| C35_value | none |
| C36_gather | none |
| C36_lossless | none |
| C36_out_of_range | none |
| C36_out_of_range_case | none |
| C36_parameters_refuted | none |
| C36_round_trip | none |
| C36_scatter | none |
| C37_binary64 | C P R S X |
| C37_binary64_always_ends_refuted | P |
| C37_ends_at_duration | R X |
| C37_mechanical_never_ends | none |
| C37_zero_step_never_ends | R X |
| C38_loop_reports_nothing | none |
| C38_no_zero_period | none |
| C38_output_steps | none |
| C38_output_times | R X |
| C38_refinement_interval | none |
| C38_schedule | none |
| C38_zero_period_undefined | none |
| C39_file_names | none |
| C39_files_found | none |
| C39_first_output | none |
| C39_same_passes | R X |
| C39_same_windows_refuted | none |
| C40_duration_fixed | none |
| C40_ends_with_last_path_refuted | none |
| C40_finished_earliest | R X |
| C40_unfinished_never_ends | none |
| C41_activates_exactly | P |
| C41_box_flags | P |
| C41_history_kept | P |
| C41_new_direction | P |
| C41_parallel_refuted | P |
| C41_state_kept | P |
| C41_succeeds | P |
| C41_temperature_kept | P |
| C41_temperature_new | P |
| C41_temperature_serial | P |
| C41_unmelted_refuted | P |
| C42_current | none |
| C42_current_mechanics_refuted | none |
| C42_current_refuted | none |
| C42_round_trip | P |
| C42_saved | none |
| C42_stale | none |
| C43_average_bounds | R X |
| C43_average_is_mean | R X |
| C43_history | none |
| C43_material_refuted | none |
| C43_missed_refuted | none |
| C43_missing_flags | none |
| C44_cells | R X |
| C44_effective_stress | R X |
| C44_elastic | R X |
| C44_isotropic_admissible | R X |
| C44_kinematic_admissible_refuted | R X |
| C44_kinematic_condition | R X |
| C44_missing_states_undefined | none |
| C44_radial_return | R X |
| C44_solves_elastic | R X |
| C44_solves_volume | R X |
| C44_stays_regular | R X |
| C44_trial_stress | R X |
| C44_volume_untouched | R X |
| C44_yield_monotone | R X |
| C44_zero_limit_refuted | P |
| C45_round_trip | P |
| C45_transfer | P |
| C46_construct | P |
| C46_history | P |
| C46_setup | P |
| C46_setup_unchanged | P |
| C47_energy | R X |
| C47_nonnegative | R X |
| C47_rigid | R X |
| C47_symmetric | R X |
| C48_cells | R X |
| C48_deviator | R X |
| C48_exactly_when | R X |
| C48_homogeneous | R X |
| C48_hydrostatic | R X |
| C48_lost_shear | R X |
| C48_shear_refuted | R X |
| C48_two_dimensions_refuted | R X |
| C48_value | R X |
| C49_binary64_coarsening | P S |
| C49_binary64_coarsening_UB | P S |
| C49_binary64_refining | P S |
| C49_binary64_refining_UB | P S |
| C49_coarsening_takes_nearest | R X |
| C49_refining_takes_nearest | R X |
| C49_round_trip | R X |
| C49_round_trip_refuted | P |
| C50_alternating | none |
| C50_bounded_by_last_reading_refuted | none |
| C50_driver_nested | none |
| C50_driver_sections | none |
| C50_driver_within_main | none |
| C50_other_ranks_silent | none |
| C50_printed | none |
| C50_reading | none |
| C50_reset_clean_refuted | none |
| C50_second_start_discards_first | none |
| C50_sparsity_timer_reads_zero | none |
| C50_stop_without_start | none |
| C51_announced_triangles | P |
| C51_box_2d | P S |
| C51_box_any | P S |
| C51_box_empty | P |
| C51_box_from_input | R X |
| C51_box_tight | C P R S X |
| C51_coordinates_rounded_once | C P R S X |
| C51_missing_refused | P |
| C51_short_file_refuted | P |
| C51_short_file_uninitialised | P |
| C51_truncated_refused | P |
| C51_words_exact | C P R S X |
| C51_words_in_range | none |
| C51_words_special | P |
| C51_written_files | P |
| C52_all_processes | R X |
| C52_boxes | R X |
| C52_count | R X |
| C52_degenerate_binary64 | P S |
| C52_direction_length_refuted | P |
| C52_found_on_one_process | P |
| C52_nearest | R X |
| C52_nearest_of_mesh | R X |
| C52_other_process_refuted | P |
| C52_point_in_triangle | R X |
| C52_reported_once | R X |
| C52_rows | none |
| C53_candidates | R X |
| C53_intersect_means_common_point | R X |
| C54_empty_field_refuted | none |
| C54_file_names | none |
| C54_frame | none |
| C54_rows | none |
| C55_mapping | none |
| C55_no_node | none |
| C55_nodes | none |
| C55_written | none |
| C56_assimilate | R X |
| C56_no_uncertainty_refuted | R X |
| C56_observation_covariance | R X |
| C56_residual | R X |
| C56_single | R X |
| C56_sizes | none |
| C56_smaller | R X |
| C56_step_unique_refuted | R X |
| C56_system | R X |
| C56_uncorrelated | R X |
| C56_unique | R X |
| C56_update | R X |
| C57_no_beam_refuted | none |
| C57_order | none |
| C57_put | none |
| C57_unchanged | none |
| C58_beam_met | C R X |
| C58_between_samples_refuted | C R X |
| C58_coarsening_refuted | P |
| C58_flags | C R X |
| C58_intersects | R X |
| C58_samples | R X |
| C58_samples_are_steps | R X |
| C58_transfer | P |
| C59_expansion_stress | R X |
| C59_free_expansion | R X |
| C59_free_expansion_stress_refuted | R X |
| C59_load_work | R X |
| C59_plane_strain | R X |
| C59_reference | R X |
| C59_weight | R X |
| C60_decided_by_last | P |
| C60_kept | P |
| C60_last_exists | P |
| C60_shared_refuted | P |
| C61_box_exact | R X |
| C61_convex_inside | R X |
| C61_cut_cells_refused | R X |
| C61_outside_refused_refuted | R X |
| C61_side_of_nearest | R X |
| C61_two_dimensions_refused | R X |
| C62_initial_data | R X |
| C62_layers | R X |
| C62_layers_binary64 | C P R S X |
| C62_no_powder | none |
| C63_command_line_directory | none |
| C63_coupled_directory_refuted | none |
| C63_directory | none |
| C63_ensemble_names_distinct | none |
| C63_experiment_directory_refuted | none |
| C63_names_distinct | none |
| C63_no_final_slash_refuted | none |
| C63_only_these | none |
| C63_prefix_with_directory_refuted | none |
| C63_pvd | none |
| C63_pvtu | none |
| C63_relative_directory_refuted | none |
| C63_restart | none |
| C63_restart_pvd_complete_refuted | none |
| C63_unfinished | none |
| C63_vtu | none |
| C64_material | none |
| C64_material_sum | R X |
| C64_material_throws | none |
| C64_strain | none |
| C64_strain_exact | R X |
| C64_strain_symmetric_binary64 | P S |
| C65_blanks_ignored | none |
| C65_material_values | none |
| C65_mechanical | none |
| C65_moduli_follow_the_table_refuted | none |
| C65_nothing_lost | none |
| C65_parameters | none |
| C65_refused_iff | none |
| C65_thermal | none |
| C66_errors_exit_nonzero_refuted | none |
| C66_every_run | none |
| C66_invalid_input_status | none |
| C66_several_materials_do_nothing | none |
| C66_stops_with_1 | none |
| C66_the_simulation_asked_for | none |
| C66_valid_input_is_run_refuted | none |
| C67_balance | R X |
| C67_conserved | R X |
| C67_heat_content_refuted | R X |
| C67_printed_input | R X |
| C67_run | R X |
| C67_step | R X |
| C67_weak_form | R X |
| C68_dissipation | R X |
| C68_hanging_rate | R X |
| C68_hanging_unused | R X |
| C68_stable | R X |
| C68_symmetric | R X |
| C68_total_mass | R X |
| C68_uniform | R X |
| C68_uniform_run | R X |
| C69_adiabatic_only | none |
| C69_faces | R X |
| C69_own_boundary_refuted | R X |
| C69_shortcut | R X |
| C70_bounds | R X |
| C70_linear | R X |
| C70_method_names | none |
| C70_methods | none |
| C70_powers | R X |
| C70_sources_on | none |
| C70_stages | R X |
| C70_unknown | R X |
| C70_validated | R X |
| C71_only_adiabatic | R X |
| C71_same_rates | R X |
| C71_small_cells_refuted | R X |
| C71_sources_off | R X |
| C72_clamped | R X |
| C72_constraints | R X |
| C72_error | R X |
| C72_expansion | R X |
| C72_gravity | R X |
| C72_kernel | R X |
| C72_mechanical_only_refuted | R X |
| C72_no_load | R X |
| C72_outcome | R X |
| C72_semidefinite | R X |
| C72_small | R X |
| C72_solvable_refuted | R X |
| C72_solve | R X |
| C72_symmetric | R X |
| C72_unique | R X |
| C73_added | R X |
| C73_defect | R X |
| C73_elastic | R X |
| C73_equilibrium | R X |
| C73_history | R X |
| C73_imbalance | R X |
| C73_kinematic_refuted | R X |
| C73_last_load | R X |
| C73_mechanical | R X |
| C73_plastic_refuted | R X |
| C73_repeat | R X |
| C73_solidified_refuted | R X |
| C74_data_file | none |
| C74_data_file_names_differ | none |
| C74_efficiency_bounds_refuted | none |
| C74_no_assimilation | none |
| C74_no_spread | none |
| C74_parameters_used | none |
| C74_perturbation_used_refuted | none |
| C74_restart | none |
| C74_restart_continues | none |
| C74_restart_refuted | none |
| C74_sources | none |
| C75_2d_radius_refuted | C R X |
| C75_determined | R X |
| C75_ebeam_above_refuted | C R X |
| C75_ebeam_power | C R X |
| C75_ebeam_profile | C R X |
| C75_goldak_2d | C R X |
| C75_goldak_above_refuted | C R X |
| C75_goldak_power | C R X |
| C75_goldak_profile | C R X |
| C76_active_height | R X |
| C76_boundary_ids | R X |
| C76_box | R X |
| C76_box_2d | R X |
| C76_cells | R X |
| C76_divisions_refuted | R X |
| C76_imported | R X |
| C76_material | R X |
| C76_powder_height | R X |
| C76_sides | R X |
| C76_sides_covered | R X |
| C76_tiling | R X |
| C76_units_refuted | R X |
| C76_unknown_unit_refuted | R X |
| C77_energy | C R X |
| C77_first_flash_refuted | C R X |
| C77_flash_refuted | C R X |
| C77_heat_content | C R X |
| C77_part_heat | C R X |
| C77_runs | C R X |
| C77_share | C R X |
| C77_whole_path | C R X |
| C78_boxes | R X |
| C78_cells | R X |
| C78_decay | C R X |
| C78_long_step_refuted | R X |
| C78_mode | R X |
| C78_nodes | R X |
| C78_rows | R X |
| C78_run | R X |
| C78_some_step | R X |
| C78_step | R X |
| C79_boxes | R X |
| C79_flat_refuted | R X |
| C79_hanging | R X |
| C79_run | R X |
| C79_step | R X |
| C80_agreed | C R X |
| C80_complete | R X |
| C80_deviation | C R X |
| C80_kalman | C R X |
| C80_mean | R X |
| C80_mean_closer | R X |
| C80_observed_spread | C R X |
| C80_range_refuted | R X |
| C80_relations | R X |
| C80_solvable | R X |
| C80_spread | C R X |
| C80_step_spread_refuted | C R X |
| C81_accepted | R X |
| C81_application | none |
| C81_branches | R X |
| C81_complete | R X |
| C81_exact_refuted | R X |
| C81_factor | R X |
| C81_kalman | C R X |
| C81_lower_triangle | none |
| C81_rejected | R X |
| C81_sample | R X |
| C81_solvable | R X |
| C81_unique | R X |
| C82_boxes | R X |
| C82_conduction_limit_refuted | R X |
| C82_current | R X |
| C82_limit | R X |
| C82_run | R X |
| C82_step | R X |
| C83_boxes | R X |
| C83_never_colder | R X |
| C83_reached | R X |
| C83_run | R X |
| C83_step | R X |
| C84_cells | none |
| C84_device_cells | none |
| C84_device_mean | R X |
| C84_device_orientation | none |
| C84_faces | none |
| C84_faces_of_other_processes_refuted | none |
| C84_map | none |
| C84_orientation | none |
| C84_round_trip | R X |
| C84_too_few_angles | none |
| C85_bitwise_refuted | P |
| C85_heat_input | R X |
| C85_numbering | R X |
| C85_numbering_steps | R X |
| C85_same | R X |
| C85_steps | R X |
| C86_boxes | R X |
| C86_fourier | R X |
| C86_gradient | R X |
| C86_rate | R X |
| C86_steps | R X |
| C87_energy | R X |
| C87_exists | R X |
| C87_falling | R X |
| C87_heating | R X |
| C87_held | R X |
| C87_refused | R X |
| C87_superposition | R X |
| C87_supported | R X |
| C88_cut_file_is_reported_refuted | none |
| C88_deposition_file | none |
| C88_event_file | none |
| C88_number_without_comma | none |
| C88_polynomial_is_reported | none |
| C88_scan_path | none |
| C88_segment_file | none |
| C88_short_line | none |
| C88_table | none |
| C88_unknown_format_is_reported | none |
| C88_wide_deposition_lines | none |
| C88_wide_event_lines | none |
| C88_wide_segment_lines | none |
| C88_wide_table | none |
| C89_beam | C R X |
| C89_five_axis_refuted | C R X |
| C89_position | R X |
| C89_rate | R X |
| C89_run | C R X |
| C89_run_case | C R X |
| C89_step | R X |
| C90_degrees | R X |
| C90_degrees_case | R X |
| C90_every_beam | C R X |
| C90_power | C R X |
| C90_superposition | R X |
| C90_superposition_case | R X |
| C90_superposition_refuted | R X |
| C90_two_groups | C R X |
| C90_two_groups_case | C R X |
| C91_case | C R X |
| C91_equal_steps | C R X |
| C91_one_solution | C R X |
| C91_order | C R X |
| C91_solution | C R X |
| C92_balance | R X |
| C92_case | R X |
| C92_history | R X |
| C92_matrix | R X |
| C92_rhs | R X |
| C93_another_beam | C R X |
| C93_another_beam_case | C R X |
| C93_any_scheme | R X |
| C93_any_scheme_case | R X |
| C93_boxes | R X |
| C93_conduction_limit_refuted | R X |
| C93_more_power | C R X |
| C93_more_power_case | C R X |
| C93_never_below | R X |
| C93_run | R X |
| C93_run_case | R X |
| C93_step | R X |
