# What `Print Assumptions` lists

Generated by tools/axioms.py from the compiled development; 659 theorems.

## nothing (closed under the global context) — 98 theorems

C04_every_iteration_on_a_plateau, C04_plateau_boundary_binary64_refuted, C06_sawtooth_reset_binary64_refuted, C12_every_series_drawn_once, C12_panels_fit_and_are_distinct, C31_find_latest_is_the_newest, C31_listing_order_irrelevant, C31_restart_from_explicit, C31_torn_checkpoint_blocks_restart_refuted, C31_backup_file_taken_for_checkpoint_refuted, C31_empty_directory_restart_raises, C32_name_round_trip_partial, C32_names_distinct, C32_seven_digits_not_recognised_refuted, C33_resumes_own_checkpoint_partial, C33_stale_checkpoint_wins_refuted, C35_variable_restored_on_every_exit, C35_environment_unchanged, C35_mode_valid_inside, C35_mode_validation, C36_parser_defaults_rejected_refuted, C36_str2bool, C37_plain_fields_survive_partial, C37_schedule_data_survives, C42_children_are_subsections, C46_gradient_needs_forward, C49_partition, C49_loaded_not_designed, C49_pinned_sets, C49_errors, C49_facets, C49_unequal_dirichlet_groups_rejected, C49_exclude_dirichlet_breaks_partition, C49_exclude_dirichlet_covers, C49_design_mask, C50_lookup_exact, C50_recycled_id_refuted, C50_empty_boundary_lists_refused, C55_no_fallback, C55_unknown_solver, C55_fallback, C55_unknown_solver_fallback_refuted, C55_convergence_flag_ignored, C55_merge_dict, C55_merge_options, C55_spdirect_options, C55_single_load_solver, C55_auto_choice, C55_fallback_flag_ignored, C55_auto_replaces_without_permission_refuted, C55_multi_load, C56_no_load, C61_node_colours, C61_no_robin_refuted, C61_element_colours, C61_excluded_colour, C61_free_elements, C61_free_elements_refuted, C74_optimizer_recorders, C75_numbered_tags, C75_consecutive_loads, C75_dict_order, C75_refuted_equal_numbers, C75_refuted_heat_plain, C75_missing_tags_heat, C76_direction_shapes, C77_fast_matrix, C77_slow_matrix, C77_refuted_ones, C77_adjacent_elements, C77_out_of_range, C77_refuted_negative, C78_symmetric, C78_neighbours, C78_listed_once, C78_tetrahedra, C78_refuted_three_at_a_face, C78_refuted_hexahedra, C81_binding, C81_single_load_wrappers, C81_multi_load_wrappers_refuted, C81_solve_u_wrapper, C81_required_arguments, C82_written_data, C82_iteration_file, C83_frames_in_order, C83_refuted_nine_digits, C86_plot_kinds, C87_as_object_iff, C87_as_object_values, C88_readers, C91_stand_in, C97_which_mesh, C98_accessors, C98_force_nodes_refuted, C104_one_dof_refused_again, C108_element_sets, C108_sets_instance

## `ClassicalDedekindReals.sig_forall_dec` — 14 theorems

C39_mixed_entries_refused, C39_unregistered_series_imported_plain, C41_nesting_restored, C41_one_duration_per_section, C46_gradient_wrong_length, C72_design_robin_has_no_effect, C72_rejected, C72_robin_rejected, C92_enforce_outcome, C92_no_load, C92_failure_keeps_array, C99_settings_from_fields, C106_volumes_end, C107_new_optimizer

## `ClassicalDedekindReals.sig_forall_dec`, `ClassicalDedekindReals.sig_not_dec`, `Classical_Prop.classic`, `FunctionalExtensionality.functional_extensionality_dep` — 254 theorems

C01_value_outcomes, C01_target_held_from_horizon_on, C02_step_between, C02_accelerating_between, C02_decelerating_between, C02_sawtooth_between, C03_step_monotone, C03_accelerating_monotone, C03_decelerating_monotone, C04_binary64_plateau, C04_binary64_value, C04_step_value_on_plateau, C04_plateau_lengths, C05_curvature_one_is_linear, C05_curvature_order, C05_decelerating_mirrors_accelerating, C06_binary64, C06_sawtooth_linear_in_cycle, C06_sawtooth_periodic, C06_sawtooth_never_reaches_target_inside, C06_sawtooth_doc_example_refuted, C08_to_one_climbs_to_one, C09_constant_factories, C10_collection_answers_by_name, C10_key_error_iff_unknown_name, C11_exp_slowdown, C11_exp_accelerate_partial, C13_projection_strictly_increasing, C13_projection_stays_in_unit_interval, C13_full_density_almost_one, C13_symmetric_about_half, C14_projection_derivative_positive, C15_dE_simp_is_derivative_of_E_simp, C15_E_simp_is_the_analysis_modulus, C15_modulus_in_range, C15_modulus_increases, C15_simp_sensitivity_never_positive, C15_simp_sensitivity_is_compliance_derivative, C17_update_respects_bounds_and_move_limit, C17_any_multiplier_respects_bounds, C17_positive_sensitivity_gives_nan, C18_bisection_terminates_consistently, C18_loop_never_exhausts_fuel, C19_tolerance_met_or_multiplier_pinned, C19_finds_the_multiplier, C19_reported_error_is_physical, C20_candidate_monotone, C20_volume_nonincreasing_in_multiplier, C21_one_update_scale_invariant, C21_run_scale_invariant, C21_first_update_ignores_history, C21_running_scale, C22_update_reports_the_residual, C23_element_update_bounds_and_move_limit, C23_element_update_direction, C23_update_closed_form, C23_whole_update_bounds_and_move_limit, C23_whole_update_descends, C24_multiplier_always_in_bounds, C24_ema_bounded_by_largest_penalty, C24_update_applies_dual_step, C25_fresh_logmoc_run_never_fails, C25_logmoc_restart_refuted, C25_oc_restart_same_densities_refuted, C26_iteration_keeps_bounds, C26_run_keeps_bounds, C26_iteration_succeeds, C26_run_succeeds, C26_no_neumann_resets_all_densities, C26_reused_task_freezes_boundary, C26_positive_sensitivity_is_fatal, C26_ramp_positive_sensitivity, C45_kernels, C60_more_material_is_never_worse, C62_reported_sensitivity_is_the_gradient, C63_iteration_meets_the_volume, C63_multiplier_removes_material, C63_attainable_volume_is_met, C64_same_densities_same_future, C64_interrupted_run_continues, C65_kkt_volume_gradient_refuted, C66_interface_layer, C66_temperatures, C66_temperatures_without_robin, C66_single_value_holds_first_set_only, C66_different_nodes_refuted, C66_analysis_succeeds, C66_instance, C66_different_nodes_instance, C67_refusals, C68_instance, C68_superposition, C68_temperature_scale, C68_equilibrium, C68_maximum_principle, C69_without_robin_nothing_to_optimise, C70_derivative, C70_held_at_zero, C70_correct_with_true_means, C70_moving_together, C70_vertex_densities_refuted, C70_compliance_derivative, C70_correct_when_held_at_zero, C70_sign_refuted, C70_held_at_ambient, C70_instance, C71_objective_ignored, C71_average_refuted, C71_ramp_factor, C71_ramp_refuted, C72_flag_irrelevant, C72_list_of_coefficients_refuted, C73_value, C73_uniform_design_is_zero, C73_ambient_zero_refuted, C73_bounds, C73_temperature_scale_refuted, C73_weighted_mean_is_constant_refuted, C73_instance, C80_tet_refinements, C84_oc_element, C84_multiplier, C84_oc_run, C84_logmoc_element, C84_logmoc_positive_lower_bound, C84_logmoc_zero_lower_bound_refuted, C84_projection, C84_stiffness, C84_stiffness_upper_bound_refuted, C87_export_compares_equal, C88_toy_msh_names, C88_toy_msh_down, C89_balanced, C89_balanced_by_default, C89_never_above_exact, C89_more_effort_tighter, C90_converges, C93_average_adjoint, C93_average_derivative, C93_average_exact_at_zero, C93_evaluation_succeeds, C93_average_refuted, C93_exchange_adjoint, C93_black_and_white_energies, C93_exchange_derivative, C93_black_and_white_refuted, C93_compliance_energies, C93_energy_uses_last_adjoint, C93_energies_ignore_densities, C93_failed_call_keeps_adjoint, C93_instance, C94_what_is_evaluated, C94_iteration_keeps_bounds, C94_run_keeps_bounds, C94_iteration_succeeds, C94_run_succeeds, C94_compliance_iteration, C94_volume, C94_design_dirichlet_resets_all, C94_instance, C94_compliance_first_iteration_refuted, C95_iteration_keeps_bounds, C95_run_keeps_bounds, C95_iteration_succeeds, C95_fresh_run_succeeds, C95_resumed_run_refuted, C95_multiplier_follows_volume, C95_step_descends_the_lagrangian, C95_design_dirichlet_resets_all, C95_elastic_instance, C95_heat_instance, C96_start_needs_all_values, C96_unknown_interpolation_refused, C96_refused_settings_instance, C96_bracket_order_checked, C96_values_as_configured, C96_last_iteration_at_targets, C96_stops_when_converged, C96_sane_run_succeeds, C96_start, C96_every_iteration, C96_density_criterion_void, C96_sawtooth_fourth_argument_ignored, C96_final_volume, C96_default_move_limit, C96_convergence_before_targets_refuted, C99_values_as_configured, C99_stops_when_converged, C99_start, C99_fresh_run_succeeds, C99_restart_refuted, C99_start_needs_all_values, C100_start, C100_values_as_configured, C100_sane_run_succeeds, C100_stops_when_converged, C102_iteration_keeps_bounds, C102_sensitivities_nonpositive, C102_iteration_succeeds, C102_volume, C102_ramp_gains_erased, C102_heat_gains_erased, C102_logmoc_keeps_bounds, C102_logmoc_succeeds, C102_logmoc_volume_slope, C103_unknown_filter_refused, C103_oc_values_as_configured, C103_oc_start, C103_lm_start, C103_oc_run_succeeds, C103_oc_stops_when_converged, C103_lm_stops_when_converged, C103_lm_values_as_configured, C103_lm_fresh_run_succeeds, C103_lm_restart_refuted, C103_small_radius_refuted, C103_filter_type_no_string_refused, C103_refused_settings_instance, C104_analysis, C104_recorded_energy, C104_iteration, C104_run, C105_option, C105_small_sensitivities_fatal_refuted, C105_enclosed_element_fatal_refuted, C105_small_loads_fatal_refuted, C105_without_fixed_elements, C105_logmoc_removes_refuted, C107_normalized_iteration, C107_normalized_run, C107_normalized_instance, C107_analysis_by_load, C107_step_by_load, C107_opposite_steps_refuted, C108_logmoc_iteration, C108_logmoc_run, C108_logmoc_symmetric, C108_logmoc_instance, C108_analysis, C108_iteration, C108_run, C108_symmetric_designs, C108_instance, C108_diagonal_instance, C108_any_rotation_logmoc, C108_any_rotation_logmoc_instance, C108_any_rotation_filter_instance, C108_any_rotation_analysis, C108_any_rotation_run, C108_any_rotation, C108_any_rotation_instance, C108_heat_any_rotation_analysis, C108_heat_any_rotation, C108_heat_any_rotation_instance

## `ClassicalDedekindReals.sig_forall_dec`, `ClassicalDedekindReals.sig_not_dec`, `FunctionalExtensionality.functional_extensionality_dep` — 87 theorems

C11_exp_accelerate_start_refuted, C13_projection_zero_at_zero, C13_beta_zero_collapses, C14_projection_derivative_is_derivative, C14_inplace_projection_same_numbers, C14_inplace_derivative_same_numbers, C38_feed_appends_one, C38_any_history_of_feeds, C38_errors, C39_stored_summary, C39_ordered, C40_export_import_partial, C40_refuted_empty_series, C40_refuted_other_cases, C45_convex_combination, C45_bounds_and_constants, C45_no_design_element_raises, C45_monotone, C45_gaussian_weights, C45_radius_in_force, C46_adjoint, C46_total_preserved, C57_von_mises_nonnegative, C57_hydrostatic_shift, C57_hydrostatic_zero, C57_von_mises_textbook, C57_von_mises_zero_iff, C57_von_mises_scales, C57_uniaxial, C65_volume_gradient, C65_uniform_growth_rate, C74_one_process, C74_unfinished_writes_nothing, C74_completed_runs, C74_refuted_unfinished, C74_refuted_rewind, C74_fresh_run_replaces, C74_refuted_other_run, C74_refuted_retry, C79_maximum_principle, C79_well_defined, C79_solvable, C79_constants_and_order, C79_volume_kept, C79_self_adjoint, C79_gradient_is_directional, C79_chain_rule_iff, C79_refuted_hexahedra, C79_refuted_units, C80_element_helmholtz_identity, C85_volume_times_stress, C85_is_the_stress_iff_refuted, C85_refinement_dilutes_stress, C85_mean_below_peak, C85_frame_independent, C87_params_latest_iff, C89_always_answers, C89_zero_flag, C89_unconverged_refuted, C90_current_radius, C90_update_is_creation, C90_accuracy, C90_gradient_is_forward, C90_options_checked, C90_options_accepted, C90_unchecked_option_refuted, C90_stale_solver_refuted, C90_small_mesh_refuted, C90_tolerance_forgotten_refuted, C90_jacobian, C90_missing_factorisation, C91_inexact_compliance, C93_exchange_gradient, C97_right_for_one_material_only, C97_default_material_refuted, C98_distances, C98_zero_distance_means_duplicates, C98_single_element_refused, C98_succeeds, C98_design_outside_mesh_refused, C98_bars_partial, C98_absent_boundary_bar_refuted, C98_design_and_loaded_volume, C98_repeated_design_element_refuted, C98_scaled_task, C104_radius_is_not_scaled, C104_same_radius_refuted

## `ClassicalDedekindReals.sig_forall_dec`, `Classical_Prop.classic`, `FunctionalExtensionality.functional_extensionality_dep` — 7 theorems

C86_run_chart_time_share_iff, C86_run_chart_time_share_refuted, C87_compare_iff, C87_reflexive_and_blind, C88_selection, C88_toy_base, C104_heat_task_refused_after_change

## `ClassicalDedekindReals.sig_forall_dec`, `FunctionalExtensionality.functional_extensionality_dep` — 199 theorems

C01_accepted_config_builds, C06_sawtooth_every_iteration_in_a_cycle, C07_from_defaults_accepts_exactly, C07_rejections_are_ValueError, C09_from_config_repeatable, C09_classes_agree_with_factories, C09_to_one_classes_agree_with_factories, C09_constant_schedulers, C16_dE_ramp_is_derivative_refuted, C16_true_ramp_derivative, C16_dE_ramp_negative_iff, C16_ramp_sensitivity_sign_refuted, C16_ramp_sensitivity_nonpositive_partial, C16_ramp_modulus_in_range, C16_inplace_variants_agree, C19_default_settings_suffice, C22_residual_bounds_every_interior_element, C22_residual_attained_or_zero, C22_residual_below_tolerance_iff, C22_stationary_element_has_large_residual, C24_augmented_follows_volume_error, C25_scale_smoothing, C25_centred_mean_is_zero, C26_initial_densities, C27_chunked_equals_single, C28_iterations_once_in_order, C28_completed_optimizer_is_frozen, C29_stops_at_first_converged_iteration, C29_no_early_stop_when_unchecked, C29_missing_residual_raises, C30_checkpoints_exactly_when_documented, C30_record_times_out_of_range_refuted, C31_restart_after_any_crashes_partial, C34_single_step_retry_partial, C34_failed_chunk_repeats_iterations_refuted, C36_schedules_as_given_partial, C36_other_options_copied, C36_missing_step_count_rejected_refuted, C36_option_starting_with_p_lost_refuted, C36_missing_option_rejected, C36_default_schedules, C37_loaded_config_unusable_refuted, C37_neumann_scale_must_end_at_one, C42_statistics_exact, C42_self_times_partition, C42_separator_in_name_refuted, C43_running_average_is_mean, C43_returned_values, C44_sorted_permutation, C44_bad_key, C44_self_time_summary, C47_averaging_in_range, C47_node_mean_in_range, C47_constants_preserved_partial, C47_fixed_elements_refuted, C48_gradient_is_clamped_forward, C48_not_adjoint_any_sign_refuted, C48_not_adjoint_nonpositive_refuted, C48_adjoint_iff_selfadjoint_partial, C51_tet_orientation, C51_tet_idempotent, C51_hex_corner, C51_hex_repair_tangles, C52_tet_volumes, C52_tet_volumes_after_repair, C52_hex_volume_refuted, C52_hex_volume_skfem_refuted, C52_hex_ratio_partial, C53_export, C53_export_error, C54_scale_unscale_multi, C54_single_load_refuted, C54_volumes_stale, C55_config_default_spdirect, C55_config_silently_replaces_refuted, C55_config_spdirect_refuses, C55_options_of_other_backends, C56_multi_is_single, C56_scales_quadratically, C56_supports_and_sign, C56_cases_independent, C57_energy_nonnegative, C57_energy_zero_iff_strain_zero, C57_rotation_free, C57_stress_symmetric, C58_lame_recovers_young_poisson, C58_lame_positive, C58_lame_linear, C58_uniaxial_test, C59_stiffness_symmetric, C59_stiffness_semidefinite, C59_element_energy_nonnegative, C59_energies_sum_to_compliance, C59_solvable_for_every_density, C59_rigid_motion_free, C60_stiffer_is_never_worse, C60_modulus_scaling, C64_restart_restores_densities, C66_virtual_factors, C66_virtual_factors_single_point, C67_nodal_density_between, C67_what_is_averaged, C67_uniform, C67_wrong_elements_refuted, C72_coefficients_at_integration_points_refuted, C72_instance, C75_refuted_elastic_supports, C75_plain_tags, C75_missing_tags, C76_load_cases, C76_linear_and_order, C76_accepted, C79_hexahedron_volume, C80_fewest_cells, C80_bricks, C80_repair_does_nothing, C80_volumes_refuted, C82_hexahedra_refuted, C82_box_refuted, C82_right_order, C85_symmetric_and_rigid, C85_energy, C85_mean_stress, C86_pie_moving_average, C86_bar_moving_average, C86_bar_positions, C86_bars_overlap_refuted, C86_run_chart_shares, C86_stacked_rows, C86_stacked_error_iff, C86_stacked_total, C86_stacked_deep_sections_missing, C86_stacked_average_refuted, C86_stacked_self_time_refuted, C86_pie_wedges, C86_pie_values, C86_pie_error_iff, C86_pie_self_time, C87_symmetric_refuted, C87_transitive_refuted, C87_almost_symmetric, C88_toy2, C88_end_face, C88_refuted_inner_load, C88_refuted_fine_support, C88_coarse, C88_orientation, C91_options_are_used, C91_options_then_database, C91_dict_and_none, C91_prefix_selects, C91_unsupported_is_ignored_refuted, C91_spdirect_runs, C91_spdirect_overridden_refuted, C91_columns, C91_columns_exception, C91_one_dimensional, C91_missing, C91_missing_analyses, C91_flags_are_ignored_refuted, C91_step_limit_refuted, C91_elastic_multi, C91_heat_multi, C91_instance, C92_each_load_its_own_nodes, C92_same_nodes_same_result, C92_shared_matrix_refuted, C92_missing_nodes_refuted, C92_instance, C96_settings_from_fields, C96_default_config_is_sane, C97_stiffness_from_file_partial, C97_which_files, C97_refused_files, C97_default_material, C97_degenerate_materials, C97_degenerate_materials_reference, C97_degenerate_instance, C98_surface_fluxes, C99_default_config_is_sane, C101_in_range, C101_gradient_range, C101_row_coarse, C101_row_value, C101_negative_density_refuted, C103_default_config_is_sane, C104_scaled_again, C104_unscale_restores, C104_second_optimizer_refuted, C104_scaled_twice_instance, C104_unit_box, C104_kkt_tolerance, C105_fixed_elements_count_as_one, C106_orientation_any_schedule, C106_orientation_ends, C106_volumes_any_schedule, C106_tet_volumes_unchecked_refuted, C106_repair_then_volumes, C106_once_each_needed
