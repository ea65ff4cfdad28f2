{
 "claims": [
  {
   "property": "C01",
   "status": "proved",
   "theorems": [
    "C01_accepted_config_builds",
    "C01_value_outcomes",
    "C01_target_held_from_horizon_on"
   ],
   "note": "All types; the two documented exceptional cases (sawtooth with num_steps=0, non-positive curvature) are part of the theorem."
  },
  {
   "property": "C02",
   "status": "proved",
   "theorems": [
    "C02_step_between",
    "C02_accelerating_between",
    "C02_decelerating_between",
    "C02_sawtooth_between"
   ],
   "note": ""
  },
  {
   "property": "C03",
   "status": "proved",
   "theorems": [
    "C03_step_monotone",
    "C03_accelerating_monotone",
    "C03_decelerating_monotone"
   ],
   "note": ""
  },
  {
   "property": "C04",
   "status": "proved",
   "theorems": [
    "C04_binary64_plateau",
    "C04_binary64_value",
    "C04_step_value_on_plateau",
    "C04_every_iteration_on_a_plateau",
    "C04_plateau_lengths",
    "C04_plateau_boundary_binary64_refuted"
   ],
   "note": "Exact arithmetic and binary64 (complete classification; C04_plateau_boundary_binary64_refuted shows the moved boundary does occur)."
  },
  {
   "property": "C05",
   "status": "proved",
   "theorems": [
    "C05_curvature_one_is_linear",
    "C05_curvature_order",
    "C05_decelerating_mirrors_accelerating"
   ],
   "note": ""
  },
  {
   "property": "C06",
   "status": "partial",
   "theorems": [
    "C06_binary64",
    "C06_sawtooth_linear_in_cycle",
    "C06_sawtooth_every_iteration_in_a_cycle",
    "C06_sawtooth_periodic",
    "C06_sawtooth_never_reaches_target_inside",
    "C06_sawtooth_doc_example_refuted",
    "C06_sawtooth_reset_binary64_refuted"
   ],
   "note": "Linear interpolation and periodicity proved in exact arithmetic, and classified in binary64 (C06_binary64); the docstring example is refuted, as is the reset at the cycle start in binary64."
  },
  {
   "property": "C07",
   "status": "proved",
   "theorems": [
    "C07_from_defaults_accepts_exactly",
    "C07_rejections_are_ValueError"
   ],
   "note": ""
  },
  {
   "property": "C08",
   "status": "proved",
   "theorems": [
    "C08_to_one_climbs_to_one"
   ],
   "note": ""
  },
  {
   "property": "C09",
   "status": "proved",
   "theorems": [
    "C09_from_config_repeatable",
    "C09_classes_agree_with_factories",
    "C09_to_one_classes_agree_with_factories",
    "C09_constant_factories",
    "C09_constant_schedulers"
   ],
   "note": ""
  },
  {
   "property": "C10",
   "status": "proved",
   "theorems": [
    "C10_collection_answers_by_name",
    "C10_key_error_iff_unknown_name"
   ],
   "note": ""
  },
  {
   "property": "C11",
   "status": "partial",
   "theorems": [
    "C11_exp_slowdown",
    "C11_exp_accelerate_partial",
    "C11_exp_accelerate_start_refuted"
   ],
   "note": "accelerate(0)=init is false (C11_exp_accelerate_start_refuted); everything else proved."
  },
  {
   "property": "C12",
   "status": "proved",
   "theorems": [
    "C12_every_series_drawn_once",
    "C12_panels_fit_and_are_distinct"
   ],
   "note": ""
  },
  {
   "property": "C13",
   "status": "proved",
   "theorems": [
    "C13_projection_zero_at_zero",
    "C13_projection_strictly_increasing",
    "C13_projection_stays_in_unit_interval",
    "C13_full_density_almost_one",
    "C13_symmetric_about_half",
    "C13_beta_zero_collapses"
   ],
   "note": "Exact reals, 0<beta, 0<=eta<=1. beta=0 collapses to 0 (C13_beta_zero_collapses)."
  },
  {
   "property": "C14",
   "status": "proved",
   "theorems": [
    "C14_projection_derivative_is_derivative",
    "C14_projection_derivative_positive",
    "C14_inplace_projection_same_numbers",
    "C14_inplace_derivative_same_numbers"
   ],
   "note": "In-place variants modelled on a heap of buffers, including out=rho."
  },
  {
   "property": "C15",
   "status": "proved",
   "theorems": [
    "C15_dE_simp_is_derivative_of_E_simp",
    "C15_E_simp_is_the_analysis_modulus",
    "C15_modulus_in_range",
    "C15_modulus_increases",
    "C15_simp_sensitivity_never_positive",
    "C15_simp_sensitivity_is_compliance_derivative"
   ],
   "note": "Includes the full adjoint argument: dC_drho_simp is the derivative of the compliance of any symmetric linear system."
  },
  {
   "property": "C16",
   "status": "partial",
   "theorems": [
    "C16_dE_ramp_is_derivative_refuted",
    "C16_true_ramp_derivative",
    "C16_dE_ramp_negative_iff",
    "C16_ramp_sensitivity_sign_refuted",
    "C16_ramp_sensitivity_nonpositive_partial",
    "C16_ramp_modulus_in_range",
    "C16_inplace_variants_agree"
   ],
   "note": "REFUTED: dE_drho_ramp is not the derivative (derivatives.py:62) for any p>0, rho>0, and is negative where 2*p*rho>1+p; sign and range results hold where stated."
  },
  {
   "property": "C17",
   "status": "proved",
   "theorems": [
    "C17_update_respects_bounds_and_move_limit",
    "C17_any_multiplier_respects_bounds",
    "C17_positive_sensitivity_gives_nan"
   ],
   "note": ""
  },
  {
   "property": "C18",
   "status": "proved",
   "theorems": [
    "C18_bisection_terminates_consistently",
    "C18_loop_never_exhausts_fuel"
   ],
   "note": ""
  },
  {
   "property": "C19",
   "status": "proved",
   "theorems": [
    "C19_tolerance_met_or_multiplier_pinned",
    "C19_default_settings_suffice",
    "C19_finds_the_multiplier",
    "C19_reported_error_is_physical"
   ],
   "note": "Includes that an exact multiplier in the bracket is found when the filter is monotone."
  },
  {
   "property": "C20",
   "status": "proved",
   "theorems": [
    "C20_candidate_monotone",
    "C20_volume_nonincreasing_in_multiplier"
   ],
   "note": ""
  },
  {
   "property": "C21",
   "status": "proved",
   "theorems": [
    "C21_one_update_scale_invariant",
    "C21_run_scale_invariant",
    "C21_first_update_ignores_history",
    "C21_running_scale"
   ],
   "note": ""
  },
  {
   "property": "C22",
   "status": "proved",
   "theorems": [
    "C22_residual_bounds_every_interior_element",
    "C22_residual_attained_or_zero",
    "C22_residual_below_tolerance_iff",
    "C22_update_reports_the_residual",
    "C22_stationary_element_has_large_residual"
   ],
   "note": "All of the statement. C22_stationary_element_has_large_residual is an additional observation: the residual does not vanish where the OC update is stationary."
  },
  {
   "property": "C23",
   "status": "proved",
   "theorems": [
    "C23_element_update_bounds_and_move_limit",
    "C23_element_update_direction",
    "C23_update_closed_form",
    "C23_whole_update_bounds_and_move_limit",
    "C23_whole_update_descends"
   ],
   "note": ""
  },
  {
   "property": "C24",
   "status": "proved",
   "theorems": [
    "C24_multiplier_always_in_bounds",
    "C24_ema_bounded_by_largest_penalty",
    "C24_augmented_follows_volume_error",
    "C24_update_applies_dual_step"
   ],
   "note": ""
  },
  {
   "property": "C25",
   "status": "partial",
   "theorems": [
    "C25_fresh_logmoc_run_never_fails",
    "C25_logmoc_restart_refuted",
    "C25_oc_restart_same_densities_refuted",
    "C25_scale_smoothing",
    "C25_centred_mean_is_zero"
   ],
   "note": "REFUTED: LogMOC restart raises AttributeError (running_scale missing); OC restart resets running_scale and gives different densities. Fresh runs proved fine."
  },
  {
   "property": "C26",
   "status": "partial",
   "theorems": [
    "C26_initial_densities",
    "C26_iteration_keeps_bounds",
    "C26_run_keeps_bounds",
    "C26_iteration_succeeds",
    "C26_run_succeeds",
    "C26_no_neumann_resets_all_densities",
    "C26_reused_task_freezes_boundary",
    "C26_positive_sensitivity_is_fatal",
    "C26_ramp_positive_sensitivity"
   ],
   "note": "Proved for initialisation, restart, every accepted iteration (any interpolation, any solver) and whole runs, and that a run never fails with SIMP or with RAMP and p <= 1, for tasks prepared by this optimizer that have a Neumann boundary or design_dirichlet=False. REFUTED otherwise: without a Neumann boundary and design_dirichlet=True every density is overwritten by 1 in each iteration; a task already used with design_dirichlet=False keeps boundary elements at the initial volume fraction (0 after restart); RAMP with p > 1 yields positive sensitivities and NaN densities."
  },
  {
   "property": "C27",
   "status": "proved",
   "theorems": [
    "C27_chunked_equals_single"
   ],
   "note": "Any list of calls (steps of any size, also non-positive, repeated optimize) before the final optimize; hypothesis only that the single run does not raise."
  },
  {
   "property": "C28",
   "status": "proved",
   "theorems": [
    "C28_iterations_once_in_order",
    "C28_completed_optimizer_is_frozen"
   ],
   "note": "All call sequences that raise nothing; a failed call is C34."
  },
  {
   "property": "C29",
   "status": "proved",
   "theorems": [
    "C29_stops_at_first_converged_iteration",
    "C29_no_early_stop_when_unchecked",
    "C29_missing_residual_raises"
   ],
   "note": "Both directions, and the error when no residual was computed."
  },
  {
   "property": "C30",
   "status": "partial",
   "theorems": [
    "C30_checkpoints_exactly_when_documented",
    "C30_record_times_out_of_range_refuted"
   ],
   "note": "Exact set of checkpoints proved; REFUTED: record_times > max_iters or 0 raises ZeroDivisionError in the first iteration (common_density.py:1189)."
  },
  {
   "property": "C31",
   "status": "partial",
   "theorems": [
    "C31_find_latest_is_the_newest",
    "C31_listing_order_irrelevant",
    "C31_restart_after_any_crashes_partial",
    "C31_restart_from_explicit",
    "C31_torn_checkpoint_blocks_restart_refuted",
    "C31_backup_file_taken_for_checkpoint_refuted",
    "C31_empty_directory_restart_raises"
   ],
   "note": "Any number of crashed sessions, any listing order, crash anywhere except inside the checkpoint write; REFUTED for a crash inside np.savez (torn newest file blocks restart) and for files that merely start like a checkpoint."
  },
  {
   "property": "C32",
   "status": "partial",
   "theorems": [
    "C32_name_round_trip_partial",
    "C32_names_distinct",
    "C32_seven_digits_not_recognised_refuted"
   ],
   "note": "Proved below 10^6; REFUTED from 10^6 on (misc.py:9 matches exactly six digits)."
  },
  {
   "property": "C33",
   "status": "partial",
   "theorems": [
    "C33_resumes_own_checkpoint_partial",
    "C33_stale_checkpoint_wins_refuted"
   ],
   "note": "Holds if the new run has got at least as far as the stale files; REFUTED otherwise (data/ is kept, common_density.py:553-556)."
  },
  {
   "property": "C34",
   "status": "partial",
   "theorems": [
    "C34_single_step_retry_partial",
    "C34_failed_chunk_repeats_iterations_refuted"
   ],
   "note": "Single-step retries proved; REFUTED for chunks: _iter_next stays at the start of the failed chunk (line 1240 is skipped)."
  },
  {
   "property": "C35",
   "status": "proved",
   "theorems": [
    "C35_variable_restored_on_every_exit",
    "C35_environment_unchanged",
    "C35_mode_valid_inside",
    "C35_mode_validation"
   ],
   "note": "Guard modelled as a wrapper around an arbitrary environment-changing run that returns or raises."
  },
  {
   "property": "C36",
   "status": "partial",
   "theorems": [
    "C36_schedules_as_given_partial",
    "C36_other_options_copied",
    "C36_parser_defaults_rejected_refuted",
    "C36_missing_step_count_rejected_refuted",
    "C36_option_starting_with_p_lost_refuted",
    "C36_missing_option_rejected",
    "C36_default_schedules",
    "C36_str2bool"
   ],
   "note": "Mapping and copying proved for every argument dict; REFUTED: the parser defaults (step counts None) raise ValueError, and options starting with p are dropped (misc.py:194-201)."
  },
  {
   "property": "C37",
   "status": "partial",
   "theorems": [
    "C37_plain_fields_survive_partial",
    "C37_schedule_data_survives",
    "C37_loaded_config_unusable_refuted",
    "C37_neumann_scale_must_end_at_one"
   ],
   "note": "Plain fields survive; REFUTED for every configuration: schedules come back as dicts and init_schedulers raises AttributeError."
  },
  {
   "property": "C38",
   "status": "proved",
   "theorems": [
    "C38_feed_appends_one",
    "C38_any_history_of_feeds",
    "C38_errors"
   ],
   "note": "Single feeds and arbitrary feed sequences; latest; KeyError/ValueError cases characterised."
  },
  {
   "property": "C39",
   "status": "proved",
   "theorems": [
    "C39_stored_summary",
    "C39_ordered",
    "C39_mixed_entries_refused",
    "C39_unregistered_series_imported_plain"
   ],
   "note": "Stored entry is exactly the min/mean/max(/std) summary; 0 <= std <= (max-min)/2."
  },
  {
   "property": "C40",
   "status": "partial",
   "theorems": [
    "C40_export_import_partial",
    "C40_refuted_empty_series",
    "C40_refuted_other_cases"
   ],
   "note": "Proved for every recorder built by add and any homogeneous feed history: fed series survive unchanged and if all were fed the collection is identical. Full claim refuted: unfed series, *_header names, a series called file, and mixed scalar/array series."
  },
  {
   "property": "C41",
   "status": "proved",
   "theorems": [
    "C41_nesting_restored",
    "C41_one_duration_per_section"
   ],
   "note": "All finite executions (trees of nested sections with raises/catches, add, reset), any clock, any starting stack."
  },
  {
   "property": "C42",
   "status": "proved",
   "theorems": [
    "C42_statistics_exact",
    "C42_self_times_partition",
    "C42_children_are_subsections",
    "C42_separator_in_name_refuted"
   ],
   "note": "Statistics for any execution; self-time partition for one-character separators and names free of it, as the property states (C42_separator_in_name_refuted shows the restriction is needed)."
  },
  {
   "property": "C43",
   "status": "proved",
   "theorems": [
    "C43_running_average_is_mean",
    "C43_returned_values"
   ],
   "note": "Any sequence of updates and resets; also the returned list."
  },
  {
   "property": "C44",
   "status": "proved",
   "theorems": [
    "C44_sorted_permutation",
    "C44_bad_key",
    "C44_self_time_summary"
   ],
   "note": "Permutation, order, stability in both directions; ValueError exactly for undocumented keys."
  },
  {
   "property": "C45",
   "status": "proved",
   "theorems": [
    "C45_convex_combination",
    "C45_bounds_and_constants",
    "C45_no_design_element_raises",
    "C45_monotone",
    "C45_gaussian_weights",
    "C45_radius_in_force",
    "C45_kernels"
   ],
   "note": "Weights characterised exactly (positive iff within radius and design, sum 1, gaussian with sigma = radius/3); forward always uses the radius set last; also a monotone_filter so C19/C20 apply. radius = 0 not modelled; scipy query_ball_point contract trusted."
  },
  {
   "property": "C46",
   "status": "proved",
   "theorems": [
    "C46_adjoint",
    "C46_gradient_needs_forward",
    "C46_total_preserved",
    "C46_gradient_wrong_length"
   ],
   "note": "Adjoint of the forward map last evaluated, also after update_radius; AttributeError before any forward."
  },
  {
   "property": "C47",
   "status": "partial",
   "theorems": [
    "C47_averaging_in_range",
    "C47_node_mean_in_range",
    "C47_constants_preserved_partial",
    "C47_fixed_elements_refuted"
   ],
   "note": "Proved without fixed elements and for the constant 1; REFUTED with fixed elements for every radius (C47_fixed_elements_refuted). FEM matrices abstract: M positive definite, K semidefinite with zero row sums; result of any correct linear solver."
  },
  {
   "property": "C48",
   "status": "partial",
   "theorems": [
    "C48_gradient_is_clamped_forward",
    "C48_not_adjoint_any_sign_refuted",
    "C48_not_adjoint_nonpositive_refuted",
    "C48_adjoint_iff_selfadjoint_partial"
   ],
   "note": "REFUTED twice: positive sensitivities are clamped to 0 (every mesh), and the operator is the forward filter rather than its transpose (concrete kite mesh, non-positive v)."
  },
  {
   "property": "C49",
   "status": "proved",
   "theorems": [
    "C49_partition",
    "C49_loaded_not_designed",
    "C49_pinned_sets",
    "C49_errors",
    "C49_facets",
    "C49_unequal_dirichlet_groups_rejected",
    "C49_exclude_dirichlet_breaks_partition",
    "C49_exclude_dirichlet_covers",
    "C49_design_mask"
   ],
   "note": "Exactly-once claim needs the requested design ids to be valid and distinct (stated). FINDINGS: Dirichlet groups of unequal size raise ValueError (task_common.py:161); exlude_dirichlet_from_design leaves elements in neither set."
  },
  {
   "property": "C50",
   "status": "partial",
   "theorems": [
    "C50_lookup_exact",
    "C50_recycled_id_refuted",
    "C50_empty_boundary_lists_refused"
   ],
   "note": "Proved for every call history in which an id always denotes the same mesh; REFUTED when a freed mesh's id is reused (cache keyed by id(mesh), utils.py:203-213)."
  },
  {
   "property": "C51",
   "status": "proved",
   "theorems": [
    "C51_tet_orientation",
    "C51_tet_idempotent",
    "C51_hex_corner",
    "C51_hex_repair_tangles"
   ],
   "note": "Tetrahedra in full. Hexahedra: corner determinant, vertex set, idempotence; FINDING: swapping nodes 1 and 3 only leaves every left-handed box tangled (utils.py:50-52)."
  },
  {
   "property": "C52",
   "status": "partial",
   "theorems": [
    "C52_tet_volumes",
    "C52_tet_volumes_after_repair",
    "C52_hex_volume_refuted",
    "C52_hex_volume_skfem_refuted",
    "C52_hex_ratio_partial"
   ],
   "note": "Tetrahedra exact, also after repair. REFUTED for hexahedra: every parallelepiped gives 7/6 of its volume in the numbering of the source's drawing and 5/6 in scikit-fem's numbering (composer.py:224-246); ratios still right for boxes."
  },
  {
   "property": "C53",
   "status": "proved",
   "theorems": [
    "C53_export",
    "C53_export_error"
   ],
   "note": "Any mesh, design set, density, threshold; also no vertex duplicated or unused; error exactly when nothing is solid."
  },
  {
   "property": "C54",
   "status": "partial",
   "theorems": [
    "C54_scale_unscale_multi",
    "C54_single_load_refuted",
    "C54_volumes_stale"
   ],
   "note": "Several loads: exact. REFUTED for a single load: n_tasks becomes the number of dofs after scale() (task_elastic.py:117-125); element volumes are not rescaled."
  },
  {
   "property": "C55",
   "status": "partial",
   "theorems": [
    "C55_no_fallback",
    "C55_unknown_solver",
    "C55_fallback",
    "C55_unknown_solver_fallback_refuted",
    "C55_convergence_flag_ignored",
    "C55_merge_dict",
    "C55_merge_options",
    "C55_spdirect_options",
    "C55_single_load_solver",
    "C55_auto_choice",
    "C55_fallback_flag_ignored",
    "C55_auto_replaces_without_permission_refuted",
    "C55_multi_load",
    "C55_config_default_spdirect",
    "C55_config_silently_replaces_refuted",
    "C55_config_spdirect_refuses",
    "C55_options_of_other_backends"
   ],
   "note": "Proved: no replacement when fallback is not allowed, PETSc merging, spdirect validation. REFUTED parts: with fallback allowed an unknown name is silently solved directly; the convergence flag is ignored; the single-load path ignores the caller's fallback flag ('auto' always falls back); the PETSc config silently replaces explicit cg/gamg for petsc_spdirect."
  },
  {
   "property": "C56",
   "status": "proved",
   "theorems": [
    "C56_multi_is_single",
    "C56_scales_quadratically",
    "C56_supports_and_sign",
    "C56_no_load",
    "C56_cases_independent"
   ],
   "note": "Any solvers that solve the enforced system (numerical error not modelled); supports must exclude zero-energy motions."
  },
  {
   "property": "C57",
   "status": "proved",
   "theorems": [
    "C57_von_mises_nonnegative",
    "C57_hydrostatic_shift",
    "C57_hydrostatic_zero",
    "C57_von_mises_textbook",
    "C57_von_mises_zero_iff",
    "C57_von_mises_scales",
    "C57_uniaxial",
    "C57_energy_nonnegative",
    "C57_energy_zero_iff_strain_zero",
    "C57_rotation_free",
    "C57_stress_symmetric"
   ],
   "note": "Full."
  },
  {
   "property": "C58",
   "status": "proved",
   "theorems": [
    "C58_lame_recovers_young_poisson",
    "C58_lame_positive",
    "C58_lame_linear",
    "C58_uniaxial_test"
   ],
   "note": "Full."
  },
  {
   "property": "C59",
   "status": "proved",
   "theorems": [
    "C59_stiffness_symmetric",
    "C59_stiffness_semidefinite",
    "C59_element_energy_nonnegative",
    "C59_energies_sum_to_compliance",
    "C59_solvable_for_every_density",
    "C59_rigid_motion_free"
   ],
   "note": "scikit-fem abstracted to quadrature weights and basis gradients (weights >= 0)."
  },
  {
   "property": "C60",
   "status": "proved",
   "theorems": [
    "C60_stiffer_is_never_worse",
    "C60_more_material_is_never_worse",
    "C60_modulus_scaling"
   ],
   "note": "Any equilibrium states (existence not assumed of the theorem's user beyond the solver returning one)."
  },
  {
   "property": "C61",
   "status": "partial",
   "theorems": [
    "C61_node_colours",
    "C61_no_robin_refuted",
    "C61_element_colours",
    "C61_excluded_colour",
    "C61_free_elements",
    "C61_free_elements_refuted"
   ],
   "note": "Nodes proved when all three boundaries exist, elements proved for the domain as built. REFUTED: without a Robin boundary (all elastic tasks) every node is written as 3; elements taken out by exlude_dirichlet_from_design show as free or 0; free_elements uses dof numbers as node numbers and can miss a wholly free element."
  },
  {
   "property": "C62",
   "status": "proved",
   "theorems": [
    "C62_reported_sensitivity_is_the_gradient"
   ],
   "note": "Exact reals; linear solvers assumed to solve the supported systems; projected design densities above the 1e-6 floor; spatial filter, elastic problem. RAMP excluded (C16 refutes its derivative)."
  },
  {
   "property": "C63",
   "status": "proved",
   "theorems": [
    "C63_iteration_meets_the_volume",
    "C63_multiplier_removes_material",
    "C63_attainable_volume_is_met"
   ],
   "note": "Exact reals. The tolerances 1e-4 and 1e-5 are the code's constants."
  },
  {
   "property": "C64",
   "status": "proved",
   "theorems": [
    "C64_restart_restores_densities",
    "C64_same_densities_same_future",
    "C64_interrupted_run_continues"
   ],
   "note": "Proved for equal running scale. The code does not store running_scale: what then differs is C25."
  },
  {
   "property": "C65",
   "status": "partial",
   "theorems": [
    "C65_volume_gradient",
    "C65_uniform_growth_rate",
    "C65_kkt_volume_gradient_refuted"
   ],
   "note": "REFUTED: the code uses v/V (no filter, no projection slope). The true gradient is proved (C65_volume_gradient); for uniform designs at the threshold and beta >= 3 the code is off by more than 25 percent (C65_kkt_volume_gradient_refuted)."
  },
  {
   "property": "C66",
   "status": "proved",
   "theorems": [
    "C66_interface_layer",
    "C66_temperatures",
    "C66_temperatures_without_robin",
    "C66_single_value_holds_first_set_only",
    "C66_different_nodes_refuted",
    "C66_analysis_succeeds",
    "C66_instance",
    "C66_different_nodes_instance",
    "C66_virtual_factors",
    "C66_virtual_factors_single_point"
   ],
   "note": "Exact reals, exact linear solver. Includes the refutation for load cases with different node sets (C66_different_nodes_refuted, with an instance)."
  },
  {
   "property": "C67",
   "status": "proved",
   "theorems": [
    "C67_nodal_density_between",
    "C67_what_is_averaged",
    "C67_uniform",
    "C67_wrong_elements_refuted",
    "C67_refusals"
   ],
   "note": "Includes the refutation: two hexahedra in scikit-fem's node order exchange their densities (C67_wrong_elements_refuted)."
  },
  {
   "property": "C68",
   "status": "proved",
   "theorems": [
    "C68_instance",
    "C68_superposition",
    "C68_temperature_scale",
    "C68_equilibrium",
    "C68_maximum_principle"
   ],
   "note": "C68_instance meets the hypotheses of the maximum principle."
  },
  {
   "property": "C69",
   "status": "proved",
   "theorems": [
    "C69_without_robin_nothing_to_optimise"
   ],
   "note": ""
  },
  {
   "property": "C70",
   "status": "proved",
   "theorems": [
    "C70_derivative",
    "C70_held_at_zero",
    "C70_correct_with_true_means",
    "C70_moving_together",
    "C70_vertex_densities_refuted",
    "C70_compliance_derivative",
    "C70_correct_when_held_at_zero",
    "C70_sign_refuted",
    "C70_held_at_ambient",
    "C70_instance"
   ],
   "note": "Exact derivative for every design with densities in (0,1) and every direction in which the interface layer is differentiable (C70_derivative), every held temperature. Refutations with instances: wrong sign for |g|>|A| (C70_sign_refuted, C70_instance: -3 times the reported value); wrong vertex densities (C70_vertex_densities_refuted). Exact reals, exact linear solver."
  },
  {
   "property": "C71",
   "status": "proved",
   "theorems": [
    "C71_objective_ignored",
    "C71_average_refuted",
    "C71_ramp_factor",
    "C71_ramp_refuted"
   ],
   "note": "Refutations with instances."
  },
  {
   "property": "C72",
   "status": "proved",
   "theorems": [
    "C72_design_robin_has_no_effect",
    "C72_flag_irrelevant",
    "C72_rejected",
    "C72_robin_rejected",
    "C72_list_of_coefficients_refuted",
    "C72_coefficients_at_integration_points_refuted",
    "C72_instance"
   ],
   "note": "The objective's own array conversions of list arguments (np.full) are modelled up to length errors."
  },
  {
   "property": "C73",
   "status": "proved",
   "theorems": [
    "C73_value",
    "C73_uniform_design_is_zero",
    "C73_ambient_zero_refuted",
    "C73_bounds",
    "C73_temperature_scale_refuted",
    "C73_weighted_mean_is_constant_refuted",
    "C73_instance"
   ],
   "note": "Refutations with instance C73_instance."
  },
  {
   "property": "C74",
   "status": "proved",
   "theorems": [
    "C74_one_process",
    "C74_unfinished_writes_nothing",
    "C74_completed_runs",
    "C74_refuted_unfinished",
    "C74_refuted_rewind",
    "C74_fresh_run_replaces",
    "C74_refuted_other_run",
    "C74_optimizer_recorders",
    "C74_refuted_retry"
   ],
   "note": "Recorder contents abstracted to the iteration numbers they belong to. Includes the refutations of the plain reading (one entry per iteration in all cases)."
  },
  {
   "property": "C75",
   "status": "proved",
   "theorems": [
    "C75_numbered_tags",
    "C75_consecutive_loads",
    "C75_dict_order",
    "C75_refuted_equal_numbers",
    "C75_refuted_elastic_supports",
    "C75_refuted_heat_plain",
    "C75_plain_tags",
    "C75_missing_tags",
    "C75_missing_tags_heat"
   ],
   "note": "ASCII digits. Includes the refutations (typo in the elastic support pattern, plain dirichlet tag on heat meshes, equal numbers)."
  },
  {
   "property": "C76",
   "status": "proved",
   "theorems": [
    "C76_load_cases",
    "C76_linear_and_order",
    "C76_accepted",
    "C76_direction_shapes"
   ],
   "note": "Facet integrals abstract: areas positive, nodal integrals of the shape functions add up to the area (partition of unity); exact reals."
  },
  {
   "property": "C77",
   "status": "proved",
   "theorems": [
    "C77_fast_matrix",
    "C77_slow_matrix",
    "C77_refuted_ones",
    "C77_adjacent_elements",
    "C77_out_of_range",
    "C77_refuted_negative"
   ],
   "note": "csr_matrix adds duplicates modulo 256 (uint8). Includes the refutations of the documented 'A[i,j]=1' and of the agreement for negative numbers."
  },
  {
   "property": "C78",
   "status": "proved",
   "theorems": [
    "C78_symmetric",
    "C78_neighbours",
    "C78_listed_once",
    "C78_tetrahedra",
    "C78_refuted_three_at_a_face",
    "C78_refuted_hexahedra"
   ],
   "note": "Includes the refutations (faces with three owners; scikit-fem's hexahedra)."
  },
  {
   "property": "C79",
   "status": "proved",
   "theorems": [
    "C79_maximum_principle",
    "C79_well_defined",
    "C79_solvable",
    "C79_constants_and_order",
    "C79_volume_kept",
    "C79_self_adjoint",
    "C79_gradient_is_directional",
    "C79_chain_rule_iff",
    "C79_refuted_hexahedra",
    "C79_refuted_units",
    "C79_hexahedron_volume"
   ],
   "note": "Exact reals; the iterative solvers are taken to return a solution. Includes the refutations (chain rule on graded meshes with C79_instance, hexahedra, units of length)."
  },
  {
   "property": "C80",
   "status": "proved",
   "theorems": [
    "C80_fewest_cells",
    "C80_bricks",
    "C80_repair_does_nothing",
    "C80_volumes_refuted",
    "C80_element_helmholtz_identity",
    "C80_tet_refinements"
   ],
   "note": "Exact reals. skfem's init_tensor and refined are modelled (their node numbering is an external contract). Includes the refutations (volumes, filter)."
  },
  {
   "property": "C81",
   "status": "proved",
   "theorems": [
    "C81_binding",
    "C81_single_load_wrappers",
    "C81_multi_load_wrappers_refuted",
    "C81_solve_u_wrapper",
    "C81_required_arguments"
   ],
   "note": "Includes the refutation of the multi load wrappers."
  },
  {
   "property": "C82",
   "status": "proved",
   "theorems": [
    "C82_written_data",
    "C82_iteration_file",
    "C82_hexahedra_refuted",
    "C82_box_refuted",
    "C82_right_order"
   ],
   "note": "meshio is modelled by the arguments it gets and by its length check. Includes the refutation for hexahedra; C82_right_order shows the permutation that would be right."
  },
  {
   "property": "C83",
   "status": "proved",
   "theorems": [
    "C83_frames_in_order",
    "C83_refuted_nine_digits"
   ],
   "note": "Prefixes and paths without wildcards. Includes the refutation from 10^8 on."
  },
  {
   "property": "C84",
   "status": "proved",
   "theorems": [
    "C84_oc_element",
    "C84_multiplier",
    "C84_oc_run",
    "C84_logmoc_element",
    "C84_logmoc_positive_lower_bound",
    "C84_logmoc_zero_lower_bound_refuted",
    "C84_projection",
    "C84_stiffness",
    "C84_stiffness_upper_bound_refuted"
   ],
   "note": "Flocq's binary64, round to nearest even. libm functions are parameters with the sanity conditions in the statement. Includes the refutations (LogMOC with rho_min = 0, E <= E0)."
  },
  {
   "property": "C85",
   "status": "proved",
   "theorems": [
    "C85_volume_times_stress",
    "C85_is_the_stress_iff_refuted",
    "C85_refinement_dilutes_stress",
    "C85_mean_below_peak",
    "C85_frame_independent",
    "C85_symmetric_and_rigid",
    "C85_energy",
    "C85_mean_stress"
   ],
   "note": "The statement describes the code; the docstring's reading (values are stresses) is refuted by C85_is_the_stress_iff_refuted."
  },
  {
   "property": "C86",
   "status": "proved",
   "theorems": [
    "C86_pie_moving_average",
    "C86_bar_moving_average",
    "C86_bar_positions",
    "C86_bars_overlap_refuted",
    "C86_run_chart_shares",
    "C86_run_chart_time_share_iff",
    "C86_run_chart_time_share_refuted",
    "C86_stacked_rows",
    "C86_stacked_error_iff",
    "C86_stacked_total",
    "C86_stacked_deep_sections_missing",
    "C86_stacked_average_refuted",
    "C86_stacked_self_time_refuted",
    "C86_pie_wedges",
    "C86_pie_values",
    "C86_pie_error_iff",
    "C86_pie_self_time",
    "C86_plot_kinds"
   ],
   "note": "One-character separators. matplotlib's contract: pie divides by the sum and rejects negative sizes, a categorical axis gives equal labels one position. The statement describes the code, with the refuted readings (..._refuted) as part of it."
  },
  {
   "property": "C87",
   "status": "proved",
   "theorems": [
    "C87_as_object_iff",
    "C87_as_object_values",
    "C87_params_latest_iff",
    "C87_compare_iff",
    "C87_reflexive_and_blind",
    "C87_symmetric_refuted",
    "C87_transitive_refuted",
    "C87_almost_symmetric",
    "C87_export_compares_equal"
   ],
   "note": "Values are real numbers (no NaN). Symmetry and transitivity of the comparison are refuted."
  },
  {
   "property": "C88",
   "status": "proved",
   "theorems": [
    "C88_toy2",
    "C88_selection",
    "C88_end_face",
    "C88_toy_base",
    "C88_refuted_inner_load",
    "C88_refuted_fine_support",
    "C88_coarse",
    "C88_readers",
    "C88_toy_msh_names",
    "C88_toy_msh_down",
    "C88_orientation"
   ],
   "note": "scikit-fem's facet enumeration is any list naming each hexahedron face once; ranges and lengths are real numbers. 'The load acts on the surface only', 'only x = 0 is clamped' for very fine meshes and 'every named problem can be built' are refuted."
  },
  {
   "property": "C89",
   "status": "proved",
   "theorems": [
    "C89_always_answers",
    "C89_balanced",
    "C89_balanced_by_default",
    "C89_never_above_exact",
    "C89_more_effort_tighter",
    "C89_zero_flag",
    "C89_unconverged_refuted"
   ],
   "note": "Exact arithmetic. scipy.sparse.linalg.cg is modelled from its published algorithm (SciPy >= 1.12), not from /repo. 'A result that did not converge is reported' is refuted."
  },
  {
   "property": "C90",
   "status": "proved",
   "theorems": [
    "C90_current_radius",
    "C90_update_is_creation",
    "C90_accuracy",
    "C90_converges",
    "C90_gradient_is_forward",
    "C90_options_checked",
    "C90_options_accepted",
    "C90_unchecked_option_refuted",
    "C90_stale_solver_refuted",
    "C90_small_mesh_refuted",
    "C90_tolerance_forgotten_refuted",
    "C90_jacobian",
    "C90_missing_factorisation"
   ],
   "note": "SuperLU is any exact solver for systems with one solution, PyAMG any function of the matrix it was built from. Objects constructed without matrices are not modelled. Small meshes, assignment to solver_option and forgotten tolerances are refutations."
  },
  {
   "property": "C91",
   "status": "proved",
   "theorems": [
    "C91_options_are_used",
    "C91_options_then_database",
    "C91_dict_and_none",
    "C91_prefix_selects",
    "C91_unsupported_is_ignored_refuted",
    "C91_spdirect_runs",
    "C91_spdirect_overridden_refuted",
    "C91_columns",
    "C91_columns_exception",
    "C91_one_dimensional",
    "C91_missing",
    "C91_missing_analyses",
    "C91_stand_in",
    "C91_flags_are_ignored_refuted",
    "C91_step_limit_refuted",
    "C91_elastic_multi",
    "C91_heat_multi",
    "C91_inexact_compliance",
    "C91_instance"
   ],
   "note": "PETSc is an oracle: what setters and setFromOptions do is modelled as documented. The four 'Refuted' items are proved of the code and are the reason the ideal statement needs them as exceptions."
  },
  {
   "property": "C92",
   "status": "proved",
   "theorems": [
    "C92_each_load_its_own_nodes",
    "C92_enforce_outcome",
    "C92_same_nodes_same_result",
    "C92_shared_matrix_refuted",
    "C92_no_load",
    "C92_missing_nodes_refuted",
    "C92_failure_keeps_array",
    "C92_instance"
   ],
   "note": "SuperLU is any function exact on systems with one solution. The refutations concern the two solvers documented to assume identical node sets."
  },
  {
   "property": "C93",
   "status": "proved",
   "theorems": [
    "C93_average_adjoint",
    "C93_average_derivative",
    "C93_average_exact_at_zero",
    "C93_evaluation_succeeds",
    "C93_average_refuted",
    "C93_exchange_gradient",
    "C93_exchange_adjoint",
    "C93_black_and_white_energies",
    "C93_exchange_derivative",
    "C93_black_and_white_refuted",
    "C93_compliance_energies",
    "C93_energy_uses_last_adjoint",
    "C93_energies_ignore_densities",
    "C93_failed_call_keeps_adjoint",
    "C93_instance"
   ],
   "note": "Real arithmetic; the direct solver is exact. The refutations are proved of the code and delimit the positive theorems."
  },
  {
   "property": "C94",
   "status": "proved",
   "theorems": [
    "C94_what_is_evaluated",
    "C94_iteration_keeps_bounds",
    "C94_run_keeps_bounds",
    "C94_iteration_succeeds",
    "C94_run_succeeds",
    "C94_compliance_iteration",
    "C94_volume",
    "C94_design_dirichlet_resets_all",
    "C94_instance",
    "C94_compliance_first_iteration_refuted"
   ],
   "note": "Real arithmetic; exact linear solver. A NaN density appears as NotModelled. The two refutations are theorems about the code and delimit the positive ones."
  },
  {
   "property": "C95",
   "status": "proved",
   "theorems": [
    "C95_iteration_keeps_bounds",
    "C95_run_keeps_bounds",
    "C95_iteration_succeeds",
    "C95_fresh_run_succeeds",
    "C95_resumed_run_refuted",
    "C95_multiplier_follows_volume",
    "C95_step_descends_the_lagrangian",
    "C95_design_dirichlet_resets_all",
    "C95_elastic_instance",
    "C95_heat_instance"
   ],
   "note": "Real arithmetic; exact linear solver. The descent theorem excludes the case where all volume derivatives are below 1e-8 (np.allclose), in which the code swaps filter.gradient for filter.forward. The two refutations are theorems about the code and delimit the positive ones."
  },
  {
   "property": "C96",
   "status": "proved",
   "theorems": [
    "C96_start_needs_all_values",
    "C96_unknown_interpolation_refused",
    "C96_refused_settings_instance",
    "C96_bracket_order_checked",
    "C96_values_as_configured",
    "C96_last_iteration_at_targets",
    "C96_settings_from_fields",
    "C96_stops_when_converged",
    "C96_sane_run_succeeds",
    "C96_start",
    "C96_every_iteration",
    "C96_density_criterion_void",
    "C96_sawtooth_fourth_argument_ignored",
    "C96_final_volume",
    "C96_default_config_is_sane",
    "C96_default_move_limit",
    "C96_convergence_before_targets_refuted"
   ],
   "note": "Real arithmetic; exact linear solver; spatial filter, elastic task, OC update, scaling off; recording, file output and logging are not in this composition (C30-C43, C74). Fields of other kinds than their annotations are not modelled."
  },
  {
   "property": "C97",
   "status": "partial",
   "theorems": [
    "C97_stiffness_from_file_partial",
    "C97_which_mesh",
    "C97_which_files",
    "C97_refused_files",
    "C97_right_for_one_material_only",
    "C97_default_material_refuted",
    "C97_default_material",
    "C97_degenerate_materials",
    "C97_degenerate_materials_reference",
    "C97_degenerate_instance"
   ],
   "note": "Refuted part: the material is not the one asked for. scikit-fem's linear_elasticity(Lambda, Mu) is library code, modelled from its documented definition. Real arithmetic."
  },
  {
   "property": "C98",
   "status": "partial",
   "theorems": [
    "C98_distances",
    "C98_zero_distance_means_duplicates",
    "C98_single_element_refused",
    "C98_succeeds",
    "C98_design_outside_mesh_refused",
    "C98_bars_partial",
    "C98_absent_boundary_bar_refuted",
    "C98_design_and_loaded_volume",
    "C98_repeated_design_element_refuted",
    "C98_scaled_task",
    "C98_accessors",
    "C98_force_nodes_refuted",
    "C98_surface_fluxes"
   ],
   "note": "Refuted parts as listed. The k-d tree is modelled by its contract (sorted distances); printing format, histogram pictures and the empty mesh are not modelled."
  },
  {
   "property": "C99",
   "status": "partial",
   "theorems": [
    "C99_values_as_configured",
    "C99_settings_from_fields",
    "C99_stops_when_converged",
    "C99_start",
    "C99_fresh_run_succeeds",
    "C99_restart_refuted",
    "C99_default_config_is_sane",
    "C99_start_needs_all_values"
   ],
   "note": "Refuted part: restarting. Spatial filter; scaling=True not modelled; real arithmetic."
  },
  {
   "property": "C100",
   "status": "proved",
   "theorems": [
    "C100_start",
    "C100_values_as_configured",
    "C100_sane_run_succeeds",
    "C100_stops_when_converged"
   ],
   "note": "The compliance objective is excluded because the code fails there (C94). Spatial filter; scaling=True not modelled; real arithmetic."
  },
  {
   "property": "C101",
   "status": "partial",
   "theorems": [
    "C101_in_range",
    "C101_gradient_range",
    "C101_row_coarse",
    "C101_row_value",
    "C101_negative_density_refuted"
   ],
   "note": "Refuted part: small radii (the default radius on a unit mesh). Real arithmetic; the sparse solver is its contract."
  },
  {
   "property": "C102",
   "status": "partial",
   "theorems": [
    "C102_iteration_keeps_bounds",
    "C102_sensitivities_nonpositive",
    "C102_iteration_succeeds",
    "C102_volume",
    "C102_ramp_gains_erased",
    "C102_heat_gains_erased",
    "C102_logmoc_keeps_bounds",
    "C102_logmoc_succeeds",
    "C102_logmoc_volume_slope"
   ],
   "note": "Refuted parts: gains are erased; LogMOC's volume slope near fixed elements. Real arithmetic; the linear solver is its contract."
  },
  {
   "property": "C103",
   "status": "partial",
   "theorems": [
    "C103_unknown_filter_refused",
    "C103_oc_values_as_configured",
    "C103_oc_start",
    "C103_lm_start",
    "C103_oc_run_succeeds",
    "C103_oc_stops_when_converged",
    "C103_lm_stops_when_converged",
    "C103_lm_values_as_configured",
    "C103_lm_fresh_run_succeeds",
    "C103_lm_restart_refuted",
    "C103_default_config_is_sane",
    "C103_small_radius_refuted",
    "C103_filter_type_no_string_refused",
    "C103_refused_settings_instance"
   ],
   "note": "Refuted parts: resumed LogMOC runs; coarse meshes. Real arithmetic; linear solvers are their contracts."
  },
  {
   "property": "C104",
   "status": "partial",
   "theorems": [
    "C104_scaled_again",
    "C104_one_dof_refused_again",
    "C104_unscale_restores",
    "C104_second_optimizer_refuted",
    "C104_scaled_twice_instance",
    "C104_analysis",
    "C104_recorded_energy",
    "C104_iteration",
    "C104_run",
    "C104_unit_box",
    "C104_heat_task_refused_after_change",
    "C104_radius_is_not_scaled",
    "C104_same_radius_refuted",
    "C104_kkt_tolerance"
   ],
   "note": "Refuted parts: single loads, radius, heat tasks. Real arithmetic; linear solvers are their contracts; how scikit-fem's basis changes with the mesh is taken from the definition of isoparametric elements."
  },
  {
   "property": "C105",
   "status": "partial",
   "theorems": [
    "C105_fixed_elements_count_as_one",
    "C105_option",
    "C105_small_sensitivities_fatal_refuted",
    "C105_enclosed_element_fatal_refuted",
    "C105_small_loads_fatal_refuted",
    "C105_without_fixed_elements",
    "C105_logmoc_removes_refuted"
   ],
   "note": "Refuted parts: tasks with fixed elements. Real arithmetic; linear solvers are their contracts; the radius is large enough for the discrete maximum principle."
  },
  {
   "property": "C106",
   "status": "partial",
   "theorems": [
    "C106_orientation_any_schedule",
    "C106_orientation_ends",
    "C106_volumes_any_schedule",
    "C106_volumes_end",
    "C106_tet_volumes_unchecked_refuted",
    "C106_repair_then_volumes",
    "C106_once_each_needed"
   ],
   "note": "Refuted part: inverted elements. Memory accesses are atomic and sequentially consistent; real coordinates."
  },
  {
   "property": "C107",
   "status": "partial",
   "theorems": [
    "C107_normalized_iteration",
    "C107_normalized_run",
    "C107_new_optimizer",
    "C107_normalized_instance",
    "C107_analysis_by_load",
    "C107_step_by_load",
    "C107_opposite_steps_refuted"
   ],
   "note": "Refuted part: independence of units. Real arithmetic; SIMP, spatial filter; linear solvers are their contracts."
  },
  {
   "property": "C108",
   "status": "proved",
   "theorems": [
    "C108_heat_any_rotation_analysis",
    "C108_heat_any_rotation",
    "C108_heat_any_rotation_instance",
    "C108_element_sets",
    "C108_sets_instance",
    "C108_logmoc_iteration",
    "C108_logmoc_run",
    "C108_logmoc_symmetric",
    "C108_logmoc_instance",
    "C108_analysis",
    "C108_iteration",
    "C108_run",
    "C108_symmetric_designs",
    "C108_instance",
    "C108_diagonal_instance",
    "C108_any_rotation_logmoc",
    "C108_any_rotation_logmoc_instance",
    "C108_any_rotation_filter_instance",
    "C108_any_rotation_analysis",
    "C108_any_rotation_run",
    "C108_any_rotation",
    "C108_any_rotation_instance"
   ],
   "note": "Real arithmetic (sums in another order round differently); linear solvers are their contracts; spatial filter. Numbering and mirror images: elastic tasks; rotations by any angle: elastic and heat tasks."
  }
 ]
}