* `ClassicalDedekindReals.sig_forall_dec`, `ClassicalDedekindReals.sig_not_dec`, `FunctionalExtensionality.functional_extensionality_dep` (154 theorems): `C01_unimodal_output`, `C01_unimodal_output_columns`, `C01_empty_rejected`, `C02_unimodal_projection`, `C02_unimodal_fixed`, `C02_unimodality_update`, `C03_nonneg_unimodal_projection`, `C04_prefix_isotonic`, `C05_integer_arrays_refuted`, `C06_nonneg_projection`, `C06_box_projection`, `prox_unique`, `C07_l1_prox`, `C08_generalized_l2_prox`, `C09_l2ball_projection`, `C10_unit_simplex`, `C11_tv_l1_prox`, `C12_parafac2_cross_products`, `C12_too_few_rows`, `C13_parafac2_descent`, `C13_basis_step_optimal`, `C13_coordinate_step_optimal`, `C14_rowwise_equals_matrixwise`, `C15_subtract_consistent`, `C16_penalty_value`, `C16_penalty_of_list`, `C16_parafac2_matrix_rejected`, `C16_constructors`, `C17_init_aux_shapes`, `C17_init_dual_shapes`, `C17_given_tensor`, `C17_given_list`, `C17_given_pair`, `C17_given_dual`, `C17_given_entries`, `C17_wrong_kind`, `C17_errors`, `C17_named_methods`, `C17_named_parafac2`, `C17_all_penalties`, `C18_constructor_accepts_iff_consistent`, `C18_only_documented_errors`, `C18_arrays_value_error`, `C18_type_error`, `C18_stacked_factors`, `C18_revalidation`, `C19_to_matrix`, `C19_to_matrix_out_of_range`, `C19_to_matrices`, `C19_invalid_rejected`, `C20_to_tensor`, `C20_no_matrices`, `C21_to_unfolded`, `C21_to_vec`, `C21_without_padding`, `C21_other_modes_rejected`, `C22_from_cp`, `C22_from_cp_bad_shapes`, `C22_from_cp_wrong_order`, `C22_from_parafac2`, `C23_norm_of_the_data`, `C23_reconstruction_error`, `C23_reconstruction_error_after_A_update`, `C24_gap_values`, `C24_zero_gap`, `C24_feasibility_test`, `C25_C26_C31_update_C`, `C25_C26_C31_update_A`, `C28_fixed_point_C`, `C28_fixed_point_A`, `C35_absolute_tol_alone_refuted`, `C37_longer_runs_extend`, `C38_penalties_are_those_requested`, `C38_built_penalties_valid`, `C38_accepts_iff`, `C39_wrong_length`, `C39_bad_regs`, `C40_matrix_penalty_on_A`, `C40_parafac2_mode`, `C41_given_start_partial`, `C42_init_refuted`, `C43_random_factorization`, `C43_refused`, `C44_succeeds`, `C49_parafac2_is_cmf`, `C49_l2_default`, `C49_default_calls`, `C50_approach_C`, `C50_approach_A`, `C51_update_C_total`, `C51_update_A_total`, `C52_padding`, `C53_random_start`, `C53_svd_start`, `C53_parafac_start`, `C53_parafac2_start`, `C53_unknown_start`, `C61_invariant_points`, `C61_reduces_penalty`, `C61_nonexpansive`, `C61_simplex_invariant`, `C61_parafac2_invariant`, `C65_rate_C`, `C65_rate_A`, `C65_compatible`, `C65_compatible_l`, `C66_refused_partial`, `C66_models_agree`, `C66_too_few_raises`, `C66_too_few_which`, `C66_further_matrices_ignored`, `C66_rank_unused`, `C67_order`, `C67_both_return`, `C69_components`, `C70_rows_and_columns`, `C71_change`, `C71_any_start`, `C72_svd_choice`, `C78_projection`, `C78_fit`, `C79_user_fit_total`, `C80_fit_failures`, `C80_user_fit_failures`, `C83_turned`, `C83_given`, `C85_gallery_data`, `C85_succeeds`, `C86_standardised`, `C86_normalised`, `C86_clipped`, `C86_stacked`, `C87_largest_first_partial`, `C87_smallest_first_refuted`, `C87_tv_smallest_first_refuted`, `C91_padded`, `C91_given`, `C92_succeeds`, `C94_stricter_runs_longer_partial`, `C94_histories_extend`, `C99_equal_components`, `C99_equal_columns`, `C99_equal_rows`, `C99_equal_matrices`, `C100_tolerances_never_met`, `C103_written_out`, `C104_no_penalties`, `C105_random_length`, `C105_fixtures`, `C106_stronger`, `C106_total_variation`, `C106_feasibility_penalty`, `C106_tighter`, `C106_unimodality`.
* No axiom (91 theorems): `C05_any_storage_partial`, `C24_feasible_without_penalties`, `C39_broadcast`, `C39_forms_agree`, `C42_frame_partial`, `C42_harmless_partial`, `C42_duals_partial`, `C42_A_holds`, `C42_Bs_hold`, `C42_aux_refuted`, `C42_list_refuted`, `C42_init_params_partial`, `C42_init_params_refuted`, `C45_disk`, `C45_result`, `C45_errors`, `C45_succeeds`, `C45_cached`, `C46_interrupted_partial`, `C46_interrupted_refuted`, `C47_mro_linearises`, `C47_mro_refuses`, `C47_mro_is_c3`, `C47_single_class`, `C48_class_statement`, `C48_accepted_iff`, `C48_single_base_partial`, `C48_nearest_definition_refuted`, `C53_init_params`, `C55_retry_partial`, `C55_bad_download_refuted`, `C56_aligned_partial`, `C56_succeeds`, `C56_equal_names_refuted`, `C57_values_partial`, `C57_call_partial`, `C57_shared_aux_refuted`, `C58_keyword_constraints`, `C58_user_penalties`, `C58_double_precision`, `C59_factors`, `C59_reports`, `C60_unpack`, `C60_rebuild`, `C62_bike_tables_partial`, `C62_metadata`, `C62_succeeds`, `C62_failures`, `C62_other_hours_refuted`, `C63_same_result`, `C63_silent`, `C63_lines`, `C63_negative`, `C64_converged_count_refuted`, `C74_builtin_classes`, `C75_parametrisation`, `C75_transposed`, `C76_own_variables`, `C76_invariant`, `C76_ensured`, `C77_row_classes`, `C77_matrix_classes`, `C77_missing_method`, `C77_abstract_classes`, `C77_inherited_matrices`, `C77_builtin_matrices`, `C81_files_partial`, `C81_results_partial`, `C81_alone`, `C81_alone_succeeds`, `C81_half_written_refuted`, `C81_hole_refuted`, `C84_lowest_loss`, `C84_scores`, `C84_converged_partial`, `C84_simulated_refuted`, `C88_zero_factor_refuted`, `C89_zero_factor_refuted`, `C90_keywords`, `C90_same_values`, `C90_same_objects`, `C90_lower_bound_zero`, `C93_text`, `C93_determined`, `C93_lines`, `C93_listing`, `C93_readme_differs`, `C101_determined`, `C102_start_returned`, `C102_settings_do_not_matter`, `C104_random_numbers`.
* `ClassicalDedekindReals.sig_forall_dec`, `ClassicalDedekindReals.sig_not_dec`, `Classical_Prop.classic`, `FunctionalExtensionality.functional_extensionality_dep` (63 theorems): `C25_C26_C31_update_B`, `C27_exact_constraints`, `C27_exact_constraints_throughout`, `C27_fit_constraints`, `C27_fit_user_penalties`, `C28_fixed_point_B`, `C29_errors_never_increase`, `C29_fit_errors_never_increase`, `C30_objective_never_increases_partial`, `C32_frozen_modes`, `C32_fit_frozen`, `C33_histories`, `C33_fit_reports`, `C34_stopping`, `C34_fit_stopping`, `C35_absolute_criterion_partial`, `C36_diagnostics_do_not_change_fit_partial`, `C37_longer_runs_continue`, `C44_simulated_data`, `C50_approach_B`, `C51_update_B_total`, `C51_run_total`, `C51_fit_total`, `C54_unimodal_refuted`, `C65_rate_B`, `C68_resume`, `C68_can_continue`, `C68_no_weights`, `C71_parafac2`, `C72_parafac2`, `C73_slopes_follow_steps`, `C73_rate`, `C73_fit_stationary`, `C73_fit_converges`, `C83_parafac2`, `C84_smallest_error`, `C84_fit_scores`, `C84_last_converged`, `C88_order_partial`, `C88_objects_partial`, `C89_feasible_partial`, `C89_entries_partial`, `C91_parafac2`, `C92_custom_data_partial`, `C92_wrapped_refuted`, `C95_start_at_rest_is_returned`, `C95_start_at_rest_succeeds`, `C95_perfect_start_is_kept`, `C96_start_at_rest_is_returned`, `C96_start_at_rest_succeeds`, `C96_exact_parafac2_is_kept`, `C97_factors`, `C97_converged`, `C97_bike`, `C97_nonnegative`, `C97_scree`, `C98_explained`, `C98_errors_at_most_one`, `C100_last_error`, `C100_model_vanishes`, `C101_fit_summary`, `C103_default_stopping`, `C103_default_returns`.
* `ClassicalDedekindReals.sig_forall_dec`, `ClassicalDedekindReals.sig_not_dec`, `Classical_Prop.classic`, `FunctionalExtensionality.functional_extensionality_dep`, `IndefiniteDescription.constructive_indefinite_description` (15 theorems): `C30_reported_loss_refuted`, `C36_diagnostics_change_fit_refuted`, `C41_named_start_refuted`, `C65_converges_C`, `C65_converges_A`, `C65_converges_B`, `C66_too_few_refuted`, `C82_only_A`, `C82_only_B`, `C82_only_C`, `C89_reached_A`, `C89_reached_B`, `C89_reached_C`, `C94_feasibility_tol_refuted`, `C98_penalised_refuted`.
