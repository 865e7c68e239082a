"""Writes MANIFEST.json from the table below."""
import json
import os

C = []


def claim(pid, status, theorems, note=""):
    C.append({"property": pid, "status": status, "theorems": theorems, "note": note})


claim("C01", "proved", ["C01_unimodal_output", "C01_unimodal_output_columns", "C01_empty_rejected"])
claim("C02", "proved", ["C02_unimodal_projection", "C02_unimodal_fixed", "C02_unimodality_update"])
claim("C03", "proved", ["C03_nonneg_unimodal_projection"])
claim("C04", "proved", ["C04_prefix_isotonic"])
claim("C05", "partial", ["C05_integer_arrays_refuted", "C05_any_storage_partial"],
      "The property is false of the code: integer arrays truncate the fitted levels. The refutation is proved. What remains true for any storage conversion and any arithmetic with a total order: the result is unimodal (and non-negative when requested).")

claim("C06", "proved", ["C06_nonneg_projection", "C06_box_projection", "prox_unique"])
claim("C07", "proved", ["C07_l1_prox", "prox_unique"])
claim("C08", "proved", ["C08_generalized_l2_prox"], "For every valid SVD of the norm matrix.")
claim("C09", "proved", ["C09_l2ball_projection"])
claim("C10", "proved", ["C10_unit_simplex"],
      "Over exact reals with scipy's default tolerances; non-convergence only for entries beyond 1e18.")
claim("C11", "proved", ["C11_tv_l1_prox"],
      "Conditional, as in the property, on the external denoiser returning a minimiser for the columns it is given.")
claim("C12", "proved", ["C12_parafac2_cross_products", "C12_too_few_rows"], "For every valid SVD routine.")
claim("C13", "proved", ["C13_parafac2_descent", "C13_basis_step_optimal", "C13_coordinate_step_optimal"])
claim("C14", "proved", ["C14_rowwise_equals_matrixwise"])
claim("C15", "proved", ["C15_subtract_consistent"])
claim("C16", "proved", ["C16_penalty_value", "C16_penalty_of_list", "C16_parafac2_matrix_rejected", "C16_constructors"])

claim("C17", "proved", ["C17_init_aux_shapes", "C17_init_dual_shapes", "C17_given_tensor", "C17_given_list", "C17_given_pair",
                        "C17_given_dual", "C17_given_entries", "C17_wrong_kind", "C17_errors", "C17_named_methods",
                        "C17_named_parafac2", "C17_all_penalties"])
claim("C18", "proved", ["C18_constructor_accepts_iff_consistent", "C18_only_documented_errors", "C18_arrays_value_error", "C18_type_error",
                        "C18_stacked_factors", "C18_revalidation"])
claim("C19", "proved", ["C19_to_matrix", "C19_to_matrix_out_of_range", "C19_to_matrices", "C19_invalid_rejected"])
claim("C20", "proved", ["C20_to_tensor", "C20_no_matrices"])
claim("C21", "proved", ["C21_to_unfolded", "C21_to_vec", "C21_without_padding", "C21_other_modes_rejected"])
claim("C22", "proved", ["C22_from_cp", "C22_from_cp_bad_shapes", "C22_from_cp_wrong_order", "C22_from_parafac2"])

claim("C23", "proved", ["C23_norm_of_the_data", "C23_reconstruction_error", "C23_reconstruction_error_after_A_update"])
claim("C24", "proved", ["C24_gap_values", "C24_zero_gap", "C24_feasibility_test", "C24_feasible_without_penalties"],
      "For nonzero factors, as in the property; the example C24_nan_gap shows what happens otherwise.")
claim("C25", "proved", ["C25_C26_C31_update_C", "C25_C26_C31_update_A", "C25_C26_C31_update_B"])
claim("C26", "proved", ["C25_C26_C31_update_C", "C25_C26_C31_update_A", "C25_C26_C31_update_B"])
claim("C27", "proved", ["C27_exact_constraints", "C27_exact_constraints_throughout", "C27_fit_constraints", "C27_fit_user_penalties"])
claim("C28", "proved", ["C28_fixed_point_C", "C28_fixed_point_A", "C28_fixed_point_B"])
claim("C29", "proved", ["C29_errors_never_increase", "C29_fit_errors_never_increase"])
claim("C30", "partial", ["C30_objective_never_increases_partial", "C30_reported_loss_refuted"],
      "The property is false of the code: the reported loss can increase (refutation proved). What holds, the monotone "
      "decrease of the objective the updates minimise, is proved.")
claim("C31", "proved", ["C25_C26_C31_update_C", "C25_C26_C31_update_A", "C25_C26_C31_update_B"])
claim("C32", "proved", ["C32_frozen_modes", "C32_fit_frozen"])
claim("C33", "proved", ["C33_histories", "C33_fit_reports"])
claim("C34", "proved", ["C34_stopping", "C34_fit_stopping"])
claim("C35", "partial", ["C35_absolute_criterion_partial", "C35_absolute_tol_alone_refuted"],
      "The property is false of the code when tol is unset: no such run ever stops early (proved). It is proved for tol set.")
claim("C36", "partial", ["C36_diagnostics_change_fit_refuted", "C36_diagnostics_do_not_change_fit_partial"],
      "The property is false of the code (counterexample proved); it is proved for three classes of calls.")
claim("C37", "proved", ["C37_longer_runs_extend", "C37_longer_runs_continue"])
claim("C38", "proved", ["C38_penalties_are_those_requested", "C38_built_penalties_valid", "C38_accepts_iff"])
claim("C39", "proved", ["C39_broadcast", "C39_forms_agree", "C39_wrong_length", "C39_bad_regs"])
claim("C40", "proved", ["C40_matrix_penalty_on_A", "C40_parafac2_mode"])
claim("C41", "partial", ["C41_given_start_partial", "C41_named_start_refuted"],
      "Proved for a given factorization. False of the code for the starts 'parafac' and 'parafac2', whose weights the first "
      "update discards (counterexample proved).")
claim("C42", "partial", ["C42_frame_partial", "C42_harmless_partial", "C42_duals_partial", "C42_A_holds", "C42_Bs_hold", "C42_init_refuted", "C42_aux_refuted", "C42_list_refuted",
                         "C42_init_params_partial", "C42_init_params_refuted"],
      "False of the code: A and the list of the B_i of init and the auxiliary arrays of mode 0 are overwritten, and init_params gets the key n_iter_max (counterexamples proved). "
      "Proved for every call: nothing else is written, and what those objects hold afterwards.")
claim("C43", "proved", ["C43_random_factorization", "C43_refused"])
claim("C44", "proved", ["C44_simulated_data", "C44_succeeds"])
claim("C45", "proved", ["C45_disk", "C45_result", "C45_errors", "C45_succeeds", "C45_cached"])
claim("C46", "partial", ["C46_interrupted_partial", "C46_interrupted_refuted"],
      "False of the code: a file cut short by an interruption is taken for the real one by every later call (proved for every cut). What holds, that at most one file is affected, is proved.")
claim("C47", "proved", ["C47_mro_linearises", "C47_mro_refuses", "C47_mro_is_c3", "C47_single_class"])
claim("C48", "partial", ["C48_class_statement", "C48_accepted_iff", "C48_single_base_partial", "C48_nearest_definition_refuted"],
      "What each class statement does is proved in full, and with a single base the copied docstring is the nearest one. "
      "With several bases the documented rule is false of the code: a diamond copies the docstring of the common base although a nearer definition exists. The refutation is proved.")
claim("C49", "proved", ["C49_parafac2_is_cmf", "C49_l2_default", "C49_default_calls"])
claim("C50", "proved", ["C50_approach_C", "C50_approach_A", "C50_approach_B"])
claim("C51", "proved", ["C51_update_C_total", "C51_update_A_total", "C51_update_B_total", "C51_run_total", "C51_fit_total"])
claim("C52", "proved", ["C52_padding"])
claim("C53", "proved", ["C53_random_start", "C53_svd_start", "C53_parafac_start", "C53_parafac2_start", "C53_unknown_start", "C53_init_params"],
      "For every SVD routine returning vectors of the right shapes and every result of the initial decompositions.")
claim("C54", "partial", ["C54_unimodal_refuted"],
      "False of the code: the cyclic shift puts the decreasing tail in front of the rise, so from the third matrix on no component vector is unimodal; those of the first matrix are. Both are proved.")
claim("C55", "partial", ["C55_retry_partial", "C55_bad_download_refuted"],
      "False of the code: an unreadable answer with status 200 is saved before it is parsed and makes every later call fail. Proved for servers whose answers with status 200 are readable.")
claim("C56", "partial", ["C56_aligned_partial", "C56_succeeds", "C56_equal_names_refuted"],
      "Proved when the sample names differ; with equal names the code pairs measurements of one sample with metadata of another (refutation proved).")
claim("C57", "partial", ["C57_values_partial", "C57_call_partial", "C57_shared_aux_refuted"],
      "False of the code when one array is passed as aux_init of several penalties on A (counterexample proved). Proved when A, the auxiliary and the dual "
      "arrays of mode 0 are different objects: the fit with objects overwritten in place returns and raises what the model with values does.")

claim("C58", "proved", ["C58_keyword_constraints", "C58_user_penalties", "C58_double_precision"])
claim("C59", "proved", ["C59_factors", "C59_reports"])
claim("C60", "proved", ["C60_unpack", "C60_rebuild"])
claim("C61", "proved", ["C61_invariant_points", "C61_reduces_penalty", "C61_nonexpansive", "C61_simplex_invariant", "C61_parafac2_invariant"],
      "For total variation the external denoiser, for PARAFAC2 the external SVD is assumed correct.")
claim("C62", "partial", ["C62_bike_tables_partial", "C62_metadata", "C62_succeeds", "C62_failures", "C62_other_hours_refuted"],
      "Entries are shown under the right hour if the city has the same hours as Oslo, in the same order; without this condition the property is false of the code (refuted).")
claim("C63", "proved", ["C63_same_result", "C63_silent", "C63_lines", "C63_negative"])
claim("C64", "partial", ["C64_converged_count_refuted", "C63_lines"],
      "False of the code: the printed number is one less (refuted by a concrete fit). What holds, for every fit that converges: it is n_iter - 1 (last_line in C63_lines).")
claim("C65", "proved", ["C65_rate_C", "C65_rate_A", "C65_rate_B", "C65_converges_C", "C65_converges_A", "C65_converges_B", "C65_compatible", "C65_compatible_l"],
      "Exact arithmetic; feasibility penalties positive; on mode 0 with one feasibility penalty per row the penalties must be row-wise (the others raise AttributeError there, C40). "
      "A single convex penalty, and any list without box constraints, is compatible.")
claim("C66", "partial", ["C66_refused_partial", "C66_models_agree", "C66_too_few_raises", "C66_too_few_which", "C66_further_matrices_ignored", "C66_rank_unused", "C66_too_few_refuted"],
      "False of the code: with A and the B_i fixed a start for the first matrices only is accepted and all further data matrices are ignored (refutation proved), and "
      "another rank is accepted when nothing is imposed (C66_rank_unused). Proved: wrong sizes raise ValueError, too many matrices IndexError, a wrong rank ValueError when "
      "something is imposed and neither rank is 1 (numpy broadcasting is not modelled). Too few matrices are never accepted when A or the B_i are updated and there is an iteration "
      "to do (C66_too_few_raises); the exception is IndexError, or ValueError when something is imposed on A (C66_too_few_which).")
claim("C67", "proved", ["C67_order", "C67_both_return"],
      "Exact arithmetic (sums over the matrices are reordered); random starts are excluded, since they draw in the order of the matrices. Which exception is raised can depend on the order.")
claim("C68", "proved", ["C68_resume", "C68_can_continue", "C68_no_weights"],
      "Exact arithmetic (the returned basis matrices of PARAFAC2 pass the 1e-8 check of the second call). The returned weights must be None, which C68_no_weights shows as soon as an iteration updates a mode. The second call gets the penalties as objects, since keywords cannot carry initial variables.")
claim("C69", "proved", ["C69_components"],
      "Exact arithmetic. Case of C71_change with unit factors.")
claim("C70", "proved", ["C70_rows_and_columns"],
      "Exact arithmetic. Penalties that look at the order of the rows are allowed on modes whose order is kept.")
claim("C71", "proved", ["C71_change", "C71_any_start", "C71_parafac2"],
      "Exact arithmetic. Unit simplex, unimodality and total variation are covered where the unit of their mode is kept (factor 1) only. With PARAFAC2 (rows of the B_i in place) the routine must give the same orthonormal matrix for M and u^2 M (same_nearest); C71_parafac2 replaces this by any correct routines, for calls that return with a routine that refuses matrices with dependent columns. C71_any_start takes any two starts that correspond (named starts included), C71_change given factors with zero variables.")
claim("C72", "proved", ["C72_svd_choice", "C72_parafac2"],
      "Exact arithmetic. A routine that truncates is correct for matrices with k columns and at least k rows, which is all the fit asks for. With PARAFAC2 the basis matrices are not unique when a product is rank deficient: C72_parafac2 covers the calls that return with a routine that refuses such matrices.")

claim("C73", "proved", ["C73_slopes_follow_steps", "C73_rate", "C73_fit_stationary", "C73_fit_converges"],
  "slopes_follow_steps and rate: runs, with explicit bound for the sum of squared steps; fit_stationary: whole calls that return; fit_converges: calls that cannot fail (C51), so enough iterations always succeed. Slopes are derivatives along lines through the returned factors (StationarySpec.v).")

claim("C74", "proved", ["C74_builtin_classes"],
  "Every arithmetic. user_fit is the fit with dynamic dispatch (Custom.v). The second alternative: user_fit stops with NotModelled where the other raises an exception.")
claim("C75", "proved", ["C75_parametrisation", "C75_transposed"], "Every arithmetic; alike is defined in CustomSpec.v from the methods of the objects only.")
claim("C76", "proved", ["C76_own_variables", "C76_invariant", "C76_ensured"], "Every arithmetic. Objects whose methods change the object itself are not modelled.")
claim("C77", "proved", ["C77_row_classes", "C77_matrix_classes", "C77_missing_method", "C77_abstract_classes", "C77_inherited_matrices", "C77_builtin_matrices"], "Every arithmetic. Non-vacuity: the cases of P31_Custom.v and C77_matrices_nonvacuous.")
claim("C78", "proved", ["C78_projection", "C78_fit"], "Real arithmetic.")
claim("C79", "proved", ["C79_user_fit_total"], "Real arithmetic; keyword constraints may be non-negativity, bounds, norm bound and unimodality (asks_plain, as in C51); SVD correct. sound_object is defined in CustomTotalSpec.v.")

claim("C80", "proved", ["C80_fit_failures", "C80_user_fit_failures"], "Real arithmetic; SVD correct and of the documented shapes. in_order, reliable_object and uses_simplex are defined in FailSpec.v. NonFinite is the model's name for a division by zero, where numpy goes on with inf or nan. ex_division_by_zero shows a call that is in order and does divide by zero. Starts from tensorly's decompositions are left out.")

claim("C81", "partial", ["C81_files_partial", "C81_results_partial", "C81_alone", "C81_alone_succeeds", "C81_half_written_refuted", "C81_hole_refuted"], "False as stated: the file is written in place, so a second call can find it half written and raise (C81_half_written_refuted), and a second process that opens the file and dies leaves a file with a hole although the first call succeeded, which all later calls load (C81_hole_refuted). Proved for every schedule: existing files are safe, new files are damaged copies at worst and complete once all processes have ended without disk failure, and returned values come from the old copy, the server's copy or a damaged copy of it. C81_alone: with one process the model is that of C45.")

claim("C82", "proved", ["C82_only_A", "C82_only_B", "C82_only_C"], "For the whole call. The constraints need a common interior point (has_room), the feasibility penalties must be positive, and for A without a constant feasibility penalty only row-wise penalties are allowed (the code refuses others). The call with no iterations must return: it gives the starting factors. C82_nonvacuous: three calls whose limit is 1/2.")

claim("C83", "proved", ["C83_turned", "C83_parafac2", "C83_given"], "C83_turned: any two corresponding starts. C83_given: given factors, auxiliary and dual variables starting at zero, stated without mentioning internal variables. C83_parafac2: PARAFAC2 with turned rows; 'all matrices decomposed have independent columns' is said by an svd routine that refuses the others and is otherwise the same: if the first call returns with it, both calls return with the ordinary routine and correspond (without that condition the claim is false: the svd of a dependent matrix is a free choice of the routine). C83_nonvacuous, C83_parafac2_nonvacuous.")

claim("C84", "partial", ["C84_lowest_loss", "C84_scores", "C84_converged_partial", "C84_smallest_error", "C84_fit_scores", "C84_last_converged", "C84_simulated_refuted"], "Proved for the bike sharing and number-of-components scripts (C84_lowest_loss, C84_scores: any ordered arithmetic and any list of starts; C84_smallest_error, C84_fit_scores: the actual calls over the reals). False for the simulated-data scripts, which compare the loss with the reconstruction error of the kept model: C84_simulated_refuted (two converged double-precision runs; the worse second is kept), C84_last_converged (over the reals the last converged start is kept whenever e_i^2/2 < e_j). What remains true of them: C84_converged_partial. C84_nonvacuous.")

claim("C85", "proved", ["C85_gallery_data", "C85_succeeds"], "gallery_data covers plot_simulated_nonnegative.py and plot_examining_different_number_of_components.py; the data of plot_custom_penalty.py are in C92. Non-vacuity: C85_nonvacuous.")

claim("C86", "proved", ["C86_standardised", "C86_normalised", "C86_clipped", "C86_stacked"], "Non-vacuity: C86_standardised_nonvacuous, ex_pf2_valid (used in C87_smallest_first_refuted_nonvacuous), C87_largest_first_partial_nonvacuous (valid, non-negative factors).")
claim("C87", "partial", ["C87_largest_first_partial", "C87_smallest_first_refuted", "C87_tv_smallest_first_refuted"], "True of the bike sharing script (C87_largest_first_partial). False of the semiconductor etch script, which sorts in ascending order: for every PARAFAC2 tensor the first component shown is the one that contributes least (C87_smallest_first_refuted), and likewise for the regularised model when A and C are normalised (C87_tv_smallest_first_refuted). Examples: C87_smallest_first_refuted_nonvacuous (contributions 1 and 3, the smaller first), C87_largest_first_partial_nonvacuous.")

claim("C88", "partial", ["C88_order_partial", "C88_objects_partial", "C88_zero_factor_refuted"], "True unless the factor of a mode with several penalties becomes exactly zero while another mode has penalties too (C88_order_partial; C88_objects_partial without any hypothesis on the start when no variable is drawn). Then the maximum in _check_feasibility drops NaN: in C88_zero_factor_refuted the same two penalties give feasible or infeasible depending on their order, and the result called feasible has an infinite gap. Non-vacuity: C88_nonvacuous.")

claim("C89", "partial", ["C89_feasible_partial", "C89_entries_partial", "C89_reached_A", "C89_reached_B", "C89_reached_C", "C89_zero_factor_refuted"], "Proved for runs whose last feasibility gaps are not NaN, which is so whenever no penalised factor is exactly zero. With a zero factor the claim is false (C89_zero_factor_refuted, in double precision: A = 0, bounds 1 and 2, reported feasible). Non-vacuity: C89_nonvacuous.")

claim("C90", "proved", ["C90_keywords", "C90_same_values", "C90_same_objects", "C90_lower_bound_zero"], "For every number type whose zero is falsy (ex_zero_falsy: reals and doubles). regs is None or a list of three lists. Non-vacuity: ex_requests.")

claim("C91", "proved", ["C91_padded", "C91_parafac2", "C91_given"], "Exact arithmetic. With PARAFAC2 and added rows: if no matrix with dependent columns is decomposed (C91_parafac2), since the nearest orthonormal matrix is not unique otherwise. Total variation, unimodality and generalised L2 penalties on padded modes are excluded: there zeros are not neutral. Non-vacuity: C91_nonvacuous.")

claim("C92", "partial", ["C92_custom_data_partial", "C92_wrapped_refuted", "C92_succeeds"], "False of the script: rows are moved cyclically, so from B_2 on the tail of each density stands in front of its rise and none of the components called unimodal is (C92_wrapped_refuted, for all draws). Everything else is proved, and unimodality for B_0 and B_1. Non-vacuity: C92_nonvacuous, with the sizes of the script.")

claim("C93", "proved", ["C93_text", "C93_determined", "C93_lines", "C93_listing", "C93_readme_differs"], "Every arithmetic. Python's repr of numbers and arrays is a parameter. The output shown in README.rst has the parameters in another order than the code prints them (C93_readme_differs). Non-vacuity: C93_nonvacuous.")

claim("C94", "partial", ["C94_stricter_runs_longer_partial", "C94_histories_extend", "C94_feasibility_tol_refuted"], "Proved for all three tolerances with return_errors=True, and for tol and absolute_tol without. False of the code for feasibility_tol without return_errors (C94_feasibility_tol_refuted): losses of infeasible iterations are then not recorded, so the relative criterion compares iterations that do not follow each other, and the call with the smaller feasibility_tol stops first. absolute_tol=None together with a tol is excluded, it raises TypeError (C35). Non-vacuity: C94_nonvacuous.")

claim("C95", "proved", ["C95_start_at_rest_is_returned", "C95_start_at_rest_succeeds", "C95_perfect_start_is_kept"], "The converse of C28: fixed points of the updates are returned. The certificate is the one of OptSpec.v (Lagrange multipliers); weights of the start are None. Non-vacuity: C95_nonvacuous (any number of iterations, with tolerances), C95_multiplier (rest without an exact fit).")

claim("C96", "proved", ["C96_start_at_rest_is_returned", "C96_start_at_rest_succeeds", "C96_exact_parafac2_is_kept"], "C95 for the PARAFAC2 constraint, which is not convex. The pair (bases, coordinate matrix) may be replaced by another pair for the same matrices, so auxiliary variables are compared as matrices. Non-vacuity: C96_nonvacuous (two matrices of different heights, non-negativity and PARAFAC2, any numbers of iterations).")

claim("C97", "proved", ["C97_factors", "C97_converged", "C97_bike", "C97_nonnegative", "C97_scree"], "C97_factors and C97_converged are about script_call with any keyword and constraint objects; the others are the three scripts. Gaps that are nan are excluded because they pass the feasibility check (see C34). Non-vacuity: C97_nonvacuous, the bike sharing call on a 4 x 1 matrix with a random stream whose start fits the data, which converges.")

claim("C98", "proved", ["C98_explained", "C98_errors_at_most_one", "C98_penalised_refuted"], "Boundary: C98_penalised_refuted (non-negativity on the mode updated last, one iteration: relative error 3/2). Non-vacuity: C98_nonvacuous (ridge on all modes, non-negativity, unimodality and an upper bound on the B_i, a norm ball on C).")

claim("C99", "proved", ["C99_equal_components", "C99_equal_columns", "C99_equal_rows", "C99_equal_matrices"], "Follows from the symmetry theorems (C67, C69, C70) applied to the exchange of the two equal parts: the exchanged problem is the same problem. Non-vacuity: C99_components_nonvacuous, C99_rows_columns_nonvacuous, C99_matrices_nonvacuous.")

claim("C100", "proved", ["C100_tolerances_never_met", "C100_last_error", "C100_model_vanishes"], "The case data_sumsq = 0, which the theorems on recorded errors (C33, C34) leave out. Non-vacuity: C100_nonvacuous, C100_vanishes_nonvacuous.")

claim("C101", "proved", ["C101_determined", "C101_fit_summary"], "Decimal digits and tuples are printed by CmfRepr.v (two literal texts: C101_text). Non-vacuity: C101_nonvacuous.")

claim("C102", "proved", ["C102_start_returned", "C102_settings_do_not_matter"], "For every arithmetic, without axioms; what the feasibility flag means needs a total order and no nan. Non-vacuity: C102_nonvacuous.")

claim("C103", "proved", ["C103_written_out", "C103_default_stopping", "C103_default_returns"], "Over the reals; svd assumed correct. Non-vacuity: C103_nonvacuous.")

claim("C104", "proved", ["C104_random_numbers", "C104_no_penalties"], "C104_random_numbers holds in every arithmetic, C104_no_penalties over the reals. Starts fitted by tensorly are left out. Non-vacuity: C104_nonvacuous, C104_defaults_free; C104_random_variables_matter shows that the condition is needed.")

claim("C105", "proved", ["C105_random_length", "C105_fixtures"], "Over the reals; the generator is any one whose Poisson variates are not negative, whose integers lie in the range asked for and whose uniform numbers are positive. Non-vacuity: C105_nonvacuous.")

claim("C106", "proved", ["C106_stronger", "C106_total_variation", "C106_feasibility_penalty", "C106_tighter", "C106_unimodality"], "Over the reals; total variation denoiser assumed correct. Non-vacuity: C106_nonvacuous, C106_unimodality_nonvacuous.")

if __name__ == "__main__":
    out = os.path.join(os.path.dirname(os.path.abspath(__file__)), "..", "MANIFEST.json")
    with open(out, "w") as f:
        json.dump({"claims": C}, f, indent=1)
        f.write("\n")
