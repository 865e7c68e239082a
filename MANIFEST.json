{
 "claims": [
  {
   "property": "C01",
   "status": "proved",
   "theorems": [
    "C01_unimodal_output",
    "C01_unimodal_output_columns",
    "C01_empty_rejected"
   ],
   "note": ""
  },
  {
   "property": "C02",
   "status": "proved",
   "theorems": [
    "C02_unimodal_projection",
    "C02_unimodal_fixed",
    "C02_unimodality_update"
   ],
   "note": ""
  },
  {
   "property": "C03",
   "status": "proved",
   "theorems": [
    "C03_nonneg_unimodal_projection"
   ],
   "note": ""
  },
  {
   "property": "C04",
   "status": "proved",
   "theorems": [
    "C04_prefix_isotonic"
   ],
   "note": ""
  },
  {
   "property": "C05",
   "status": "partial",
   "theorems": [
    "C05_integer_arrays_refuted",
    "C05_any_storage_partial"
   ],
   "note": "The property is false of the code: integer arrays truncate the fitted levels. The refutation is proved. What remains true for any storage conversion and any arithmetic with a total order: the result is unimodal (and non-negative when requested)."
  },
  {
   "property": "C06",
   "status": "proved",
   "theorems": [
    "C06_nonneg_projection",
    "C06_box_projection",
    "prox_unique"
   ],
   "note": ""
  },
  {
   "property": "C07",
   "status": "proved",
   "theorems": [
    "C07_l1_prox",
    "prox_unique"
   ],
   "note": ""
  },
  {
   "property": "C08",
   "status": "proved",
   "theorems": [
    "C08_generalized_l2_prox"
   ],
   "note": "For every valid SVD of the norm matrix."
  },
  {
   "property": "C09",
   "status": "proved",
   "theorems": [
    "C09_l2ball_projection"
   ],
   "note": ""
  },
  {
   "property": "C10",
   "status": "proved",
   "theorems": [
    "C10_unit_simplex"
   ],
   "note": "Over exact reals with scipy's default tolerances; non-convergence only for entries beyond 1e18."
  },
  {
   "property": "C11",
   "status": "proved",
   "theorems": [
    "C11_tv_l1_prox"
   ],
   "note": "Conditional, as in the property, on the external denoiser returning a minimiser for the columns it is given."
  },
  {
   "property": "C12",
   "status": "proved",
   "theorems": [
    "C12_parafac2_cross_products",
    "C12_too_few_rows"
   ],
   "note": "For every valid SVD routine."
  },
  {
   "property": "C13",
   "status": "proved",
   "theorems": [
    "C13_parafac2_descent",
    "C13_basis_step_optimal",
    "C13_coordinate_step_optimal"
   ],
   "note": ""
  },
  {
   "property": "C14",
   "status": "proved",
   "theorems": [
    "C14_rowwise_equals_matrixwise"
   ],
   "note": ""
  },
  {
   "property": "C15",
   "status": "proved",
   "theorems": [
    "C15_subtract_consistent"
   ],
   "note": ""
  },
  {
   "property": "C16",
   "status": "proved",
   "theorems": [
    "C16_penalty_value",
    "C16_penalty_of_list",
    "C16_parafac2_matrix_rejected",
    "C16_constructors"
   ],
   "note": ""
  },
  {
   "property": "C17",
   "status": "proved",
   "theorems": [
    "C17_init_aux_shapes",
    "C17_init_dual_shapes",
    "C17_given_tensor",
    "C17_given_list",
    "C17_given_pair",
    "C17_given_dual",
    "C17_given_entries",
    "C17_wrong_kind",
    "C17_errors",
    "C17_named_methods",
    "C17_named_parafac2",
    "C17_all_penalties"
   ],
   "note": ""
  },
  {
   "property": "C18",
   "status": "proved",
   "theorems": [
    "C18_constructor_accepts_iff_consistent",
    "C18_only_documented_errors",
    "C18_arrays_value_error",
    "C18_type_error",
    "C18_stacked_factors",
    "C18_revalidation"
   ],
   "note": ""
  },
  {
   "property": "C19",
   "status": "proved",
   "theorems": [
    "C19_to_matrix",
    "C19_to_matrix_out_of_range",
    "C19_to_matrices",
    "C19_invalid_rejected"
   ],
   "note": ""
  },
  {
   "property": "C20",
   "status": "proved",
   "theorems": [
    "C20_to_tensor",
    "C20_no_matrices"
   ],
   "note": ""
  },
  {
   "property": "C21",
   "status": "proved",
   "theorems": [
    "C21_to_unfolded",
    "C21_to_vec",
    "C21_without_padding",
    "C21_other_modes_rejected"
   ],
   "note": ""
  },
  {
   "property": "C22",
   "status": "proved",
   "theorems": [
    "C22_from_cp",
    "C22_from_cp_bad_shapes",
    "C22_from_cp_wrong_order",
    "C22_from_parafac2"
   ],
   "note": ""
  },
  {
   "property": "C23",
   "status": "proved",
   "theorems": [
    "C23_norm_of_the_data",
    "C23_reconstruction_error",
    "C23_reconstruction_error_after_A_update"
   ],
   "note": ""
  },
  {
   "property": "C24",
   "status": "proved",
   "theorems": [
    "C24_gap_values",
    "C24_zero_gap",
    "C24_feasibility_test",
    "C24_feasible_without_penalties"
   ],
   "note": "For nonzero factors, as in the property; the example C24_nan_gap shows what happens otherwise."
  },
  {
   "property": "C25",
   "status": "proved",
   "theorems": [
    "C25_C26_C31_update_C",
    "C25_C26_C31_update_A",
    "C25_C26_C31_update_B"
   ],
   "note": ""
  },
  {
   "property": "C26",
   "status": "proved",
   "theorems": [
    "C25_C26_C31_update_C",
    "C25_C26_C31_update_A",
    "C25_C26_C31_update_B"
   ],
   "note": ""
  },
  {
   "property": "C27",
   "status": "proved",
   "theorems": [
    "C27_exact_constraints",
    "C27_exact_constraints_throughout",
    "C27_fit_constraints",
    "C27_fit_user_penalties"
   ],
   "note": ""
  },
  {
   "property": "C28",
   "status": "proved",
   "theorems": [
    "C28_fixed_point_C",
    "C28_fixed_point_A",
    "C28_fixed_point_B"
   ],
   "note": ""
  },
  {
   "property": "C29",
   "status": "proved",
   "theorems": [
    "C29_errors_never_increase",
    "C29_fit_errors_never_increase"
   ],
   "note": ""
  },
  {
   "property": "C30",
   "status": "partial",
   "theorems": [
    "C30_objective_never_increases_partial",
    "C30_reported_loss_refuted"
   ],
   "note": "The property is false of the code: the reported loss can increase (refutation proved). What holds, the monotone decrease of the objective the updates minimise, is proved."
  },
  {
   "property": "C31",
   "status": "proved",
   "theorems": [
    "C25_C26_C31_update_C",
    "C25_C26_C31_update_A",
    "C25_C26_C31_update_B"
   ],
   "note": ""
  },
  {
   "property": "C32",
   "status": "proved",
   "theorems": [
    "C32_frozen_modes",
    "C32_fit_frozen"
   ],
   "note": ""
  },
  {
   "property": "C33",
   "status": "proved",
   "theorems": [
    "C33_histories",
    "C33_fit_reports"
   ],
   "note": ""
  },
  {
   "property": "C34",
   "status": "proved",
   "theorems": [
    "C34_stopping",
    "C34_fit_stopping"
   ],
   "note": ""
  },
  {
   "property": "C35",
   "status": "partial",
   "theorems": [
    "C35_absolute_criterion_partial",
    "C35_absolute_tol_alone_refuted"
   ],
   "note": "The property is false of the code when tol is unset: no such run ever stops early (proved). It is proved for tol set."
  },
  {
   "property": "C36",
   "status": "partial",
   "theorems": [
    "C36_diagnostics_change_fit_refuted",
    "C36_diagnostics_do_not_change_fit_partial"
   ],
   "note": "The property is false of the code (counterexample proved); it is proved for three classes of calls."
  },
  {
   "property": "C37",
   "status": "proved",
   "theorems": [
    "C37_longer_runs_extend",
    "C37_longer_runs_continue"
   ],
   "note": ""
  },
  {
   "property": "C38",
   "status": "proved",
   "theorems": [
    "C38_penalties_are_those_requested",
    "C38_built_penalties_valid",
    "C38_accepts_iff"
   ],
   "note": ""
  },
  {
   "property": "C39",
   "status": "proved",
   "theorems": [
    "C39_broadcast",
    "C39_forms_agree",
    "C39_wrong_length",
    "C39_bad_regs"
   ],
   "note": ""
  },
  {
   "property": "C40",
   "status": "proved",
   "theorems": [
    "C40_matrix_penalty_on_A",
    "C40_parafac2_mode"
   ],
   "note": ""
  },
  {
   "property": "C41",
   "status": "partial",
   "theorems": [
    "C41_given_start_partial",
    "C41_named_start_refuted"
   ],
   "note": "Proved for a given factorization. False of the code for the starts 'parafac' and 'parafac2', whose weights the first update discards (counterexample proved)."
  },
  {
   "property": "C42",
   "status": "partial",
   "theorems": [
    "C42_frame_partial",
    "C42_harmless_partial",
    "C42_duals_partial",
    "C42_A_holds",
    "C42_Bs_hold",
    "C42_init_refuted",
    "C42_aux_refuted",
    "C42_list_refuted",
    "C42_init_params_partial",
    "C42_init_params_refuted"
   ],
   "note": "False of the code: A and the list of the B_i of init and the auxiliary arrays of mode 0 are overwritten, and init_params gets the key n_iter_max (counterexamples proved). Proved for every call: nothing else is written, and what those objects hold afterwards."
  },
  {
   "property": "C43",
   "status": "proved",
   "theorems": [
    "C43_random_factorization",
    "C43_refused"
   ],
   "note": ""
  },
  {
   "property": "C44",
   "status": "proved",
   "theorems": [
    "C44_simulated_data",
    "C44_succeeds"
   ],
   "note": ""
  },
  {
   "property": "C45",
   "status": "proved",
   "theorems": [
    "C45_disk",
    "C45_result",
    "C45_errors",
    "C45_succeeds",
    "C45_cached"
   ],
   "note": ""
  },
  {
   "property": "C46",
   "status": "partial",
   "theorems": [
    "C46_interrupted_partial",
    "C46_interrupted_refuted"
   ],
   "note": "False of the code: a file cut short by an interruption is taken for the real one by every later call (proved for every cut). What holds, that at most one file is affected, is proved."
  },
  {
   "property": "C47",
   "status": "proved",
   "theorems": [
    "C47_mro_linearises",
    "C47_mro_refuses",
    "C47_mro_is_c3",
    "C47_single_class"
   ],
   "note": ""
  },
  {
   "property": "C48",
   "status": "partial",
   "theorems": [
    "C48_class_statement",
    "C48_accepted_iff",
    "C48_single_base_partial",
    "C48_nearest_definition_refuted"
   ],
   "note": "What each class statement does is proved in full, and with a single base the copied docstring is the nearest one. With several bases the documented rule is false of the code: a diamond copies the docstring of the common base although a nearer definition exists. The refutation is proved."
  },
  {
   "property": "C49",
   "status": "proved",
   "theorems": [
    "C49_parafac2_is_cmf",
    "C49_l2_default",
    "C49_default_calls"
   ],
   "note": ""
  },
  {
   "property": "C50",
   "status": "proved",
   "theorems": [
    "C50_approach_C",
    "C50_approach_A",
    "C50_approach_B"
   ],
   "note": ""
  },
  {
   "property": "C51",
   "status": "proved",
   "theorems": [
    "C51_update_C_total",
    "C51_update_A_total",
    "C51_update_B_total",
    "C51_run_total",
    "C51_fit_total"
   ],
   "note": ""
  },
  {
   "property": "C52",
   "status": "proved",
   "theorems": [
    "C52_padding"
   ],
   "note": ""
  },
  {
   "property": "C53",
   "status": "proved",
   "theorems": [
    "C53_random_start",
    "C53_svd_start",
    "C53_parafac_start",
    "C53_parafac2_start",
    "C53_unknown_start",
    "C53_init_params"
   ],
   "note": "For every SVD routine returning vectors of the right shapes and every result of the initial decompositions."
  },
  {
   "property": "C54",
   "status": "partial",
   "theorems": [
    "C54_unimodal_refuted"
   ],
   "note": "False of the code: the cyclic shift puts the decreasing tail in front of the rise, so from the third matrix on no component vector is unimodal; those of the first matrix are. Both are proved."
  },
  {
   "property": "C55",
   "status": "partial",
   "theorems": [
    "C55_retry_partial",
    "C55_bad_download_refuted"
   ],
   "note": "False of the code: an unreadable answer with status 200 is saved before it is parsed and makes every later call fail. Proved for servers whose answers with status 200 are readable."
  },
  {
   "property": "C56",
   "status": "partial",
   "theorems": [
    "C56_aligned_partial",
    "C56_succeeds",
    "C56_equal_names_refuted"
   ],
   "note": "Proved when the sample names differ; with equal names the code pairs measurements of one sample with metadata of another (refutation proved)."
  },
  {
   "property": "C57",
   "status": "partial",
   "theorems": [
    "C57_values_partial",
    "C57_call_partial",
    "C57_shared_aux_refuted"
   ],
   "note": "False of the code when one array is passed as aux_init of several penalties on A (counterexample proved). Proved when A, the auxiliary and the dual arrays of mode 0 are different objects: the fit with objects overwritten in place returns and raises what the model with values does."
  },
  {
   "property": "C58",
   "status": "proved",
   "theorems": [
    "C58_keyword_constraints",
    "C58_user_penalties",
    "C58_double_precision"
   ],
   "note": ""
  },
  {
   "property": "C59",
   "status": "proved",
   "theorems": [
    "C59_factors",
    "C59_reports"
   ],
   "note": ""
  },
  {
   "property": "C60",
   "status": "proved",
   "theorems": [
    "C60_unpack",
    "C60_rebuild"
   ],
   "note": ""
  },
  {
   "property": "C61",
   "status": "proved",
   "theorems": [
    "C61_invariant_points",
    "C61_reduces_penalty",
    "C61_nonexpansive",
    "C61_simplex_invariant",
    "C61_parafac2_invariant"
   ],
   "note": "For total variation the external denoiser, for PARAFAC2 the external SVD is assumed correct."
  },
  {
   "property": "C62",
   "status": "partial",
   "theorems": [
    "C62_bike_tables_partial",
    "C62_metadata",
    "C62_succeeds",
    "C62_failures",
    "C62_other_hours_refuted"
   ],
   "note": "Entries are shown under the right hour if the city has the same hours as Oslo, in the same order; without this condition the property is false of the code (refuted)."
  },
  {
   "property": "C63",
   "status": "proved",
   "theorems": [
    "C63_same_result",
    "C63_silent",
    "C63_lines",
    "C63_negative"
   ],
   "note": ""
  },
  {
   "property": "C64",
   "status": "partial",
   "theorems": [
    "C64_converged_count_refuted",
    "C63_lines"
   ],
   "note": "False of the code: the printed number is one less (refuted by a concrete fit). What holds, for every fit that converges: it is n_iter - 1 (last_line in C63_lines)."
  },
  {
   "property": "C65",
   "status": "proved",
   "theorems": [
    "C65_rate_C",
    "C65_rate_A",
    "C65_rate_B",
    "C65_converges_C",
    "C65_converges_A",
    "C65_converges_B",
    "C65_compatible",
    "C65_compatible_l"
   ],
   "note": "Exact arithmetic; feasibility penalties positive; on mode 0 with one feasibility penalty per row the penalties must be row-wise (the others raise AttributeError there, C40). A single convex penalty, and any list without box constraints, is compatible."
  },
  {
   "property": "C66",
   "status": "partial",
   "theorems": [
    "C66_refused_partial",
    "C66_models_agree",
    "C66_too_few_raises",
    "C66_too_few_which",
    "C66_further_matrices_ignored",
    "C66_rank_unused",
    "C66_too_few_refuted"
   ],
   "note": "False of the code: with A and the B_i fixed a start for the first matrices only is accepted and all further data matrices are ignored (refutation proved), and another rank is accepted when nothing is imposed (C66_rank_unused). Proved: wrong sizes raise ValueError, too many matrices IndexError, a wrong rank ValueError when something is imposed and neither rank is 1 (numpy broadcasting is not modelled). Too few matrices are never accepted when A or the B_i are updated and there is an iteration to do (C66_too_few_raises); the exception is IndexError, or ValueError when something is imposed on A (C66_too_few_which)."
  },
  {
   "property": "C67",
   "status": "proved",
   "theorems": [
    "C67_order",
    "C67_both_return"
   ],
   "note": "Exact arithmetic (sums over the matrices are reordered); random starts are excluded, since they draw in the order of the matrices. Which exception is raised can depend on the order."
  },
  {
   "property": "C68",
   "status": "proved",
   "theorems": [
    "C68_resume",
    "C68_can_continue",
    "C68_no_weights"
   ],
   "note": "Exact arithmetic (the returned basis matrices of PARAFAC2 pass the 1e-8 check of the second call). The returned weights must be None, which C68_no_weights shows as soon as an iteration updates a mode. The second call gets the penalties as objects, since keywords cannot carry initial variables."
  },
  {
   "property": "C69",
   "status": "proved",
   "theorems": [
    "C69_components"
   ],
   "note": "Exact arithmetic. Case of C71_change with unit factors."
  },
  {
   "property": "C70",
   "status": "proved",
   "theorems": [
    "C70_rows_and_columns"
   ],
   "note": "Exact arithmetic. Penalties that look at the order of the rows are allowed on modes whose order is kept."
  },
  {
   "property": "C71",
   "status": "proved",
   "theorems": [
    "C71_change",
    "C71_any_start",
    "C71_parafac2"
   ],
   "note": "Exact arithmetic. Unit simplex, unimodality and total variation are covered where the unit of their mode is kept (factor 1) only. With PARAFAC2 (rows of the B_i in place) the routine must give the same orthonormal matrix for M and u^2 M (same_nearest); C71_parafac2 replaces this by any correct routines, for calls that return with a routine that refuses matrices with dependent columns. C71_any_start takes any two starts that correspond (named starts included), C71_change given factors with zero variables."
  },
  {
   "property": "C72",
   "status": "proved",
   "theorems": [
    "C72_svd_choice",
    "C72_parafac2"
   ],
   "note": "Exact arithmetic. A routine that truncates is correct for matrices with k columns and at least k rows, which is all the fit asks for. With PARAFAC2 the basis matrices are not unique when a product is rank deficient: C72_parafac2 covers the calls that return with a routine that refuses such matrices."
  },
  {
   "property": "C73",
   "status": "proved",
   "theorems": [
    "C73_slopes_follow_steps",
    "C73_rate",
    "C73_fit_stationary",
    "C73_fit_converges"
   ],
   "note": "slopes_follow_steps and rate: runs, with explicit bound for the sum of squared steps; fit_stationary: whole calls that return; fit_converges: calls that cannot fail (C51), so enough iterations always succeed. Slopes are derivatives along lines through the returned factors (StationarySpec.v)."
  },
  {
   "property": "C74",
   "status": "proved",
   "theorems": [
    "C74_builtin_classes"
   ],
   "note": "Every arithmetic. user_fit is the fit with dynamic dispatch (Custom.v). The second alternative: user_fit stops with NotModelled where the other raises an exception."
  },
  {
   "property": "C75",
   "status": "proved",
   "theorems": [
    "C75_parametrisation",
    "C75_transposed"
   ],
   "note": "Every arithmetic; alike is defined in CustomSpec.v from the methods of the objects only."
  },
  {
   "property": "C76",
   "status": "proved",
   "theorems": [
    "C76_own_variables",
    "C76_invariant",
    "C76_ensured"
   ],
   "note": "Every arithmetic. Objects whose methods change the object itself are not modelled."
  },
  {
   "property": "C77",
   "status": "proved",
   "theorems": [
    "C77_row_classes",
    "C77_matrix_classes",
    "C77_missing_method",
    "C77_abstract_classes",
    "C77_inherited_matrices",
    "C77_builtin_matrices"
   ],
   "note": "Every arithmetic. Non-vacuity: the cases of P31_Custom.v and C77_matrices_nonvacuous."
  },
  {
   "property": "C78",
   "status": "proved",
   "theorems": [
    "C78_projection",
    "C78_fit"
   ],
   "note": "Real arithmetic."
  },
  {
   "property": "C79",
   "status": "proved",
   "theorems": [
    "C79_user_fit_total"
   ],
   "note": "Real arithmetic; keyword constraints may be non-negativity, bounds, norm bound and unimodality (asks_plain, as in C51); SVD correct. sound_object is defined in CustomTotalSpec.v."
  },
  {
   "property": "C80",
   "status": "proved",
   "theorems": [
    "C80_fit_failures",
    "C80_user_fit_failures"
   ],
   "note": "Real arithmetic; SVD correct and of the documented shapes. in_order, reliable_object and uses_simplex are defined in FailSpec.v. NonFinite is the model's name for a division by zero, where numpy goes on with inf or nan. ex_division_by_zero shows a call that is in order and does divide by zero. Starts from tensorly's decompositions are left out."
  },
  {
   "property": "C81",
   "status": "partial",
   "theorems": [
    "C81_files_partial",
    "C81_results_partial",
    "C81_alone",
    "C81_alone_succeeds",
    "C81_half_written_refuted",
    "C81_hole_refuted"
   ],
   "note": "False as stated: the file is written in place, so a second call can find it half written and raise (C81_half_written_refuted), and a second process that opens the file and dies leaves a file with a hole although the first call succeeded, which all later calls load (C81_hole_refuted). Proved for every schedule: existing files are safe, new files are damaged copies at worst and complete once all processes have ended without disk failure, and returned values come from the old copy, the server's copy or a damaged copy of it. C81_alone: with one process the model is that of C45."
  },
  {
   "property": "C82",
   "status": "proved",
   "theorems": [
    "C82_only_A",
    "C82_only_B",
    "C82_only_C"
   ],
   "note": "For the whole call. The constraints need a common interior point (has_room), the feasibility penalties must be positive, and for A without a constant feasibility penalty only row-wise penalties are allowed (the code refuses others). The call with no iterations must return: it gives the starting factors. C82_nonvacuous: three calls whose limit is 1/2."
  },
  {
   "property": "C83",
   "status": "proved",
   "theorems": [
    "C83_turned",
    "C83_parafac2",
    "C83_given"
   ],
   "note": "C83_turned: any two corresponding starts. C83_given: given factors, auxiliary and dual variables starting at zero, stated without mentioning internal variables. C83_parafac2: PARAFAC2 with turned rows; 'all matrices decomposed have independent columns' is said by an svd routine that refuses the others and is otherwise the same: if the first call returns with it, both calls return with the ordinary routine and correspond (without that condition the claim is false: the svd of a dependent matrix is a free choice of the routine). C83_nonvacuous, C83_parafac2_nonvacuous."
  },
  {
   "property": "C84",
   "status": "partial",
   "theorems": [
    "C84_lowest_loss",
    "C84_scores",
    "C84_converged_partial",
    "C84_smallest_error",
    "C84_fit_scores",
    "C84_last_converged",
    "C84_simulated_refuted"
   ],
   "note": "Proved for the bike sharing and number-of-components scripts (C84_lowest_loss, C84_scores: any ordered arithmetic and any list of starts; C84_smallest_error, C84_fit_scores: the actual calls over the reals). False for the simulated-data scripts, which compare the loss with the reconstruction error of the kept model: C84_simulated_refuted (two converged double-precision runs; the worse second is kept), C84_last_converged (over the reals the last converged start is kept whenever e_i^2/2 < e_j). What remains true of them: C84_converged_partial. C84_nonvacuous."
  },
  {
   "property": "C85",
   "status": "proved",
   "theorems": [
    "C85_gallery_data",
    "C85_succeeds"
   ],
   "note": "gallery_data covers plot_simulated_nonnegative.py and plot_examining_different_number_of_components.py; the data of plot_custom_penalty.py are in C92. Non-vacuity: C85_nonvacuous."
  },
  {
   "property": "C86",
   "status": "proved",
   "theorems": [
    "C86_standardised",
    "C86_normalised",
    "C86_clipped",
    "C86_stacked"
   ],
   "note": "Non-vacuity: C86_standardised_nonvacuous, ex_pf2_valid (used in C87_smallest_first_refuted_nonvacuous), C87_largest_first_partial_nonvacuous (valid, non-negative factors)."
  },
  {
   "property": "C87",
   "status": "partial",
   "theorems": [
    "C87_largest_first_partial",
    "C87_smallest_first_refuted",
    "C87_tv_smallest_first_refuted"
   ],
   "note": "True of the bike sharing script (C87_largest_first_partial). False of the semiconductor etch script, which sorts in ascending order: for every PARAFAC2 tensor the first component shown is the one that contributes least (C87_smallest_first_refuted), and likewise for the regularised model when A and C are normalised (C87_tv_smallest_first_refuted). Examples: C87_smallest_first_refuted_nonvacuous (contributions 1 and 3, the smaller first), C87_largest_first_partial_nonvacuous."
  },
  {
   "property": "C88",
   "status": "partial",
   "theorems": [
    "C88_order_partial",
    "C88_objects_partial",
    "C88_zero_factor_refuted"
   ],
   "note": "True unless the factor of a mode with several penalties becomes exactly zero while another mode has penalties too (C88_order_partial; C88_objects_partial without any hypothesis on the start when no variable is drawn). Then the maximum in _check_feasibility drops NaN: in C88_zero_factor_refuted the same two penalties give feasible or infeasible depending on their order, and the result called feasible has an infinite gap. Non-vacuity: C88_nonvacuous."
  },
  {
   "property": "C89",
   "status": "partial",
   "theorems": [
    "C89_feasible_partial",
    "C89_entries_partial",
    "C89_reached_A",
    "C89_reached_B",
    "C89_reached_C",
    "C89_zero_factor_refuted"
   ],
   "note": "Proved for runs whose last feasibility gaps are not NaN, which is so whenever no penalised factor is exactly zero. With a zero factor the claim is false (C89_zero_factor_refuted, in double precision: A = 0, bounds 1 and 2, reported feasible). Non-vacuity: C89_nonvacuous."
  },
  {
   "property": "C90",
   "status": "proved",
   "theorems": [
    "C90_keywords",
    "C90_same_values",
    "C90_same_objects",
    "C90_lower_bound_zero"
   ],
   "note": "For every number type whose zero is falsy (ex_zero_falsy: reals and doubles). regs is None or a list of three lists. Non-vacuity: ex_requests."
  },
  {
   "property": "C91",
   "status": "proved",
   "theorems": [
    "C91_padded",
    "C91_parafac2",
    "C91_given"
   ],
   "note": "Exact arithmetic. With PARAFAC2 and added rows: if no matrix with dependent columns is decomposed (C91_parafac2), since the nearest orthonormal matrix is not unique otherwise. Total variation, unimodality and generalised L2 penalties on padded modes are excluded: there zeros are not neutral. Non-vacuity: C91_nonvacuous."
  },
  {
   "property": "C92",
   "status": "partial",
   "theorems": [
    "C92_custom_data_partial",
    "C92_wrapped_refuted",
    "C92_succeeds"
   ],
   "note": "False of the script: rows are moved cyclically, so from B_2 on the tail of each density stands in front of its rise and none of the components called unimodal is (C92_wrapped_refuted, for all draws). Everything else is proved, and unimodality for B_0 and B_1. Non-vacuity: C92_nonvacuous, with the sizes of the script."
  },
  {
   "property": "C93",
   "status": "proved",
   "theorems": [
    "C93_text",
    "C93_determined",
    "C93_lines",
    "C93_listing",
    "C93_readme_differs"
   ],
   "note": "Every arithmetic. Python's repr of numbers and arrays is a parameter. The output shown in README.rst has the parameters in another order than the code prints them (C93_readme_differs). Non-vacuity: C93_nonvacuous."
  },
  {
   "property": "C94",
   "status": "partial",
   "theorems": [
    "C94_stricter_runs_longer_partial",
    "C94_histories_extend",
    "C94_feasibility_tol_refuted"
   ],
   "note": "Proved for all three tolerances with return_errors=True, and for tol and absolute_tol without. False of the code for feasibility_tol without return_errors (C94_feasibility_tol_refuted): losses of infeasible iterations are then not recorded, so the relative criterion compares iterations that do not follow each other, and the call with the smaller feasibility_tol stops first. absolute_tol=None together with a tol is excluded, it raises TypeError (C35). Non-vacuity: C94_nonvacuous."
  },
  {
   "property": "C95",
   "status": "proved",
   "theorems": [
    "C95_start_at_rest_is_returned",
    "C95_start_at_rest_succeeds",
    "C95_perfect_start_is_kept"
   ],
   "note": "The converse of C28: fixed points of the updates are returned. The certificate is the one of OptSpec.v (Lagrange multipliers); weights of the start are None. Non-vacuity: C95_nonvacuous (any number of iterations, with tolerances), C95_multiplier (rest without an exact fit)."
  },
  {
   "property": "C96",
   "status": "proved",
   "theorems": [
    "C96_start_at_rest_is_returned",
    "C96_start_at_rest_succeeds",
    "C96_exact_parafac2_is_kept"
   ],
   "note": "C95 for the PARAFAC2 constraint, which is not convex. The pair (bases, coordinate matrix) may be replaced by another pair for the same matrices, so auxiliary variables are compared as matrices. Non-vacuity: C96_nonvacuous (two matrices of different heights, non-negativity and PARAFAC2, any numbers of iterations)."
  },
  {
   "property": "C97",
   "status": "proved",
   "theorems": [
    "C97_factors",
    "C97_converged",
    "C97_bike",
    "C97_nonnegative",
    "C97_scree"
   ],
   "note": "C97_factors and C97_converged are about script_call with any keyword and constraint objects; the others are the three scripts. Gaps that are nan are excluded because they pass the feasibility check (see C34). Non-vacuity: C97_nonvacuous, the bike sharing call on a 4 x 1 matrix with a random stream whose start fits the data, which converges."
  },
  {
   "property": "C98",
   "status": "proved",
   "theorems": [
    "C98_explained",
    "C98_errors_at_most_one",
    "C98_penalised_refuted"
   ],
   "note": "Boundary: C98_penalised_refuted (non-negativity on the mode updated last, one iteration: relative error 3/2). Non-vacuity: C98_nonvacuous (ridge on all modes, non-negativity, unimodality and an upper bound on the B_i, a norm ball on C)."
  },
  {
   "property": "C99",
   "status": "proved",
   "theorems": [
    "C99_equal_components",
    "C99_equal_columns",
    "C99_equal_rows",
    "C99_equal_matrices"
   ],
   "note": "Follows from the symmetry theorems (C67, C69, C70) applied to the exchange of the two equal parts: the exchanged problem is the same problem. Non-vacuity: C99_components_nonvacuous, C99_rows_columns_nonvacuous, C99_matrices_nonvacuous."
  },
  {
   "property": "C100",
   "status": "proved",
   "theorems": [
    "C100_tolerances_never_met",
    "C100_last_error",
    "C100_model_vanishes"
   ],
   "note": "The case data_sumsq = 0, which the theorems on recorded errors (C33, C34) leave out. Non-vacuity: C100_nonvacuous, C100_vanishes_nonvacuous."
  },
  {
   "property": "C101",
   "status": "proved",
   "theorems": [
    "C101_determined",
    "C101_fit_summary"
   ],
   "note": "Decimal digits and tuples are printed by CmfRepr.v (two literal texts: C101_text). Non-vacuity: C101_nonvacuous."
  },
  {
   "property": "C102",
   "status": "proved",
   "theorems": [
    "C102_start_returned",
    "C102_settings_do_not_matter"
   ],
   "note": "For every arithmetic, without axioms; what the feasibility flag means needs a total order and no nan. Non-vacuity: C102_nonvacuous."
  },
  {
   "property": "C103",
   "status": "proved",
   "theorems": [
    "C103_written_out",
    "C103_default_stopping",
    "C103_default_returns"
   ],
   "note": "Over the reals; svd assumed correct. Non-vacuity: C103_nonvacuous."
  },
  {
   "property": "C104",
   "status": "proved",
   "theorems": [
    "C104_random_numbers",
    "C104_no_penalties"
   ],
   "note": "C104_random_numbers holds in every arithmetic, C104_no_penalties over the reals. Starts fitted by tensorly are left out. Non-vacuity: C104_nonvacuous, C104_defaults_free; C104_random_variables_matter shows that the condition is needed."
  },
  {
   "property": "C105",
   "status": "proved",
   "theorems": [
    "C105_random_length",
    "C105_fixtures"
   ],
   "note": "Over the reals; the generator is any one whose Poisson variates are not negative, whose integers lie in the range asked for and whose uniform numbers are positive. Non-vacuity: C105_nonvacuous."
  },
  {
   "property": "C106",
   "status": "proved",
   "theorems": [
    "C106_stronger",
    "C106_total_variation",
    "C106_feasibility_penalty",
    "C106_tighter",
    "C106_unimodality"
   ],
   "note": "Over the reals; total variation denoiser assumed correct. Non-vacuity: C106_nonvacuous, C106_unimodality_nonvacuous."
  }
 ]
}
