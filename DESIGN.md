# Formal model of matcouply: design and trusted base

The model is written in Coq 8.16.1 under `rocq/theories` (logical name `Verif`).  It is a shallow
embedding: every Python function becomes a Gallina function with the same branches, and exceptions
are values (`res A := Ok a | Err exn`).  Every definition of the model cites the file and lines of
`/repo` it models and says where it simplifies.

The parts of a property:

* the **model** (`Unimodal.v`, `Penalties.v`, `Decomp.v`, ...): what the code does;
* the **specification** (`Spec.v`, `*Spec.v`): what the words of the property mean, on plain entries,
  sums and lists, without the model's algorithms;
* the **theorems** (`P01_*.v` ... ): one file for each part of the library, every theorem with the property's
  number in its name, followed by `Print Assumptions` and, in the same file or in the `*Examples.v` file
  named there, by a concrete case that meets its hypotheses;
* the remaining files hold the proofs.

Suffixes: `_partial` means that only part of the property is proved (the note in `MANIFEST.json` and the
comment above the theorem say what is missing); `_refuted` means that the property, read as documented,
is false of the code, and the theorem proves its negation with a concrete or general witness.

## Trusted base

1. Coq's kernel (with `vm_compute` in a few examples and counterexamples over rationals).
2. The axioms listed by `Print Assumptions` (for every theorem: the last section of this file, written by
   `tools/assumptions.py`).  They are all from the standard library:
   * `ClassicalDedekindReals.sig_forall_dec`, `ClassicalDedekindReals.sig_not_dec` and
     `FunctionalExtensionality.functional_extensionality_dep`: Coq's real numbers.  All theorems about real
     arithmetic depend on these three.
   * `Classical_Prop.classic`: enters with the real-analysis part of the standard library (square roots of
     sums, `exp`, maxima of finite families) in the theorems of P04-P11 and P24-P30 about whole
     runs and the B_i, and in P14.
   * `IndefiniteDescription.constructive_indefinite_description`: only in `C30_reported_loss_refuted`,
     `C36_diagnostics_change_fit_refuted`, `C41_named_start_refuted`, `C66_too_few_refuted`, `C65_converges_A/B/C`, `C82_only_A/B/C` (choosing a minimising sequence) and
     the non-vacuity examples that use `Ideal.v` (choosing an SVD routine that is correct for all matrices).
   * Theorems of P12, P15, P16, nearly all of P17, all of P18, P19, P21-P23 and P31, and `C24_feasible_without_penalties`,
     `C39_broadcast`, `C39_forms_agree` need no axiom.
   * vcheck also lists opaque constants of the standard library (`RbaseSymbolsImpl.*`, `RinvImpl.*`) and
     of ssreflect (`Under_rel`); these are module items with definitions, not axioms.
3. The reading of Python in the model, described below.

No axioms, functors, module types, `Admitted` or switched-off checks are used.

## Numbers

All numeric definitions are written once over an arbitrary record of operations (`Num` in `Num.v`: 0, 1, +,
-, *, /, comparison, sqrt, literals; no laws).  Instances:

* `RNum`: the real numbers.  Theorems about optimality, errors, losses and constraints of the L2 ball,
  the simplex and PARAFAC2 are about this instance, that is, about exact arithmetic.
* every `N : Num`: theorems about control flow, memory, shapes and order hold for any arithmetic (P17, P18).
  P18 assumes that the comparison is a total order (`ordered`) and, for some clauses, that products of
  non-negative numbers are non-negative (`product_signs`); no law of addition, rounding or square roots is assumed.
* `DNum` (`Binary64.v`): IEEE double precision as specified in the standard library (`SpecFloat`), with infinities and `nan`; the only
  difference is that `<=` puts `nan` above all numbers, whereas numpy's comparisons with `nan` are false.  P23 applies P18 to it and runs a fit
  of 27 iterations in double precision.
* `FNum` (`FixedPoint.v`): integers counting thousandths, every operation rounding down; shows that the hypotheses of
  P18 are met by an arithmetic that is neither associative nor distributive.
* `QNum`: rationals, to run the same definitions with `vm_compute` (counterexamples).

Division by zero and singular systems: numpy goes on with `nan` or `inf`, the model stops with
`Err NonFinite`.  So a result `Ok` of the model is a run in which no such division happened; theorems of the form
"if the call returns, then ..." are about those runs.  Feasibility gaps and losses are the exception: they
are extended numbers (`Fin`, `PInf`, `NaN`), because the code compares them.

## External routines

| routine | in the model | assumed in theorems |
|---|---|---|
| `svd` (tensorly) | arbitrary function `x_svd` | `svd_correct`/`has_svd`: its result is a singular value decomposition of the argument (only where the theorem says so) |
| `condat_tv.tv_denoise_matrix` | arbitrary function `x_tv` | `tv_correct`: returns a minimiser of its documented objective |
| `scipy.optimize.bisect` | modelled, the loop with its default tolerances | nothing |
| `parafac`, `non_negative_parafac_hals`, `parafac2` (tensorly) | arbitrary functions | `ranks_kept`: result has the requested rank |
| `numpy.linalg.eigvalsh` | arbitrary function `e_eigvals` | appears in the statement (`acceptable`) |
| random generators | arbitrary streams, read in order | nothing |
| disk, network, `loadmat` | explicit world, oracle for every answer and fault, arbitrary parser | stated in each theorem |
| Python's `int`, MATLAB record access | arbitrary functions | nothing |

`Exist.v`/`Ideal.v` prove that routines meeting these assumptions exist, so the hypotheses are not vacuous.

## What is modelled

| file of /repo | model | not modelled |
|---|---|---|
| `_unimodal_regression.py` | `Unimodal.v`: everything | numpy dtype rules other than integer truncation on assignment (C05) |
| `penalties.py` | `Penalties.v` (constructors, `penalty`, `factor_matrix(es)_update`, row updates, `subtract_from_aux(es)`, `auxes_as_matrices`), `InitVars.v` (`init_aux`, `init_dual`), `Repr.v` (`__repr__`), `Custom.v` (base classes as templates for classes written by users: abstract methods, inherited methods, the fit with method lookup) | penalty objects whose methods change the object |
| `coupled_matrices.py` | `CoupledMatrices.v`: validation, `from_CPTensor`, `from_Parafac2Tensor`, `to_matrix(ces)`, `to_tensor`, `to_unfolded`, `to_vec`; `CmfObject.v`: instances, `__getitem__`, `__iter__`, `__len__`; `CmfRepr.v`: `__repr__` | generators, strings and dictionaries as arguments |
| `decomposition.py` | `Decomp.v` (updates, gaps, error, outer loop), `Parse.v` (`_listify`, `_parse_mode_penalties`, `_parse_all_penalties`), `Fit.v` (`initialize_cmf`, `cmf_aoadmm`, `parafac2_aoadmm`), `Heap.v` (the same loops with arrays and lists overwritten in place), `Verbose.v` (what is printed and when), `Repr.v` (text of the list of penalties), `InitParams.v` (`init_params`), `ShortStart.v` (starts for too few matrices) | wording of the other printed text, shape errors raised inside numpy (`NotModelled`) |
| `random.py` | `RandomGen.v`: everything | seeding of the generator |
| `data.py` | `DataSim.v` (`get_simple_simulated_data`), `DataCache.v` (`get_semiconductor_etch_raw_data`), `DataConcurrent.v` (several calls of it at once), `EtchMachine.v` (`get_semiconductor_etch_machine_data`), `BikeData.v` (`get_bike_data`, for any content of its archive, which is not in /repo) | names of data frame indices and columns other than the variables, dates out of range, time zone of the labels |
| `_doc_utils.py` | `DocUtils.v`: `mro`, the metaclass, the decorator | properties and descriptors beyond plain attributes |
| `_utils.py` | in `Fit.v` (padding, shapes) and `Parse.v` (`is_iterable`); `get_svd` as a check that the name is known | |
| `examples/` | `CustomExample.v`: the class `UnimodalAllExceptLast` of plot_custom_penalty.py; `Gallery.v`: calls and choice among starts, simulated data of two scripts (of plot_custom_penalty.py in `GalleryCustom.v`), standardising, normalising, ordering, clipping and stacking of components | plots, printed text, the PARAFAC2-ALS of TensorLy |
| `testing/` | not code that runs in a fit: the contract its test mixins check on random inputs (invariant points, changed inputs, reduced penalty) is proved for all inputs as C61; `Fixtures.v`: `random_length` and the fixtures for shapes and factorizations | pytest, the seed, the fixtures of normal matrices of fixed size |

`Err NotModelled` marks the places where the code goes on in a way the model does not follow: numpy
broadcasting of a 1-row or 1-column initial factor, starts with too few matrices (but see `ShortStart.v`), empty data, norm matrices without a
shape, rebinding of the decorator's name inside a class body.  No theorem claims anything about
such calls except that "returns" excludes them.

Mutable state: `Decomp.v` computes with values.  `Heap.v` repeats the loops with a heap of arrays and lists and
P17 proves that both agree whenever the caller's arrays do not overlap (C57), which objects of the
caller can change (C42), and counterexamples otherwise.

## Findings

Behaviour of the code that departs from its documentation or is likely to surprise, found while proving:

* C05: integer input to `unimodal_regression` truncates the fitted levels.
* C30, C36: with `return_errors=False` the loss is not recorded in infeasible iterations (`continue`), so the relative
  criterion compares with an older loss; requesting diagnostics can change the fit.  The reported loss
  normalises the data term and can increase although the minimised objective decreases.
* C35: `absolute_tol` alone (without `tol`) never stops the fit; a falsy `feasibility_tol` means it never stops
  early; `absolute_tol=None` with `tol` set raises `TypeError`.
* C40: penalties on A that act on the whole matrix raise `AttributeError` in the first iteration unless `constant_feasibility_penalty` is set.
* C41: the weights found by the `parafac`/`parafac2` starts are dropped by the first update of A.
* C42, C57: the caller's initial A, the list of the initial B_i and mode-0 `aux_init` arrays are overwritten in place; one array
  passed as `aux_init` of two penalties changes the result; B_is given as a tuple would raise in the second inner iteration.
* C46, C55: a file cut short by an interruption, or an unreadable answer with status 200, is taken from the
  cache by every later call.
* C48: docstring inheritance with several bases uses `getattr` on the first class of the order that has the attribute, which need not
  be the nearest definition, and can pick up metaclass attributes.
* C54: the cyclic shifts of the simulated component vectors are not unimodal.
* C62: `get_bike_data` labels the columns of all cities with the hours of Oslo; if another city has other hours (or another order), its numbers are shown under wrong hours.
* C63, C64: with `verbose`, "converged in k iterations" names one iteration less than were made; a negative `verbose` prints the first and last lines only;
  the printed list of penalties includes those of frozen modes, which are not used.
* C42: `init_params` gets the key `n_iter_max` when it is missing, also when the name of the start is unknown and the call raises.
* C66: with A and the B_i fixed, a given start for the first few matrices is accepted and all further data matrices are ignored without a warning; a given start of another
  rank than `rank` is accepted when nothing is imposed.
* C84: plot_simulated_nonnegative.py and plot_custom_penalty.py compare the loss of a start with the reconstruction error of the kept one, so a later, worse start replaces a better one; the "fit score" of
  plot_examining_different_number_of_components.py is 1 - e^2/2 for the relative error e, so it is never below 1/2 when e <= 1.
* C87: plot_semiconductor_etch_analysis.py sorts the components in ascending order and shows the smallest first, although the comment says the first explains most.
* C88: `_check_feasibility` takes Python's `max` of gaps that can be NaN (a factor that is exactly zero): the NaN of one mode is dropped when a later mode has a finite gap, so a result with an infinite gap is
  reported as feasible, depending on the order of the penalties.
* C92: in plot_custom_penalty.py the components that the text calls unimodal are not unimodal from the third matrix on, because `np.roll` brings the end of the density to the front.
* C93: the list of penalties shown in README.rst is not what the code prints: the order of the parameters differs. The printed text has an unmatched closing parenthesis.
* C94: without `return_errors`, a smaller `feasibility_tol` can end a fit earlier, at another result: iterations skipped as infeasible leave no loss behind, and the relative criterion compares with the last recorded loss.
* C100: with all-zero data the relative error is 0/0, so no tolerance is ever met and all iterations are carried out.
* C56: equal sample names pair measurements with the metadata of another sample.
* Others: `l2_norm_bound=0` and strength 0 are ignored silently; a negative `l2_penalty` or feasibility scale is accepted; Box with a
  negative upper bound plus `non_negative` gives negative values; `rank` is ignored when `init` is a factorization and there are no penalties;
  weights of `init` are multiplied in before they are validated; penalties of frozen modes are missing from the reported loss;
  `regs` given as tuples raise `TypeError` when keyword penalties are added, and a fourth list is ignored;
  `GeneralizedL2Penalty` accepts eigenvalues down to -1e-14;
  the documented feasibility gap divides by the norm of the auxiliary variable, the code by the norm of the factor; `__prepare__` passes `*kwds`.

## Wrong-program experiments

`seeded/LOG.jsonl` has one line for each edit of the model that was tried; `seeded/mutants/` holds the
edits and the script that applies them to a scratch copy and rebuilds.  "theorems_failed" lists the lemma or theorem
whose proof broke first and the property's theorems that depend on it.

## Properties

Each line: what is proved, how, and by which theorems.  The full statements are in `properties.jsonl`.

| id | property | status | modelled and proved how | theorems |
|---|---|---|---|---|
| C01 | unimodal_regression returns unimodal vectors | proved | `prefix_isotonic_regression` and its callers, loop for loop; invariant of the pool-adjacent-violators stack, optimality by the block-mean certificate, best split by induction. | `C01_unimodal_output`, `C01_unimodal_output_columns`, `C01_empty_rejected` |
| C02 | unimodal_regression is the least-squares projection | proved | `prefix_isotonic_regression` and its callers, loop for loop; invariant of the pool-adjacent-violators stack, optimality by the block-mean certificate, best split by induction. | `C02_unimodal_projection`, `C02_unimodal_fixed`, `C02_unimodality_update` |
| C03 | non-negative unimodal regression is the projection onto non-negative unimodal vectors | proved | `prefix_isotonic_regression` and its callers, loop for loop; invariant of the pool-adjacent-violators stack, optimality by the block-mean certificate, best split by induction. | `C03_nonneg_unimodal_projection` |
| C04 | prefix isotonic regression solves every prefix | proved | `prefix_isotonic_regression` and its callers, loop for loop; invariant of the pool-adjacent-violators stack, optimality by the block-mean certificate, best split by induction. | `C04_prefix_isotonic` |
| C05 | unimodal_regression accepts integer arrays | partial | The same functions with truncating storage; witness. The property is false of the code: integer arrays truncate the fitted levels. The refutation is proved. What remains true for any storage conversion and any arithmetic with a total order: the result is unimodal (and non-negative when requested). | `C05_integer_arrays_refuted`, `C05_any_storage_partial` |
| C06 | box and non-negativity updates are projections | proved | Penalty classes; entrywise optimality lifted to matrices; uniqueness from strong convexity. | `C06_nonneg_projection`, `C06_box_projection`, `prox_unique` |
| C07 | L1 update is the proximal operator of the L1 penalty | proved | Penalty classes; entrywise optimality lifted to matrices; uniqueness from strong convexity. | `C07_l1_prox`, `prox_unique` |
| C08 | generalized L2 update is the proximal operator of x^T M x | proved | Quadratic optimality from the SVD certificate. For every valid SVD of the norm matrix. | `C08_generalized_l2_prox` |
| C09 | L2Ball update is the projection onto the norm ball | proved | Cauchy-Schwarz column by column. | `C09_l2ball_projection` |
| C10 | UnitSimplex update returns (almost) a projection onto the simplex | proved | Monotone multiplier function, invariant of the bisection loop, explicit error bound. Over exact reals with scipy's default tolerances; non-convergence only for entries beyond 1e18. | `C10_unit_simplex` |
| C11 | soft-thresholding after TV denoising is the joint TV+L1 proximal operator | proved | Dual certificate extracted from optimality of the TV step, re-used for TV+L1. Conditional, as in the property, on the external denoiser returning a minimiser for the columns it is given. | `C11_tv_l1_prox` |
| C12 | PARAFAC2 auxiliary variables satisfy the constant cross-product constraint | proved | Orthogonality algebra, Procrustes inequality, weighted means; induction over the coordinate-descent steps. For every valid SVD routine. | `C12_parafac2_cross_products`, `C12_too_few_rows` |
| C13 | PARAFAC2 coordinate descent never moves away from the target | proved | Orthogonality algebra, Procrustes inequality, weighted means; induction over the coordinate-descent steps. | `C13_parafac2_descent`, `C13_basis_step_optimal`, `C13_coordinate_step_optimal` |
| C14 | row-wise and matrix-wise updates agree | proved | Case analysis over the penalty classes. | `C14_rowwise_equals_matrixwise` |
| C15 | auxiliary arithmetic is consistent with the matrix view | proved | Case analysis over the penalty classes. | `C15_subtract_consistent` |
| C16 | penalty values are the documented ones | proved | Case analysis over the penalty classes. | `C16_penalty_value`, `C16_penalty_of_list`, `C16_parafac2_matrix_rejected`, `C16_constructors` |
| C17 | auxiliary and dual initialisation yields correctly shaped variables or an error | proved | `init_aux`, `init_dual` for every penalty, mode and kind of given value; case analysis. | `C17_init_aux_shapes`, `C17_init_dual_shapes`, `C17_given_tensor`, `C17_given_list`, `C17_given_pair`, `C17_given_dual`, `C17_given_entries`, `C17_wrong_kind`, `C17_errors`, `C17_named_methods`, `C17_named_parafac2`, `C17_all_penalties` |
| C18 | a CoupledMatrixFactorization exists only for consistent factors | proved | `coupled_matrices.py`; case analysis and index lemmas for flattening and unfolding. | `C18_constructor_accepts_iff_consistent`, `C18_only_documented_errors`, `C18_arrays_value_error`, `C18_type_error`, `C18_stacked_factors`, `C18_revalidation` |
| C19 | dense conversion computes B_i diag(a_i * w) C^T | proved | `coupled_matrices.py`; case analysis and index lemmas for flattening and unfolding. | `C19_to_matrix`, `C19_to_matrix_out_of_range`, `C19_to_matrices`, `C19_invalid_rejected` |
| C20 | tensor conversion pads with zeros only | proved | `coupled_matrices.py`; case analysis and index lemmas for flattening and unfolding. | `C20_to_tensor`, `C20_no_matrices` |
| C21 | unfolding and vectorisation keep every entry in its documented place | proved | `coupled_matrices.py`; case analysis and index lemmas for flattening and unfolding. | `C21_to_unfolded`, `C21_to_vec`, `C21_without_padding`, `C21_other_modes_rejected` |
| C22 | conversion from CP and PARAFAC2 tensors preserves the represented data | proved | `coupled_matrices.py`; case analysis and index lemmas for flattening and unfolding. | `C22_from_cp`, `C22_from_cp_bad_shapes`, `C22_from_cp_wrong_order`, `C22_from_parafac2` |
| C23 | the reported reconstruction error is the true residual norm | proved | Reconstruction error, gaps and feasibility test; expansion of the squared residual. | `C23_norm_of_the_data`, `C23_reconstruction_error`, `C23_reconstruction_error_after_A_update` |
| C24 | feasibility gaps measure distance to the auxiliary variables | proved | Reconstruction error, gaps and feasibility test; expansion of the squared residual. For nonzero factors, as in the property; the example C24_nan_gap shows what happens otherwise. | `C24_gap_values`, `C24_zero_gap`, `C24_feasibility_test`, `C24_feasible_without_penalties` |
| C25 | each ADMM factor update solves its least-squares subproblem | proved | `admm_update_A/B/C`; normal equations solved through the SVD, induction over the inner iterations. | `C25_C26_C31_update_C`, `C25_C26_C31_update_A`, `C25_C26_C31_update_B` |
| C26 | dual variables accumulate the infeasibility | proved | `admm_update_A/B/C`; normal equations solved through the SVD, induction over the inner iterations. | `C25_C26_C31_update_C`, `C25_C26_C31_update_A`, `C25_C26_C31_update_B` |
| C27 | returned auxiliary variables satisfy the hard constraints exactly | proved | Invariant over all inner and outer iterations, then through the front end. | `C27_exact_constraints`, `C27_exact_constraints_throughout`, `C27_fit_constraints`, `C27_fit_user_penalties` |
| C28 | fixed points of the inner loop solve the penalised subproblem | proved | Stationarity of the three updates gives the optimality condition of the penalised problem. | `C28_fixed_point_C`, `C28_fixed_point_A`, `C28_fixed_point_B` |
| C29 | unregularised fits never get worse | proved | Each block update minimises the objective; induction over iterations. | `C29_errors_never_increase`, `C29_fit_errors_never_increase` |
| C30 | the reported loss is the objective being minimised | partial | Each block update minimises the objective; induction over iterations. The property is false of the code: the reported loss can increase (refutation proved). What holds, the monotone decrease of the objective the updates minimise, is proved. | `C30_objective_never_increases_partial`, `C30_reported_loss_refuted` |
| C31 | inner iterations stop exactly when the inner criteria hold | proved | `admm_update_A/B/C`; normal equations solved through the SVD, induction over the inner iterations. | `C25_C26_C31_update_C`, `C25_C26_C31_update_A`, `C25_C26_C31_update_B` |
| C32 | frozen modes are left untouched | proved | Outer loop with its histories; induction over iterations, then through the front end. | `C32_frozen_modes`, `C32_fit_frozen` |
| C33 | diagnostic histories have one entry per iteration plus the initial one | proved | Outer loop with its histories; induction over iterations, then through the front end. | `C33_histories`, `C33_fit_reports` |
| C34 | an early stop means the documented criteria hold | proved | Outer loop with its histories; induction over iterations, then through the front end. | `C34_stopping`, `C34_fit_stopping` |
| C35 | the absolute loss criterion stops the fit | partial | Outer loop with its histories; induction over iterations, then through the front end. The property is false of the code when tol is unset: no such run ever stops early (proved). It is proved for tol set. | `C35_absolute_criterion_partial`, `C35_absolute_tol_alone_refuted` |
| C36 | requesting diagnostics does not change the fit | partial | Outer loop with its histories; induction over iterations, then through the front end. The property is false of the code (counterexample proved); it is proved for three classes of calls. | `C36_diagnostics_change_fit_refuted`, `C36_diagnostics_do_not_change_fit_partial` |
| C37 | raising the iteration limit extends the run | proved | Outer loop with its histories; induction over iterations, then through the front end. | `C37_longer_runs_extend`, `C37_longer_runs_continue` |
| C38 | requested constraints are imposed, and nothing else | proved | Argument parsing; case analysis. | `C38_penalties_are_those_requested`, `C38_built_penalties_valid`, `C38_accepts_iff` |
| C39 | regularisation arguments are distributed over modes as documented | proved | Argument parsing; case analysis. | `C39_broadcast`, `C39_forms_agree`, `C39_wrong_length`, `C39_bad_regs` |
| C40 | matrix-wise penalties on A need a constant feasibility penalty | proved | Argument parsing; case analysis. | `C40_matrix_penalty_on_A`, `C40_parafac2_mode` |
| C41 | initialisation from a factorization preserves the represented data | partial | `initialize_cmf` and its named starts; algebra. Proved for a given factorization. False of the code for the starts 'parafac' and 'parafac2', whose weights the first update discards (counterexample proved). | `C41_given_start_partial`, `C41_named_start_refuted` |
| C42 | fitting does not modify the caller's arrays | partial | Heap model with in-place writes; frame logic and refinement to the value model, counterexamples; `init_params` as a dictionary. False of the code: A and the list of the B_i of init and the auxiliary arrays of mode 0 are overwritten, and init_params gets the key n_iter_max (counterexamples proved). Proved for every call: nothing else is written, and what those objects hold afterwards. | `C42_frame_partial`, `C42_harmless_partial`, `C42_duals_partial`, `C42_A_holds`, `C42_Bs_hold`, `C42_init_refuted`, `C42_aux_refuted`, `C42_list_refuted`, `C42_init_params_partial`, `C42_init_params_refuted` |
| C43 | random_coupled_matrices normalisation keeps the represented matrices | proved | `random_coupled_matrices`; algebra of the normalisation. | `C43_random_factorization`, `C43_refused` |
| C44 | simulated data has the stated noise level and structure | proved | `get_simple_simulated_data`; algebra, monotonicity of exp. | `C44_simulated_data`, `C44_succeeds` |
| C45 | the etch data cache is faithful | proved | Programs with disk and network effects, arbitrary faults and crash points; induction over programs and histories of calls. | `C45_disk`, `C45_result`, `C45_errors`, `C45_succeeds`, `C45_cached` |
| C46 | an interrupted download does not corrupt later loads | partial | Programs with disk and network effects, arbitrary faults and crash points; induction over programs and histories of calls. False of the code: a file cut short by an interruption is taken for the real one by every later call (proved for every cut). What holds, that at most one file is affected, is proved. | `C46_interrupted_partial`, `C46_interrupted_refuted` |
| C47 | mro computes a consistent linearisation or correctly refuses | proved | C3 merge with fuel shown sufficient, class creation; induction on the merge and on hierarchies. | `C47_mro_linearises`, `C47_mro_refuses`, `C47_mro_is_c3`, `C47_single_class` |
| C48 | docstring inheritance copies the nearest ancestor's docstring | partial | C3 merge with fuel shown sufficient, class creation; induction on the merge and on hierarchies. What each class statement does is proved in full, and with a single base the copied docstring is the nearest one. With several bases the documented rule is false of the code: a diamond copies the docstring of the common base although a nearer definition exists. The refutation is proved. | `C48_class_statement`, `C48_accepted_iff`, `C48_single_base_partial`, `C48_nearest_definition_refuted` |
| C49 | parafac2_aoadmm is cmf_aoadmm with the PARAFAC2 constraint | proved | Equality of the two front ends. | `C49_parafac2_is_cmf`, `C49_l2_default`, `C49_default_calls` |
| C50 | inner ADMM iterations never move away from a solution | proved | Lyapunov function of scaled ADMM. | `C50_approach_C`, `C50_approach_A`, `C50_approach_B` |
| C51 | well-posed fits do not fail | proved | Totality of every step under stated conditions, lifted to runs and calls. | `C51_update_C_total`, `C51_update_A_total`, `C51_update_B_total`, `C51_run_total`, `C51_fit_total` |
| C52 | padding keeps the data | proved | Padding helpers; index lemmas. | `C52_padding` |
| C53 | named starting points are what they are documented to be | proved | `initialize_cmf` and its named starts; `init_params` as a dictionary completed in place; algebra. For every SVD routine returning vectors of the right shapes and every result of the initial decompositions. | `C53_random_start`, `C53_svd_start`, `C53_parafac_start`, `C53_parafac2_start`, `C53_unknown_start`, `C53_init_params` |
| C54 | simulated component vectors are unimodal | partial | `get_simple_simulated_data`; algebra, monotonicity of exp. False of the code: the cyclic shift puts the decreasing tail in front of the rise, so from the third matrix on no component vector is unimodal; those of the first matrix are. Both are proved. | `C54_unimodal_refuted` |
| C55 | a failed download can be repeated | partial | Programs with disk and network effects, arbitrary faults and crash points; induction over programs and histories of calls. False of the code: an unreadable answer with status 200 is saved before it is parsed and makes every later call fail. Proved for servers whose answers with status 200 are readable. | `C55_retry_partial`, `C55_bad_download_refuted` |
| C56 | etch data and metadata belong together | partial | Dictionary building; induction over the samples. Proved when the sample names differ; with equal names the code pairs measurements of one sample with metadata of another (refutation proved). | `C56_aligned_partial`, `C56_succeeds`, `C56_equal_names_refuted` |
| C57 | results do not depend on shared memory | partial | Heap model with in-place writes; frame logic and refinement to the value model, counterexamples. False of the code when one array is passed as aux_init of several penalties on A (counterexample proved). Proved when A, the auxiliary and the dual arrays of mode 0 are different objects: the fit with objects overwritten in place returns and raises what the model with values does. | `C57_values_partial`, `C57_call_partial`, `C57_shared_aux_refuted` |
| C58 | hard constraints survive rounding | proved | Model over an arbitrary Num with a total order; order-only reasoning through the updates and the loop. | `C58_keyword_constraints`, `C58_user_penalties`, `C58_double_precision` |
| C59 | bookkeeping of a fit does not depend on the arithmetic | proved | Invariants of the loop over an arbitrary Num. | `C59_factors`, `C59_reports` |
| C60 | a factorization unpacks to what it was built from | proved | Instances as records; case analysis of the protocol. | `C60_unpack`, `C60_rebuild` |
| C61 | penalties keep the contract the library's test mixins check | proved | From the strong form of the proximal characterisation, summed for two arguments. For total variation the external denoiser, for PARAFAC2 the external SVD is assumed correct. | `C61_invariant_points`, `C61_reduces_penalty`, `C61_nonexpansive`, `C61_simplex_invariant`, `C61_parafac2_invariant` |
| C62 | bike data tables show the trips of the file | partial | Frames as lists of labels and cells; positions of labels followed from the file to the result. Entries are shown under the right hour if the city has the same hours as Oslo, in the same order; without this condition the property is false of the code (refuted). | `C62_bike_tables_partial`, `C62_metadata`, `C62_succeeds`, `C62_failures`, `C62_other_hours_refuted` |
| C63 | verbose only prints | proved | The loop with print statements as a writer; erasing the lines gives the loop, induction over the iterations for the lines. | `C63_same_result`, `C63_silent`, `C63_lines`, `C63_negative` |
| C64 | the printed number of iterations is the number of iterations | partial | Concrete run by computation. False of the code: the printed number is one less (refuted by a concrete fit). What holds, for every fit that converges: it is n_iter - 1 (last_line in C63_lines). | `C64_converged_count_refuted`, `C63_lines` |
| C65 | enough inner iterations solve the penalised subproblem | proved | Lyapunov function for rates; completeness and strong convexity for existence; separation of a convex cone from a ray, coordinate by coordinate, for multipliers. Exact arithmetic; feasibility penalties positive; on mode 0 with one feasibility penalty per row the penalties must be row-wise (the others raise AttributeError there, C40). A single convex penalty, and any list without box constraints, is compatible. | `C65_rate_C`, `C65_rate_A`, `C65_rate_B`, `C65_converges_C`, `C65_converges_A`, `C65_converges_B`, `C65_compatible`, `C65_compatible_l` |
| C66 | a given start is checked against the data | partial | The first reconstruction and the first gaps as a check of the start; starts with too few matrices in a separate model that agrees with the main one. False of the code: with A and the B_i fixed a start for the first matrices only is accepted and all further data matrices are ignored (refutation proved), and another rank is accepted when nothing is imposed (C66_rank_unused). Proved: wrong sizes raise ValueError, too many matrices IndexError, a wrong rank ValueError when something is imposed and neither rank is 1 (numpy broadcasting is not modelled). Too few matrices are never accepted when A or the B_i are updated and there is an iteration to do (C66_too_few_raises); the exception is IndexError, or ValueError when something is imposed on A (C66_too_few_which). | `C66_refused_partial`, `C66_models_agree`, `C66_too_few_raises`, `C66_too_few_which`, `C66_further_matrices_ignored`, `C66_rank_unused`, `C66_too_few_refuted` |
| C67 | the order of the data matrices plays no part | proved | Simulation: the permutation commutes with setup, every update, the gaps, errors and the stopping test; induction over the outer and inner loops. Exact arithmetic (sums over the matrices are reordered); random starts are excluded, since they draw in the order of the matrices. Which exception is raised can depend on the order. | `C67_order`, `C67_both_return` |
| C68 | a fit can be continued from what it returned | proved | The state after n iterations is rebuilt by the setup of the second call (given variables pass every check); the loop depends on the history only through its last loss, so the longer loop is the first followed by the second. Exact arithmetic (the returned basis matrices of PARAFAC2 pass the 1e-8 check of the second call). The returned weights must be None, which C68_no_weights shows as soon as an iteration updates a mode. The second call gets the penalties as objects, since keywords cannot carry initial variables. | `C68_resume`, `C68_can_continue`, `C68_no_weights` |
| C69 | the order of the components plays no part | proved | One iteration, the loop, the run and the call are each shown to map corresponding inputs to corresponding outputs (SymStep, SymLoop, SymRun, SymFit) for a general change of units and orders; here only the order of the components changes. Exact arithmetic. Case of C71_change with unit factors. | `C69_components` |
| C70 | the order of rows and columns of the data plays no part | proved | The same general theorem with permuted rows and columns; proxes that do not look at the order commute with the permutation (SymPen). Exact arithmetic. Penalties that look at the order of the rows are allowed on modes whose order is kept. | `C70_rows_and_columns` |
| C71 | units of measurement play no part | proved | Every prox, least-squares solution, misfit, gap and stopping test is shown to commute with the change of units; unique solutions of the least-squares problems carry the correspondence across any correct svd routine. With PARAFAC2: the polar factor of a matrix with independent columns is unique (trace argument) and does not change with positive factors; a routine that refuses all other matrices (strict, P40_Routines.v) makes both runs correspond, and what it does not refuse the correct routines do alike. Exact arithmetic. Unit simplex, unimodality and total variation are covered where the unit of their mode is kept (factor 1) only. With PARAFAC2 (rows of the B_i in place) the routine must give the same orthonormal matrix for M and u^2 M (same_nearest); C71_parafac2 replaces this by any correct routines, for calls that return with a routine that refuses matrices with dependent columns. C71_any_start takes any two starts that correspond (named starts included), C71_change given factors with zero variables. | `C71_change`, `C71_any_start`, `C71_parafac2` |
| C72 | the choice of the svd routine plays no part | proved | The general theorem with two environments and no change: least-squares solutions do not depend on the decomposition; correspondence with factor 1 is equality. With PARAFAC2 both routines are first made strict (refusing matrices with dependent columns); the strict runs agree, and a strict run that returns equals the run with the routine itself. Exact arithmetic. A routine that truncates is correct for matrices with k columns and at least k rows, which is all the fit asks for. With PARAFAC2 the basis matrices are not unique when a product is rank deficient: C72_parafac2 covers the calls that return with a routine that refuses such matrices. | `C72_svd_choice`, `C72_parafac2` |
| C73 | unpenalised fits approach stationary points | proved | Each block update is an exact minimiser over its block (from the least-squares theorems), so it has no slope there and the ridge term makes the objective drop by l/2 times the squared step; sums telescope. The derivative is a polynomial in the entries, hence Lipschitz on the bounded level set, uniformly in unit directions: the slope after a round is at most a constant times the step. Limits by the Cauchy criterion; classical case split on whether some iteration fails. slopes_follow_steps and rate: runs, with explicit bound for the sum of squared steps; fit_stationary: whole calls that return; fit_converges: calls that cannot fail (C51), so enough iterations always succeed. Slopes are derivatives along lines through the returned factors (StationarySpec.v). | `C73_slopes_follow_steps`, `C73_rate`, `C73_fit_stationary`, `C73_fit_converges` |
| C74 | penalty objects are interchangeable with classes that have the same methods | proved | Custom.v models penalty classes as records of optional methods and repeats the fit with method lookup; the built-in classes are embedded and a simulation shows that each step commutes with the embedding. Every arithmetic. user_fit is the fit with dynamic dispatch (Custom.v). The second alternative: user_fit stops with NotModelled where the other raises an exception. | `C74_builtin_classes` |
| C75 | the parametrisation of auxiliary variables makes no difference | proved | The same simulation, for two user classes and any relation between their auxiliary variables, through all steps of the fit (CustomSim.v, CustomFit.v). Every arithmetic; alike is defined in CustomSpec.v from the methods of the objects only. | `C75_parametrisation`, `C75_transposed` |
| C76 | auxiliary variables come from the object's own methods | proved | Induction over inner and outer iterations: every step appends one call of the object's method to the chain that starts at its own init_aux (CustomCalls.v). Every arithmetic. Objects whose methods change the object itself are not modelled. | `C76_own_variables`, `C76_invariant`, `C76_ensured` |
| C77 | templates of the penalty base classes | proved | Unfolding the templates under C76; instantiation by cases on which methods exist. Every arithmetic. Non-vacuity: the cases of P31_Custom.v and C77_matrices_nonvacuous. | `C77_row_classes`, `C77_matrix_classes`, `C77_missing_method`, `C77_abstract_classes`, `C77_inherited_matrices`, `C77_builtin_matrices` |
| C78 | the custom penalty of the gallery projects | proved | Pythagoras column by column: the last column is clipped entrywise, the others are projected by unimodal regression (C02, C03); the fit by C76. Real arithmetic. | `C78_projection`, `C78_fit` |
| C79 | fits with sound user-written penalties cannot fail | proved | Shape invariant over states with auxiliary variables of any type; every system is positive definite because of the ridge terms (CustomTotal.v). The keyword penalties are shown to be sound objects, so they are treated like the user's. Real arithmetic; keyword constraints may be non-negativity, bounds, norm bound and unimodality (asks_plain, as in C51); SVD correct. sound_object is defined in CustomTotalSpec.v. | `C79_user_fit_total` |
| C80 | a call that is in order raises only for stated reasons | proved | The shape invariant of C79 with results in 'a value of the right shape or an allowed exception' (FailRun.v); every built-in penalty is reliable up to divisions by zero, PARAFAC2 with its pair as the auxiliary variable (FailBuiltin.v); the built-in fit follows by C74. Real arithmetic; SVD correct and of the documented shapes. in_order, reliable_object and uses_simplex are defined in FailSpec.v. NonFinite is the model's name for a division by zero, where numpy goes on with inf or nan. ex_division_by_zero shows a call that is in order and does divide by zero. Starts from tensorly's decompositions are left out. | `C80_fit_failures`, `C80_user_fit_failures` |
| C81 | calls at the same time do not disturb one another | partial | Processes are the programs of DataCache.v with a position in the open file; a schedule is any sequence of single operations by any of them (DataConcurrent.v). Invariant: every byte of a new file is right, or some process that is still writing has yet to write it; files are damaged copies at worst. The refutations construct the schedules. False as stated: the file is written in place, so a second call can find it half written and raise (C81_half_written_refuted), and a second process that opens the file and dies leaves a file with a hole although the first call succeeded, which all later calls load (C81_hole_refuted). Proved for every schedule: existing files are safe, new files are damaged copies at worst and complete once all processes have ended without disk failure, and returned values come from the old copy, the server's copy or a damaged copy of it. C81_alone: with one process the model is that of C45. | `C81_files_partial`, `C81_results_partial`, `C81_alone`, `C81_alone_succeeds`, `C81_half_written_refuted`, `C81_hole_refuted` |
| C82 | updating a single mode solves its problem | proved | With one mode updated the other factors, hence the linear systems and feasibility penalties, never change: n outer iterations of m inner iterations are one update with n m inner iterations (LoneRun.v), to which C65 applies. Without a tolerance the outer loop makes all its iterations and cannot fail. The problem solved is stated from the call's arguments (LoneSpec.v) through C38. For the whole call. The constraints need a common interior point (has_room), the feasibility penalties must be positive, and for A without a constant feasibility penalty only row-wise penalties are allowed (the code refuses others). The call with no iterations must return: it gives the starting factors. C82_nonvacuous: three calls whose limit is 1/2. | `C82_only_A`, `C82_only_B`, `C82_only_C` |
| C83 | the choice of orthonormal coordinates does not matter | proved | The cross products B^T B, C^T C and B^T X C are unchanged, so the systems, feasibility penalties, losses and gaps are the same and the right-hand sides are turned; the relation is carried through inner loops, outer loop and call (TurnFacts.v, TurnRun.v, TurnLoop.v, TurnFit.v). For PARAFAC2 the polar factor of a matrix with independent columns is unique (TurnPolar.v: it maximises an inner product and the maximiser is unique), hence equivariant; a run with the refusing routine is a run with the ordinary one (TurnRefuse.v). C83_turned: any two corresponding starts. C83_given: given factors, auxiliary and dual variables starting at zero, stated without mentioning internal variables. C83_parafac2: PARAFAC2 with turned rows; 'all matrices decomposed have independent columns' is said by an svd routine that refuses the others and is otherwise the same: if the first call returns with it, both calls return with the ordinary routine and correspond (without that condition the claim is false: the svd of a dependent matrix is a free choice of the routine). C83_nonvacuous, C83_parafac2_nonvacuous. | `C83_turned`, `C83_parafac2`, `C83_given` |
| C84 | example gallery: the script keeps its best start | partial | Gallery.v models the loops of the scripts over an arbitrary function from seeds to results; invariants over the loops (lowest so far, first index). For the real calls the final loss is half the squared relative error because the penalties are constraints (C06). The refutation evaluates two double-precision fits in the kernel. Proved for the bike sharing and number-of-components scripts (C84_lowest_loss, C84_scores: any ordered arithmetic and any list of starts; C84_smallest_error, C84_fit_scores: the actual calls over the reals). False for the simulated-data scripts, which compare the loss with the reconstruction error of the kept model: C84_simulated_refuted (two converged double-precision runs; the worse second is kept), C84_last_converged (over the reals the last converged start is kept whenever e_i^2/2 < e_j). What remains true of them: C84_converged_partial. C84_nonvacuous. | `C84_lowest_loss`, `C84_scores`, `C84_converged_partial`, `C84_smallest_error`, `C84_fit_scores`, `C84_last_converged`, `C84_simulated_refuted` |
| C85 | example gallery: the simulated data are what the text says | proved | gallery_data (Gallery.v) run step by step with the drawing lemmas of C27; rolling rows permutes a sum cyclically; the norm of the scaled noise is computed. gallery_data covers plot_simulated_nonnegative.py and plot_examining_different_number_of_components.py; the data of plot_custom_penalty.py are in C92. Non-vacuity: C85_nonvacuous. | `C85_gallery_data`, `C85_succeeds` |
| C86 | example gallery: preparing data and rearranging components keep what they should | proved | Entry by entry computation over the stacked matrix (sum_stack), the normalised factors (etch_val) and permuted sums (rsum_reorder). Non-vacuity: C86_standardised_nonvacuous, ex_pf2_valid (used in C87_smallest_first_refuted_nonvacuous), C87_largest_first_partial_nonvacuous (valid, non-negative factors). | `C86_standardised`, `C86_normalised`, `C86_clipped`, `C86_stacked` |
| C87 | example gallery: the first component shown explains the most | partial | The size of a component is weight times the three column norms when the B_i have equal column norms (component_size_val); the sorting routine is any function returning a permutation that sorts. True of the bike sharing script (C87_largest_first_partial). False of the semiconductor etch script, which sorts in ascending order: for every PARAFAC2 tensor the first component shown is the one that contributes least (C87_smallest_first_refuted), and likewise for the regularised model when A and C are normalised (C87_tv_smallest_first_refuted). Examples: C87_smallest_first_refuted_nonvacuous (contributions 1 and 3, the smaller first), C87_largest_first_partial_nonvacuous. | `C87_largest_first_partial`, `C87_smallest_first_refuted`, `C87_tv_smallest_first_refuted` |
| C88 | the order of the penalties of a mode does not matter | partial | Simulation between the two runs, step by step, with the variables permuted (PenOrderRun.v); sums over penalties and maxima of gaps do not depend on the order as long as no gap is NaN; the starts correspond because values that are not drawn take nothing from the random stream (PenOrderFixed.v). The refutation is a run in double precision. True unless the factor of a mode with several penalties becomes exactly zero while another mode has penalties too (C88_order_partial; C88_objects_partial without any hypothesis on the start when no variable is drawn). Then the maximum in _check_feasibility drops NaN: in C88_zero_factor_refuted the same two penalties give feasible or infeasible depending on their order, and the result called feasible has an infinite gap. Non-vacuity: C88_nonvacuous. | `C88_order_partial`, `C88_objects_partial`, `C88_zero_factor_refuted` |
| C89 | a fit reported as feasible nearly satisfies its constraints | partial | Combines the exactness of the auxiliary variables (C27) with what the feasibility flag means (C34), and the limit of one-mode runs (C82) for the converse; entries by the Cauchy-Schwarz inequality. The refutation is the run of C88. Proved for runs whose last feasibility gaps are not NaN, which is so whenever no penalised factor is exactly zero. With a zero factor the claim is false (C89_zero_factor_refuted, in double precision: A = 0, bounds 1 and 2, reported feasible). Non-vacuity: C89_nonvacuous. | `C89_feasible_partial`, `C89_entries_partial`, `C89_reached_A`, `C89_reached_B`, `C89_reached_C`, `C89_zero_factor_refuted` |
| C90 | different ways of asking for the same penalties give the same fit | proved | KeywordSpec.v says which objects the keywords of a mode stand for; parsing is shown to build exactly those. Interchangeable objects have convertible methods, so the calls agree by the simulation of C74. For every number type whose zero is falsy (ex_zero_falsy: reals and doubles). regs is None or a list of three lists. Non-vacuity: ex_requests. | `C90_keywords`, `C90_same_values`, `C90_same_objects`, `C90_lower_bound_zero` |
| C91 | rows and columns of zeros play no part | proved | PadSpec.v says where rows and columns go. Padding is multiplication by a matrix with orthonormal columns made of zeros and ones, so the simulation of C83 applies once the updates of the penalties that act entry by entry are shown to commute with it; that needs non-negative weights in the updates. Exact arithmetic. With PARAFAC2 and added rows: if no matrix with dependent columns is decomposed (C91_parafac2), since the nearest orthonormal matrix is not unique otherwise. Total variation, unimodality and generalised L2 penalties on padded modes are excluded: there zeros are not neutral. Non-vacuity: C91_nonvacuous. | `C91_padded`, `C91_parafac2`, `C91_given` |
| C92 | example gallery: the data of the custom penalty script are what its text says | partial | custom_data (GalleryCustom.v) run step by step as in C85. A sequence without a dip is unimodal (its largest entry is the peak); the density falls with the distance from the mean; a dip refutes unimodality. False of the script: rows are moved cyclically, so from B_2 on the tail of each density stands in front of its rise and none of the components called unimodal is (C92_wrapped_refuted, for all draws). Everything else is proved, and unimodality for B_0 and B_1. Non-vacuity: C92_nonvacuous, with the sizes of the script. | `C92_custom_data_partial`, `C92_wrapped_refuted`, `C92_succeeds` |
| C93 | the printed list of penalties says which penalties are used | proved | Repr.v is __repr__ on strings, ReprSpec.v lists the constructor parameters. Injectivity: strings are cut at characters that the parts before do not contain; lists of lines at the headings. Every arithmetic. Python's repr of numbers and arrays is a parameter. The output shown in README.rst has the parameters in another order than the code prints them (C93_readme_differs). Non-vacuity: C93_nonvacuous. | `C93_text`, `C93_determined`, `C93_lines`, `C93_listing`, `C93_readme_differs` |
| C94 | stricter tolerances never stop a fit earlier | partial | TolSpec.v compares calls and results. Tolerances.v: the loop body is split into step, recording and stopping test; each test is monotone in its tolerance, so by induction the strict loop follows the loose one. The refutation is a computed run on one number. Proved for all three tolerances with return_errors=True, and for tol and absolute_tol without. False of the code for feasibility_tol without return_errors (C94_feasibility_tol_refuted): losses of infeasible iterations are then not recorded, so the relative criterion compares iterations that do not follow each other, and the call with the smaller feasibility_tol stops first. absolute_tol=None together with a tol is excluded, it raises TypeError (C35). Non-vacuity: C94_nonvacuous. | `C94_stricter_runs_longer_partial`, `C94_histories_extend`, `C94_feasibility_tol_refuted` |
| C95 | a start that already solves every mode is returned unchanged | proved | RestSpec.v says what a start at rest is. Rest.v: one ADMM iteration from a saddle point with the multipliers as duals stays there (strong convexity of the proximal steps). RestRun.v: induction over outer iterations, the records stay constant and no update fails. RestPerfect.v: an exact, feasible start with zero duals is at rest. The converse of C28: fixed points of the updates are returned. The certificate is the one of OptSpec.v (Lagrange multipliers); weights of the start are None. Non-vacuity: C95_nonvacuous (any number of iterations, with tolerances), C95_multiplier (rest without an exact fit). | `C95_start_at_rest_is_returned`, `C95_start_at_rest_succeeds`, `C95_perfect_start_is_kept` |
| C96 | an exact PARAFAC2 solution is returned unchanged | proved | RestPf2Spec.v says what a start at rest with PARAFAC2 is. RestPf2.v: the B update returns the unique minimiser of the augmented problem, which is the start; the PARAFAC2 projection never increases the weighted distance (C13), which is 0 at the start, so the new pair stands for the same matrices. RestPf2Run.v: induction over outer iterations with equality up to the pair. C95 for the PARAFAC2 constraint, which is not convex. The pair (bases, coordinate matrix) may be replaced by another pair for the same matrices, so auxiliary variables are compared as matrices. Non-vacuity: C96_nonvacuous (two matrices of different heights, non-negativity and PARAFAC2, any numbers of iterations). | `C96_start_at_rest_is_returned`, `C96_start_at_rest_succeeds`, `C96_exact_parafac2_is_kept` |
| C97 | what the fits of the example gallery give | proved | The calls of Gallery.v are sensible calls of cmf_aoadmm; the converged flag implies feasibility (C34), feasibility implies nearness (C89), and clipping (C86) moves an entry by no more than it is negative. The example uses C96 to run the loop. C97_factors and C97_converged are about script_call with any keyword and constraint objects; the others are the three scripts. Gaps that are nan are excluded because they pass the feasibility check (see C34). Non-vacuity: C97_nonvacuous, the bike sharing call on a 4 x 1 matrix with a random stream whose start fits the data, which converges. | `C97_factors`, `C97_converged`, `C97_bike`, `C97_nonnegative`, `C97_scree` |
| C98 | data, model and residual of a fit add up | proved | ExplainSpec.v defines the squared norm of the model and the mode updated last. Explain.v: the update without penalties minimises the ridge-regularised distance over all factor matrices of the mode, in particular over multiples t of its own result; this parabola in t has its lowest point at 1, which is the identity. P54_Explained.v: every state of the trajectory after the first ends with such an update. Boundary: C98_penalised_refuted (non-negativity on the mode updated last, one iteration: relative error 3/2). Non-vacuity: C98_nonvacuous (ridge on all modes, non-negativity, unimodality and an upper bound on the B_i, a norm ball on C). | `C98_explained`, `C98_errors_at_most_one`, `C98_penalised_refuted` |
| C99 | equal parts of a problem stay equal | proved | EqualSpec.v says when components, rows, columns or matrices are equal. P55_Equal.v: exchanging two equal parts leaves the problem as it is, so by the symmetry theorems the result equals its own exchange. Follows from the symmetry theorems (C67, C69, C70) applied to the exchange of the two equal parts: the exchanged problem is the same problem. Non-vacuity: C99_components_nonvacuous, C99_rows_columns_nonvacuous, C99_matrices_nonvacuous. | `C99_equal_components`, `C99_equal_columns`, `C99_equal_rows`, `C99_equal_matrices` |
| C100 | all-zero data: tolerances are never met | proved | ZeroSpec.v says what zero data, a zero model and the call without tolerances are. P56_Zero.v: induction over the outer loop with the invariant that no recorded value is a number, for the call and the call without tolerances side by side; the error of a state is nan iff its residual is zero; vanishing follows from the identity of C98. The case data_sumsq = 0, which the theorems on recorded errors (C33, C34) leave out. Non-vacuity: C100_nonvacuous, C100_vanishes_nonvacuous. | `C100_tolerances_never_met`, `C100_last_error`, `C100_model_vanishes` |
| C101 | the printed summary of a factorization says what it is | proved | CmfRepr.v models __repr__ with decimal digits and tuples. P57_Summary.v: digits contain no comma, space or parenthesis, so texts can be cut at them; induction over the tuple. The sizes of a fit come from C33's invariant. Decimal digits and tuples are printed by CmfRepr.v (two literal texts: C101_text). Non-vacuity: C101_nonvacuous. | `C101_determined`, `C101_fit_summary` |
| C102 | without iterations a fit returns its start | proved | The loop body is never entered; a constructed factorization survives the final validation unchanged, and the variables are those of the initialisers (P58_NoIterations.v, for every arithmetic). For every arithmetic, without axioms; what the feasibility flag means needs a total order and no nan. Non-vacuity: C102_nonvacuous. | `C102_start_returned`, `C102_settings_do_not_matter` |
| C103 | calls with only data and rank | proved | The lists of penalties stay empty along the trajectory, so every tuple of gaps is empty and the feasibility test is true; the rest is C34 with the default tolerances. DefaultSpec.v writes the documented defaults out. Over the reals; svd assumed correct. Non-vacuity: C103_nonvacuous. | `C103_written_out`, `C103_default_stopping`, `C103_default_returns` |
| C104 | random numbers are used only where they are asked for | proved | Two streams that agree on the numbers of the random start give the same start; keyword penalties carry aux_init and dual_init, so no variable is drawn and the two set-ups are equal. DrawSpec.v says which values ask for random numbers and how many entries a random start has. C104_random_numbers holds in every arithmetic, C104_no_penalties over the reals. Starts fitted by tensorly are left out. Non-vacuity: C104_nonvacuous, C104_defaults_free; C104_random_variables_matter shows that the condition is needed. | `C104_random_numbers`, `C104_no_penalties` |
| C105 | random shapes and factorizations of the testing module | proved | Fixtures.v models the fixtures with a generator that also gives Poisson variates and integers; induction over the matrices, then C43 for the factorization (uniform numbers are positive, so no column is zero). Over the reals; the generator is any one whose Poisson variates are not negative, whose integers lie in the range asked for and whose uniform numbers are positive. Non-vacuity: C105_nonvacuous. | `C105_random_length`, `C105_fixtures` |
| C106 | stronger penalties penalise more | proved | Each result is the proximal point of its own objective (C06-C09, C11); the two optimality inequalities, each taken at the other result, add up to the claim. StrengthSpec.v says what a multiple of a penalty and a tighter constraint are. Over the reals; total variation denoiser assumed correct. Non-vacuity: C106_nonvacuous, C106_unimodality_nonvacuous. | `C106_stronger`, `C106_total_variation`, `C106_feasibility_penalty`, `C106_tighter`, `C106_unimodality` |

## Axioms by theorem

What `Print Assumptions` lists for every theorem of MANIFEST.json:

* `ClassicalDedekindReals.sig_forall_dec`, `ClassicalDedekindReals.sig_not_dec`, `FunctionalExtensionality.functional_extensionality_dep` (154 theorems): `C01_unimodal_output`, `C01_unimodal_output_columns`, `C01_empty_rejected`, `C02_unimodal_projection`, `C02_unimodal_fixed`, `C02_unimodality_update`, `C03_nonneg_unimodal_projection`, `C04_prefix_isotonic`, `C05_integer_arrays_refuted`, `C06_nonneg_projection`, `C06_box_projection`, `prox_unique`, `C07_l1_prox`, `C08_generalized_l2_prox`, `C09_l2ball_projection`, `C10_unit_simplex`, `C11_tv_l1_prox`, `C12_parafac2_cross_products`, `C12_too_few_rows`, `C13_parafac2_descent`, `C13_basis_step_optimal`, `C13_coordinate_step_optimal`, `C14_rowwise_equals_matrixwise`, `C15_subtract_consistent`, `C16_penalty_value`, `C16_penalty_of_list`, `C16_parafac2_matrix_rejected`, `C16_constructors`, `C17_init_aux_shapes`, `C17_init_dual_shapes`, `C17_given_tensor`, `C17_given_list`, `C17_given_pair`, `C17_given_dual`, `C17_given_entries`, `C17_wrong_kind`, `C17_errors`, `C17_named_methods`, `C17_named_parafac2`, `C17_all_penalties`, `C18_constructor_accepts_iff_consistent`, `C18_only_documented_errors`, `C18_arrays_value_error`, `C18_type_error`, `C18_stacked_factors`, `C18_revalidation`, `C19_to_matrix`, `C19_to_matrix_out_of_range`, `C19_to_matrices`, `C19_invalid_rejected`, `C20_to_tensor`, `C20_no_matrices`, `C21_to_unfolded`, `C21_to_vec`, `C21_without_padding`, `C21_other_modes_rejected`, `C22_from_cp`, `C22_from_cp_bad_shapes`, `C22_from_cp_wrong_order`, `C22_from_parafac2`, `C23_norm_of_the_data`, `C23_reconstruction_error`, `C23_reconstruction_error_after_A_update`, `C24_gap_values`, `C24_zero_gap`, `C24_feasibility_test`, `C25_C26_C31_update_C`, `C25_C26_C31_update_A`, `C28_fixed_point_C`, `C28_fixed_point_A`, `C35_absolute_tol_alone_refuted`, `C37_longer_runs_extend`, `C38_penalties_are_those_requested`, `C38_built_penalties_valid`, `C38_accepts_iff`, `C39_wrong_length`, `C39_bad_regs`, `C40_matrix_penalty_on_A`, `C40_parafac2_mode`, `C41_given_start_partial`, `C42_init_refuted`, `C43_random_factorization`, `C43_refused`, `C44_succeeds`, `C49_parafac2_is_cmf`, `C49_l2_default`, `C49_default_calls`, `C50_approach_C`, `C50_approach_A`, `C51_update_C_total`, `C51_update_A_total`, `C52_padding`, `C53_random_start`, `C53_svd_start`, `C53_parafac_start`, `C53_parafac2_start`, `C53_unknown_start`, `C61_invariant_points`, `C61_reduces_penalty`, `C61_nonexpansive`, `C61_simplex_invariant`, `C61_parafac2_invariant`, `C65_rate_C`, `C65_rate_A`, `C65_compatible`, `C65_compatible_l`, `C66_refused_partial`, `C66_models_agree`, `C66_too_few_raises`, `C66_too_few_which`, `C66_further_matrices_ignored`, `C66_rank_unused`, `C67_order`, `C67_both_return`, `C69_components`, `C70_rows_and_columns`, `C71_change`, `C71_any_start`, `C72_svd_choice`, `C78_projection`, `C78_fit`, `C79_user_fit_total`, `C80_fit_failures`, `C80_user_fit_failures`, `C83_turned`, `C83_given`, `C85_gallery_data`, `C85_succeeds`, `C86_standardised`, `C86_normalised`, `C86_clipped`, `C86_stacked`, `C87_largest_first_partial`, `C87_smallest_first_refuted`, `C87_tv_smallest_first_refuted`, `C91_padded`, `C91_given`, `C92_succeeds`, `C94_stricter_runs_longer_partial`, `C94_histories_extend`, `C99_equal_components`, `C99_equal_columns`, `C99_equal_rows`, `C99_equal_matrices`, `C100_tolerances_never_met`, `C103_written_out`, `C104_no_penalties`, `C105_random_length`, `C105_fixtures`, `C106_stronger`, `C106_total_variation`, `C106_feasibility_penalty`, `C106_tighter`, `C106_unimodality`.
* No axiom (91 theorems): `C05_any_storage_partial`, `C24_feasible_without_penalties`, `C39_broadcast`, `C39_forms_agree`, `C42_frame_partial`, `C42_harmless_partial`, `C42_duals_partial`, `C42_A_holds`, `C42_Bs_hold`, `C42_aux_refuted`, `C42_list_refuted`, `C42_init_params_partial`, `C42_init_params_refuted`, `C45_disk`, `C45_result`, `C45_errors`, `C45_succeeds`, `C45_cached`, `C46_interrupted_partial`, `C46_interrupted_refuted`, `C47_mro_linearises`, `C47_mro_refuses`, `C47_mro_is_c3`, `C47_single_class`, `C48_class_statement`, `C48_accepted_iff`, `C48_single_base_partial`, `C48_nearest_definition_refuted`, `C53_init_params`, `C55_retry_partial`, `C55_bad_download_refuted`, `C56_aligned_partial`, `C56_succeeds`, `C56_equal_names_refuted`, `C57_values_partial`, `C57_call_partial`, `C57_shared_aux_refuted`, `C58_keyword_constraints`, `C58_user_penalties`, `C58_double_precision`, `C59_factors`, `C59_reports`, `C60_unpack`, `C60_rebuild`, `C62_bike_tables_partial`, `C62_metadata`, `C62_succeeds`, `C62_failures`, `C62_other_hours_refuted`, `C63_same_result`, `C63_silent`, `C63_lines`, `C63_negative`, `C64_converged_count_refuted`, `C74_builtin_classes`, `C75_parametrisation`, `C75_transposed`, `C76_own_variables`, `C76_invariant`, `C76_ensured`, `C77_row_classes`, `C77_matrix_classes`, `C77_missing_method`, `C77_abstract_classes`, `C77_inherited_matrices`, `C77_builtin_matrices`, `C81_files_partial`, `C81_results_partial`, `C81_alone`, `C81_alone_succeeds`, `C81_half_written_refuted`, `C81_hole_refuted`, `C84_lowest_loss`, `C84_scores`, `C84_converged_partial`, `C84_simulated_refuted`, `C88_zero_factor_refuted`, `C89_zero_factor_refuted`, `C90_keywords`, `C90_same_values`, `C90_same_objects`, `C90_lower_bound_zero`, `C93_text`, `C93_determined`, `C93_lines`, `C93_listing`, `C93_readme_differs`, `C101_determined`, `C102_start_returned`, `C102_settings_do_not_matter`, `C104_random_numbers`.
* `ClassicalDedekindReals.sig_forall_dec`, `ClassicalDedekindReals.sig_not_dec`, `Classical_Prop.classic`, `FunctionalExtensionality.functional_extensionality_dep` (63 theorems): `C25_C26_C31_update_B`, `C27_exact_constraints`, `C27_exact_constraints_throughout`, `C27_fit_constraints`, `C27_fit_user_penalties`, `C28_fixed_point_B`, `C29_errors_never_increase`, `C29_fit_errors_never_increase`, `C30_objective_never_increases_partial`, `C32_frozen_modes`, `C32_fit_frozen`, `C33_histories`, `C33_fit_reports`, `C34_stopping`, `C34_fit_stopping`, `C35_absolute_criterion_partial`, `C36_diagnostics_do_not_change_fit_partial`, `C37_longer_runs_continue`, `C44_simulated_data`, `C50_approach_B`, `C51_update_B_total`, `C51_run_total`, `C51_fit_total`, `C54_unimodal_refuted`, `C65_rate_B`, `C68_resume`, `C68_can_continue`, `C68_no_weights`, `C71_parafac2`, `C72_parafac2`, `C73_slopes_follow_steps`, `C73_rate`, `C73_fit_stationary`, `C73_fit_converges`, `C83_parafac2`, `C84_smallest_error`, `C84_fit_scores`, `C84_last_converged`, `C88_order_partial`, `C88_objects_partial`, `C89_feasible_partial`, `C89_entries_partial`, `C91_parafac2`, `C92_custom_data_partial`, `C92_wrapped_refuted`, `C95_start_at_rest_is_returned`, `C95_start_at_rest_succeeds`, `C95_perfect_start_is_kept`, `C96_start_at_rest_is_returned`, `C96_start_at_rest_succeeds`, `C96_exact_parafac2_is_kept`, `C97_factors`, `C97_converged`, `C97_bike`, `C97_nonnegative`, `C97_scree`, `C98_explained`, `C98_errors_at_most_one`, `C100_last_error`, `C100_model_vanishes`, `C101_fit_summary`, `C103_default_stopping`, `C103_default_returns`.
* `ClassicalDedekindReals.sig_forall_dec`, `ClassicalDedekindReals.sig_not_dec`, `Classical_Prop.classic`, `FunctionalExtensionality.functional_extensionality_dep`, `IndefiniteDescription.constructive_indefinite_description` (15 theorems): `C30_reported_loss_refuted`, `C36_diagnostics_change_fit_refuted`, `C41_named_start_refuted`, `C65_converges_C`, `C65_converges_A`, `C65_converges_B`, `C66_too_few_refuted`, `C82_only_A`, `C82_only_B`, `C82_only_C`, `C89_reached_A`, `C89_reached_B`, `C89_reached_C`, `C94_feasibility_tol_refuted`, `C98_penalised_refuted`.
