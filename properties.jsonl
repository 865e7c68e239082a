{"id": "C01", "title": "unimodal_regression returns unimodal vectors", "statement": "For every non-empty real vector y, unimodal_regression(y) has the length of y and is unimodal: there is an index t with the entries non-decreasing up to t and non-increasing from t on; for a matrix this holds for every column.", "quantifier": "every non-empty real vector / every matrix with at least one row, both settings of non_negativity", "why_tests_cant": "The claim ranges over all real vectors of all lengths and all tie patterns; tests sample Gaussian noise at five lengths.", "anchors": ["src/matcouply/_unimodal_regression.py:unimodal_regression", "src/matcouply/_unimodal_regression.py:_unimodal_regression", "src/matcouply/penalties.py:Unimodality.factor_matrix_update"]}
{"id": "C02", "title": "unimodal_regression is the least-squares projection", "statement": "unimodal_regression(y) minimises the sum of squared differences to y over all unimodal vectors of the same length, and the internally reported error equals that minimum.", "quantifier": "every non-empty real vector y and every competing unimodal vector u", "why_tests_cant": "Optimality is a statement about all competitors; tests compare to one other solver on a few inputs.", "anchors": ["src/matcouply/_unimodal_regression.py:unimodal_regression", "src/matcouply/_unimodal_regression.py:_get_best_unimodality_index"]}
{"id": "C03", "title": "non-negative unimodal regression is the projection onto non-negative unimodal vectors", "statement": "With non_negativity=True the output is non-negative and unimodal, and is at least as close to y as every non-negative unimodal vector.", "quantifier": "every non-empty real vector, every non-negative unimodal competitor", "why_tests_cant": "Universal over inputs and competitors.", "anchors": ["src/matcouply/_unimodal_regression.py:prefix_isotonic_regression", "src/matcouply/_unimodal_regression.py:unimodal_regression"]}
{"id": "C04", "title": "prefix isotonic regression solves every prefix", "statement": "For every k from 0 to n the fit read off for prefix length k is non-decreasing, minimises the weighted squared error to the first k samples among non-decreasing (and, if requested, non-negative) vectors, and error[k] is exactly that minimum.", "quantifier": "every real vector, every vector of positive weights, every prefix length, both non_negativity settings", "why_tests_cant": "Needs the pool-adjacent-violators invariant for every history of merges.", "anchors": ["src/matcouply/_unimodal_regression.py:prefix_isotonic_regression", "src/matcouply/_unimodal_regression.py:_compute_isotonic_from_index", "src/matcouply/_unimodal_regression.py:_merge_intervals_inplace"]}
{"id": "C05", "title": "unimodal_regression accepts integer arrays", "statement": "The projection property C02 should hold whatever the dtype of the input array, in particular for integer arrays.", "quantifier": "every integer-valued input array", "why_tests_cant": "The intermediate level_set array inherits the integer dtype of y, truncating means; only particular inputs show it.", "anchors": ["src/matcouply/_unimodal_regression.py:prefix_isotonic_regression"]}
{"id": "C06", "title": "box and non-negativity updates are projections", "statement": "NonNegativity and Box updates return an array of the same shape whose entries all satisfy the bounds, which is the nearest such array, and leave feasible arrays unchanged.", "quantifier": "every real matrix, every pair of bounds with lower <= upper (either may be missing)", "why_tests_cant": "Universal over inputs and competitors.", "anchors": ["src/matcouply/penalties.py:NonNegativity", "src/matcouply/penalties.py:Box"]}
{"id": "C07", "title": "L1 update is the proximal operator of the L1 penalty", "statement": "L1Penalty updates return the unique minimiser of reg_strength*sum|x| + (rho/2)*||x-v||^2 (over non-negative x when non_negativity is set); penalty() is reg_strength times the sum of absolute values.", "quantifier": "every real matrix v, reg_strength >= 0, rho > 0, every competitor", "why_tests_cant": "Universal optimality statement.", "anchors": ["src/matcouply/penalties.py:L1Penalty"]}
{"id": "C08", "title": "generalized L2 update is the proximal operator of x^T M x", "statement": "For every symmetric positive semidefinite M with a valid SVD, the update minimises trace(x^T M x) + (rho/2)||x-v||^2.", "quantifier": "every symmetric PSD norm matrix, every v, rho > 0, every competitor", "why_tests_cant": "Universal optimality statement over all matrices and SVDs.", "anchors": ["src/matcouply/penalties.py:GeneralizedL2Penalty"]}
{"id": "C09", "title": "L2Ball update is the projection onto the norm ball", "statement": "Every column of the output has norm at most norm_bound (and is non-negative if requested) and the output is the nearest such matrix.", "quantifier": "every real matrix, norm_bound > 0, both non_negativity settings, every competitor", "why_tests_cant": "Universal optimality statement; the docstring's argument projects in the other order.", "anchors": ["src/matcouply/penalties.py:L2Ball"]}
{"id": "C10", "title": "UnitSimplex update returns (almost) a projection onto the simplex", "statement": "The bracket handed to the bisection always contains a sign change; the returned column is non-negative; if the bisection returns a root within tolerance eps then the sum differs from one by at most n*eps and every entry is within eps of the exact simplex projection.", "quantifier": "every non-empty real column, every bisection outcome within tolerance", "why_tests_cant": "Bracket validity must hold for every column.", "anchors": ["src/matcouply/penalties.py:UnitSimplex._compute_lagrange_multiplier", "src/matcouply/penalties.py:UnitSimplex.factor_matrix_update"]}
{"id": "C11", "title": "soft-thresholding after TV denoising is the joint TV+L1 proximal operator", "statement": "If the TV denoiser returns a minimiser of ||x-v||^2 + (2 a/rho) TV(x), then TotalVariationPenalty's update minimises a*TV(x) + b*||x||_1 + (rho/2)||x-v||^2 over every column.", "quantifier": "every vector, a > 0, b >= 0, rho > 0, every competitor", "why_tests_cant": "Compatibility of two proximal operators is an all-inputs theorem.", "anchors": ["src/matcouply/penalties.py:TotalVariationPenalty"]}
{"id": "C12", "title": "PARAFAC2 auxiliary variables satisfy the constant cross-product constraint", "statement": "After every PARAFAC2 update the matrices represented by the auxiliary variable all have the same cross product, whatever the number of coordinate-descent iterations.", "quantifier": "every list of factor matrices with at least rank rows, every feasibility penalty list, every n_iter >= 1, every valid SVD", "why_tests_cant": "Must hold for all data and all iteration counts.", "anchors": ["src/matcouply/penalties.py:Parafac2.factor_matrices_update", "src/matcouply/penalties.py:Parafac2.auxes_as_matrices"]}
{"id": "C13", "title": "PARAFAC2 coordinate descent never moves away from the target", "statement": "Each basis update and each coordinate update does not increase the penalty-weighted squared distance between the factor matrices and the auxiliary matrices, so more iterations never give a worse projection.", "quantifier": "every list of factor matrices, positive penalties, every n_iter, every feasible starting point", "why_tests_cant": "Monotonicity for all inputs and iteration counts.", "anchors": ["src/matcouply/penalties.py:Parafac2.factor_matrices_update"]}
{"id": "C14", "title": "row-wise and matrix-wise updates agree", "statement": "For every row-vector penalty the whole-matrix update equals the row update applied to each row, so mode-0 results do not depend on which entry point is used.", "quantifier": "every matrix, every penalty parameter, every row-vector penalty", "why_tests_cant": "Two code paths must agree on all inputs.", "anchors": ["src/matcouply/penalties.py:RowVectorPenalty.factor_matrix_update", "src/matcouply/penalties.py:NonNegativity", "src/matcouply/penalties.py:Box", "src/matcouply/penalties.py:L1Penalty"]}
{"id": "C15", "title": "auxiliary arithmetic is consistent with the matrix view", "statement": "subtract_from_auxes(auxes, duals) equals auxes_as_matrices(auxes) minus duals elementwise for every penalty, including PARAFAC2's factored representation.", "quantifier": "every auxiliary variable and dual list", "why_tests_cant": "Universal over representations.", "anchors": ["src/matcouply/penalties.py:ADMMPenalty.subtract_from_auxes", "src/matcouply/penalties.py:Parafac2.subtract_from_auxes", "src/matcouply/penalties.py:Parafac2.auxes_as_matrices"]}
{"id": "C16", "title": "penalty values are the documented ones", "statement": "penalty() is 0 for hard constraints, reg*sum|x| for L1, trace(x^T M x) for the generalized L2 and reg*TV + l1*sum|x| for TV, is non-negative, and on a list it is the sum over the elements.", "quantifier": "every factor matrix or list of them", "why_tests_cant": "Universal.", "anchors": ["src/matcouply/penalties.py:HardConstraintMixin.penalty", "src/matcouply/penalties.py:L1Penalty.penalty", "src/matcouply/penalties.py:GeneralizedL2Penalty.penalty", "src/matcouply/penalties.py:TotalVariationPenalty.penalty"]}
{"id": "C17", "title": "auxiliary and dual initialisation yields correctly shaped variables or an error", "statement": "init_aux/init_dual return variables whose shapes fit the mode (I x R, J_i x R, K x R) or raise: pre-specified variables of the wrong kind or shape are always rejected.", "quantifier": "every list of matrices, rank, mode, and initialiser", "why_tests_cant": "All combinations of kinds and shapes.", "anchors": ["src/matcouply/penalties.py:ADMMPenalty.init_aux", "src/matcouply/penalties.py:ADMMPenalty.init_dual", "src/matcouply/penalties.py:Parafac2.init_aux"]}
{"id": "C18", "title": "a CoupledMatrixFactorization exists only for consistent factors", "statement": "Construction succeeds exactly when weights is None or a length-rank vector, A and C and every B_i are matrices with rank columns, and A has one row per B_i; the reported shape and rank are those of the represented matrices; otherwise TypeError or ValueError is raised.", "quantifier": "every tuple of candidate factors of any kinds and shapes", "why_tests_cant": "Validation is an iff over an unbounded space of malformed inputs.", "anchors": ["src/matcouply/coupled_matrices.py:_validate_cmf", "src/matcouply/coupled_matrices.py:CoupledMatrixFactorization.__init__"]}
{"id": "C19", "title": "dense conversion computes B_i diag(a_i * w) C^T", "statement": "Entry (j,k) of the i-th represented matrix is the sum over r of B_i[j,r]*A[i,r]*w[r]*C[k,r]; converting all matrices agrees with converting them one at a time; out-of-range indices raise.", "quantifier": "every valid factorization, with or without weights, every index", "why_tests_cant": "Universal algebraic law.", "anchors": ["src/matcouply/coupled_matrices.py:cmf_to_matrix", "src/matcouply/coupled_matrices.py:cmf_to_matrices", "src/matcouply/coupled_matrices.py:cmf_to_slice"]}
{"id": "C20", "title": "tensor conversion pads with zeros only", "statement": "The tensor has shape (I, max J_i, K); slice i holds matrix i in its first J_i rows and zeros below.", "quantifier": "every valid factorization with at least one matrix, ragged or not", "why_tests_cant": "Universal over ragged shapes.", "anchors": ["src/matcouply/coupled_matrices.py:cmf_to_tensor", "src/matcouply/_utils.py:create_padded_tensor", "src/matcouply/_utils.py:get_padded_tensor_shape"]}
{"id": "C21", "title": "unfolding and vectorisation keep every entry in its documented place", "statement": "Unfoldings along each mode and the vectorisation contain tensor entry (i,j,k) at the documented position; with pad=False they are exactly the concatenation of the matrices (no added zeros) and modes 0 and 1 are rejected.", "quantifier": "every valid factorization, every mode, both pad settings", "why_tests_cant": "Index arithmetic for all sizes.", "anchors": ["src/matcouply/coupled_matrices.py:cmf_to_unfolded", "src/matcouply/coupled_matrices.py:cmf_to_vec"]}
{"id": "C22", "title": "conversion from CP and PARAFAC2 tensors preserves the represented data", "statement": "from_CPTensor and from_Parafac2Tensor return factorizations whose matrices equal (for CP with shapes: the leading rows of) the slices of the original tensor, and reject inconsistent shapes.", "quantifier": "every CP tensor of order three, every shapes argument, every PARAFAC2 tensor", "why_tests_cant": "Universal algebraic law and rejection rule.", "anchors": ["src/matcouply/coupled_matrices.py:CoupledMatrixFactorization.from_CPTensor", "src/matcouply/coupled_matrices.py:CoupledMatrixFactorization.from_Parafac2Tensor"]}
{"id": "C23", "title": "the reported reconstruction error is the true residual norm", "statement": "The fast formula (with and without the intermediate results of the A update) equals the square root of the sum of squared differences between data and represented matrices.", "quantifier": "every list of data matrices and every factorization of matching shape, both orders of multiplication", "why_tests_cant": "Two algebraic shortcuts must agree with the definition for all inputs.", "anchors": ["src/matcouply/decomposition.py:_cmf_reconstruction_error", "src/matcouply/decomposition.py:admm_update_A"]}
{"id": "C24", "title": "feasibility gaps measure distance to the auxiliary variables", "statement": "Each gap is ||aux - factor|| / ||factor||; it is zero exactly when the auxiliary matrices equal the factor; the feasibility test passes exactly when every gap of every mode is below the tolerance (and passes when there are no penalties).", "quantifier": "every factorization with nonzero factors, every list of penalties and auxiliaries", "why_tests_cant": "Universal.", "anchors": ["src/matcouply/decomposition.py:compute_feasibility_gaps", "src/matcouply/decomposition.py:_check_feasibility"]}
{"id": "C25", "title": "each ADMM factor update solves its least-squares subproblem", "statement": "The new A rows, B_i matrices and C are global minimisers of the data fit plus ridge term plus feasibility penalties given the current auxiliaries and duals.", "quantifier": "all data, factors, auxiliaries, duals, scales; any valid SVD; whenever the system is positive definite", "why_tests_cant": "Optimality over all competitors.", "anchors": ["src/matcouply/decomposition.py:admm_update_A", "src/matcouply/decomposition.py:admm_update_B", "src/matcouply/decomposition.py:admm_update_C"]}
{"id": "C26", "title": "dual variables accumulate the infeasibility", "statement": "After every inner iteration, for every penalty, new dual = new factor - new auxiliary + old dual, in every mode.", "quantifier": "every state and every number of inner iterations", "why_tests_cant": "Invariant over all histories.", "anchors": ["src/matcouply/decomposition.py:admm_update_A", "src/matcouply/decomposition.py:admm_update_B", "src/matcouply/decomposition.py:admm_update_C"]}
{"id": "C27", "title": "returned auxiliary variables satisfy the hard constraints exactly", "statement": "After any positive number of outer iterations with at least one inner iteration, the auxiliary variables of every hard constraint (non-negativity, box, norm ball, unimodality, PARAFAC2) satisfy the constraint exactly, so the gap bounds the distance of the factor from the constraint set.", "quantifier": "every data set, initialisation, penalty list, iteration count and stopping point", "why_tests_cant": "Must hold for every history and stopping point.", "anchors": ["src/matcouply/decomposition.py:cmf_aoadmm", "src/matcouply/decomposition.py:admm_update_A", "src/matcouply/decomposition.py:admm_update_B", "src/matcouply/decomposition.py:admm_update_C"]}
{"id": "C28", "title": "fixed points of the inner loop solve the penalised subproblem", "statement": "If an inner iteration leaves factor, auxiliaries and duals unchanged then the factor equals every auxiliary and minimises the penalised least-squares subproblem for convex penalties.", "quantifier": "every fixed point, every list of penalties whose update is a proximal operator of a convex function", "why_tests_cant": "Universal over fixed points and competitors.", "anchors": ["src/matcouply/decomposition.py:admm_update_C", "src/matcouply/decomposition.py:admm_update_B", "src/matcouply/decomposition.py:admm_update_A"]}
{"id": "C29", "title": "unregularised fits never get worse", "statement": "Without penalties every outer iteration does not increase the reconstruction error, so the reported losses are non-increasing when l2_penalty is zero.", "quantifier": "every data set, every starting point with positive definite subproblems, every number of iterations", "why_tests_cant": "Monotonicity over histories.", "anchors": ["src/matcouply/decomposition.py:cmf_aoadmm"]}
{"id": "C30", "title": "the reported loss is the objective being minimised", "statement": "With an L2 penalty the sequence of reported regularised losses should be non-increasing, since every block update is an exact minimisation.", "quantifier": "every data set and l2_penalty", "why_tests_cant": "The reported loss uses relative squared error while the updates use absolute squared error; only an analysis of both exposes it.", "anchors": ["src/matcouply/decomposition.py:cmf_aoadmm", "src/matcouply/decomposition.py:_compute_l2_penalty"]}
{"id": "C31", "title": "inner iterations stop exactly when the inner criteria hold", "statement": "Each factor update runs at most inner_n_iter_max iterations, exactly that many when inner_tol is unset, and stops early only after an iteration whose relative change and feasibility gaps are within inner_tol.", "quantifier": "every inner_tol, inner_n_iter_max and state", "why_tests_cant": "All histories.", "anchors": ["src/matcouply/decomposition.py:_check_inner_convergence", "src/matcouply/decomposition.py:admm_update_A", "src/matcouply/decomposition.py:admm_update_B", "src/matcouply/decomposition.py:admm_update_C"]}
{"id": "C32", "title": "frozen modes are left untouched", "statement": "With update_A (update_B_is, update_C) False, that factor in the result equals the initial one, and no penalties, auxiliaries or gaps are kept for it.", "quantifier": "every configuration and iteration count", "why_tests_cant": "All histories.", "anchors": ["src/matcouply/decomposition.py:cmf_aoadmm"]}
{"id": "C33", "title": "diagnostic histories have one entry per iteration plus the initial one", "statement": "With return_errors=True the lists of reconstruction errors, feasibility gaps and losses all have length n_iter + 1, and n_iter <= max(n_iter_max,0).", "quantifier": "every configuration and stopping history", "why_tests_cant": "All histories.", "anchors": ["src/matcouply/decomposition.py:cmf_aoadmm"]}
{"id": "C34", "title": "an early stop means the documented criteria hold", "statement": "If the fit stops before n_iter_max, then the last feasibility gaps are all below feasibility_tol and the relative or absolute loss criterion holds for the last losses, the flags and message say so; no earlier iteration satisfied them; otherwise exactly n_iter_max iterations are run and the message says so.", "quantifier": "every configuration and history", "why_tests_cant": "All histories.", "anchors": ["src/matcouply/decomposition.py:cmf_aoadmm", "src/matcouply/decomposition.py:_check_feasibility"]}
{"id": "C35", "title": "the absolute loss criterion stops the fit", "statement": "If absolute_tol is set and an iteration is feasible with loss below absolute_tol, the fit stops, also when tol is unset.", "quantifier": "every configuration", "why_tests_cant": "The branch is nested under the relative tolerance; needs all configurations.", "anchors": ["src/matcouply/decomposition.py:cmf_aoadmm"]}
{"id": "C36", "title": "requesting diagnostics does not change the fit", "statement": "Running with return_errors=True or False yields the same factorization.", "quantifier": "every configuration and history", "why_tests_cant": "When the gaps are too large and errors are not requested, losses are skipped, so later comparisons use an older loss; needs particular histories.", "anchors": ["src/matcouply/decomposition.py:cmf_aoadmm"]}
{"id": "C37", "title": "raising the iteration limit extends the run", "statement": "If a run stops early, any larger n_iter_max gives the identical result; otherwise the histories of the shorter run are a prefix of the longer run's.", "quantifier": "every configuration and pair of limits", "why_tests_cant": "Relates two executions.", "anchors": ["src/matcouply/decomposition.py:cmf_aoadmm"]}
{"id": "C38", "title": "requested constraints are imposed, and nothing else", "statement": "For every combination of regularisation arguments and every mode, the penalties used impose exactly the requested constraints (non-negativity, bounds, norm bound, unimodality) on factor matrices of every shape, and their penalty functions add up to the requested L1, TV and generalized L2 terms, each counted once; a PARAFAC2 penalty appears exactly once, first, and only on mode 1 when requested; user-supplied penalties follow unchanged. A strength or norm bound of zero, or None, requests nothing. Arguments are accepted exactly when the documented parameter conditions hold.", "quantifier": "every combination of regularisation arguments, every factor shape and matrix", "why_tests_cant": "Exponentially many combinations with real-valued parameters.", "anchors": ["src/matcouply/decomposition.py:_parse_mode_penalties", "src/matcouply/decomposition.py:_parse_all_penalties"]}
{"id": "C39", "title": "regularisation arguments are distributed over modes as documented", "statement": "A scalar applies to all three modes, a dictionary to its keys (others None), a length-three iterable positionally; any other length raises ValueError.", "quantifier": "every argument value", "why_tests_cant": "All lengths and key sets.", "anchors": ["src/matcouply/decomposition.py:_listify", "src/matcouply/_utils.py:is_iterable"]}
{"id": "C40", "title": "matrix-wise penalties on A need a constant feasibility penalty", "statement": "A fit with a matrix-wise penalty on mode 0 raises unless constant_feasibility_penalty covers A; PARAFAC2 on modes 0 or 2 is always rejected before fitting.", "quantifier": "every penalty list and configuration", "why_tests_cant": "All combinations.", "anchors": ["src/matcouply/decomposition.py:admm_update_A", "src/matcouply/penalties.py:Parafac2.init_aux", "src/matcouply/decomposition.py:cmf_aoadmm"]}
{"id": "C41", "title": "initialisation from a factorization preserves the represented data", "statement": "When init is a factorization its weights are folded into A and the starting point represents the same matrices; the first update does not discard weights.", "quantifier": "every valid initial factorization, every init method", "why_tests_cant": "Weights from the CP/PARAFAC2 initialisers are not folded.", "anchors": ["src/matcouply/decomposition.py:initialize_cmf", "src/matcouply/decomposition.py:admm_update_B"]}
{"id": "C42", "title": "fitting does not modify the caller's arrays", "statement": "cmf_aoadmm leaves the arrays and lists passed as init, aux_init and dual_init unchanged.", "quantifier": "every call", "why_tests_cant": "Aliasing depends on the parity of inner iterations and on which buffers are swapped.", "anchors": ["src/matcouply/decomposition.py:admm_update_A", "src/matcouply/decomposition.py:admm_update_B", "src/matcouply/penalties.py:ADMMPenalty.init_aux"]}
{"id": "C43", "title": "random_coupled_matrices normalisation keeps the represented matrices", "statement": "Normalising factors moves the norms into the weights without changing the represented matrices and makes the columns of A, C and every B_i unit norm; unequal column counts are rejected.", "quantifier": "every shapes list, rank, and draw with nonzero columns", "why_tests_cant": "Universal over draws.", "anchors": ["src/matcouply/random.py:random_coupled_matrices"]}
{"id": "C44", "title": "simulated data has the stated noise level and structure", "statement": "The noisy matrices differ from the noiseless ones by exactly noise_level in relative norm; the B_i are cyclic shifts of one another, non-negative and with constant cross product; A lies between 0.1 and 1.1 and C is non-negative; the call fails only when all noise numbers are zero.", "quantifier": "every noise level and random draw", "why_tests_cant": "Universal over draws.", "anchors": ["src/matcouply/data.py:get_simple_simulated_data"]}
{"id": "C45", "title": "the etch data cache is faithful", "statement": "For every file: an existing local file is used without network access; otherwise it is downloaded only if allowed; with save_data=False the file system is unchanged; after a successful saving call, later calls need no network and return the same data.", "quantifier": "every file system state, every server behaviour, every flag combination", "why_tests_cant": "All histories of calls and server answers.", "anchors": ["src/matcouply/data.py:get_semiconductor_etch_raw_data"]}
{"id": "C46", "title": "an interrupted download does not corrupt later loads", "statement": "If the process dies while a file is being saved, the next call either re-downloads it or loads the complete file.", "quantifier": "every crash point", "why_tests_cant": "Crash points cannot be enumerated by unit tests.", "anchors": ["src/matcouply/data.py:get_semiconductor_etch_raw_data"]}
{"id": "C47", "title": "mro computes a consistent linearisation or correctly refuses", "statement": "mro(*bases) returns a duplicate-free ordering of all ancestors that preserves the order of every base's own MRO and of the bases themselves, and raises TypeError exactly when no such ordering exists.", "quantifier": "every class hierarchy", "why_tests_cant": "All hierarchies.", "anchors": ["src/matcouply/_doc_utils.py:mro"]}
{"id": "C48", "title": "docstring inheritance copies the nearest ancestor's docstring", "statement": "A method without docstring receives the docstring of the first class in the MRO that defines it; a method with a docstring or without an ancestor is rejected.", "quantifier": "every MRO and method", "why_tests_cant": "All MROs.", "anchors": ["src/matcouply/_doc_utils.py:_copy_ancestor_docstring"]}
{"id": "C49", "title": "parafac2_aoadmm is cmf_aoadmm with the PARAFAC2 constraint", "statement": "Calling parafac2_aoadmm gives the result of cmf_aoadmm with parafac2=True for every other argument, including the differing l2_penalty default.", "quantifier": "every argument combination", "why_tests_cant": "All arguments.", "anchors": ["src/matcouply/decomposition.py:parafac2_aoadmm"]}
{"id": "C50", "title": "inner ADMM iterations never move away from a solution", "statement": "For convex penalties on any mode, the weighted distance of (auxiliary, dual) to any optimal pair does not increase with any inner iteration of that mode's update, and among the first k iterations some iterate has infeasibility at most (initial distance)/k.", "quantifier": "every problem, every optimal pair, every number of iterations", "why_tests_cant": "A Lyapunov argument over all histories.", "anchors": ["src/matcouply/decomposition.py:admm_update_A", "src/matcouply/decomposition.py:admm_update_B", "src/matcouply/decomposition.py:admm_update_C"]}
{"id": "C51", "title": "well-posed fits do not fail", "statement": "With valid input and an SVD routine that works, a factor update whose system is positive definite returns a result, and so does a whole fit with a positive l2_penalty on every updated mode and penalties that do not divide by the feasibility penalty: no linear solve, division or shape check can fail part-way.", "quantifier": "every data set, configuration and valid starting point, every iteration count", "why_tests_cant": "A crash after hours of iterations depends on values no test reaches.", "anchors": ["src/matcouply/decomposition.py:admm_update_A", "src/matcouply/decomposition.py:admm_update_B", "src/matcouply/decomposition.py:admm_update_C", "src/matcouply/decomposition.py:cmf_aoadmm"]}
{"id": "C52", "title": "padding keeps the data", "statement": "create_padded_tensor returns the tensor of size I x max J_i x K whose slice i starts with matrix i and is zero below; matrices with different numbers of columns are a ValueError and an empty list an IndexError.", "quantifier": "every list of matrices", "why_tests_cant": "All sizes.", "anchors": ["src/matcouply/_utils.py:create_padded_tensor", "src/matcouply/_utils.py:get_padded_tensor_shape", "src/matcouply/_utils.py:get_shapes"]}
{"id": "C53", "title": "named starting points are what they are documented to be", "statement": "init='random' draws A, C and the B_i uniformly, in that order; 'svd' takes ones for A, leading left singular vectors of each matrix for B_i and right singular vectors of the stacked matrices for C, 'threshold_svd' the same with negative entries set to zero; 'parafac' and 'parafac_hals' represent the slices of the CP decomposition of the padded tensor, 'parafac2' the PARAFAC2 decomposition; all are valid factorizations; an unknown name is an error.", "quantifier": "every data set, rank, random stream and result of the initial decompositions", "why_tests_cant": "All sizes and all decompositions.", "anchors": ["src/matcouply/decomposition.py:initialize_cmf"]}
{"id": "C54", "title": "simulated component vectors are unimodal", "statement": "As documented, every component vector of every B_i of the simulated factorization is unimodal.", "quantifier": "every matrix and component of every simulated data set", "why_tests_cant": "The claim fails only in the tails, far below any test tolerance.", "anchors": ["src/matcouply/data.py:get_simple_simulated_data"]}
{"id": "C55", "title": "a failed download can be repeated", "statement": "If a call for the etch data fails because of what the server did, a later call succeeds once the server works.", "quantifier": "every server behaviour, every history of calls", "why_tests_cant": "All histories of calls and server answers.", "anchors": ["src/matcouply/data.py:get_semiconductor_etch_raw_data"]}
{"id": "C56", "title": "etch data and metadata belong together", "statement": "For every sample of the etch data, the measurement table and the metadata table of the same name hold the same time points of the same experiment: gluing them gives the sample's array without its last row, and experiment, sample number and fault name are those of that sample.", "quantifier": "every content of the MATLAB file", "why_tests_cant": "All file contents.", "anchors": ["src/matcouply/data.py:get_semiconductor_etch_machine_data"]}
{"id": "C57", "title": "results do not depend on shared memory", "statement": "The factorization, variables, diagnostics and exceptions of a fit depend on the contents of the arrays passed in, not on which of them are the same object; the buffers that take turns holding A and the B_i and the writes in place do not show in the result.", "quantifier": "every call, every arrangement of the arguments in memory", "why_tests_cant": "All aliasings and all parities of the inner iterations.", "anchors": ["src/matcouply/decomposition.py:admm_update_A", "src/matcouply/decomposition.py:admm_update_B", "src/matcouply/decomposition.py:cmf_aoadmm"]}
{"id": "C58", "title": "hard constraints survive rounding", "statement": "Whatever rounding the arithmetic does, as long as comparison is a total order: after a fit with at least one outer and inner iteration, each requested hard constraint that is a matter of order (non-negativity, bounds, unimodality, both together) holds exactly, without tolerance, for some returned auxiliary variable of every updated mode, and each user-supplied penalty of these kinds finds its own variable, of the factor's size, at the end of the list.", "quantifier": "every arithmetic with a total order, every data set, configuration, start and stopping point", "why_tests_cant": "Tests see one arithmetic and a tolerance; the claim is exact and for all of them.", "anchors": ["src/matcouply/decomposition.py:cmf_aoadmm", "src/matcouply/penalties.py:NonNegativity", "src/matcouply/penalties.py:Box", "src/matcouply/penalties.py:Unimodality", "src/matcouply/_unimodal_regression.py:unimodal_regression"]}
{"id": "C59", "title": "bookkeeping of a fit does not depend on the arithmetic", "statement": "Under any arithmetic with a total order: the returned factors have the sizes of the data and the rank, frozen factors are the initial ones, the histories have n_iter + 1 entries, an early stop happens at the first iteration satisfying the documented criteria on the reported numbers, and message and flags agree with them (no reported gap being nan).", "quantifier": "every arithmetic with a total order, every call that returns", "why_tests_cant": "Rounding could make a test on exact numbers irrelevant; all histories.", "anchors": ["src/matcouply/decomposition.py:cmf_aoadmm"]}
{"id": "C60", "title": "a factorization unpacks to what it was built from", "statement": "Iterating over a CoupledMatrixFactorization, indexing it with 0 and 1 and unpacking it give the weights and factors it was built from, every other index raises IndexError, len agrees with the number of items; building a factorization from another gives an equal one.", "quantifier": "every accepted object, every integer index", "why_tests_cant": "All objects and indices.", "anchors": ["src/matcouply/coupled_matrices.py:CoupledMatrixFactorization"]}
{"id": "C61", "title": "penalties keep the contract the library's test mixins check", "statement": "Updating a matrix leaves it unchanged exactly when it satisfies the constraint and has zero penalty; the update never increases the penalty; updates of convex penalties are firmly non-expansive; matrices with columns in the simplex move by no more than the bisection tolerance; PARAFAC2 factor matrices equal to basis times coordinates stay the same.", "quantifier": "every penalty shipped with the library, every matrix, every feasibility penalty", "why_tests_cant": "The mixins check random matrices and never the converse.", "anchors": ["src/matcouply/testing/admm_penalty.py:BaseTestFactorMatrixPenalty", "src/matcouply/testing/admm_penalty.py:MixinTestHardConstraint", "src/matcouply/penalties.py:MatrixPenalty"]}
{"id": "C62", "title": "bike data tables show the trips of the file", "statement": "The tables of Oslo, Trondheim and Bergen have one row for each station of the city and one column for each hour, and the entry for a station and an hour is the number of trips the file has for that city, station and hour; the metadata table is that of the file; the call returns exactly when all four tables exist, the cities have equally many hours, and hours and station ids are numbers.", "quantifier": "every content of the archive", "why_tests_cant": "The shipped file is one case; a new release of the data is another.", "anchors": ["src/matcouply/data.py:get_bike_data"]}
{"id": "C63", "title": "verbose only prints", "statement": "The outcome of a fit, result or exception, is the same for every value of verbose; with verbose=False nothing is printed; with verbose = v > 0 the penalties and initial gaps are printed, then one report for each of the iterations 0, v, 2v, ..., with the numbers that the diagnostics hold for that iteration, then whether the fit converged or reached the maximum number of iterations.", "quantifier": "every call and every integer verbose", "why_tests_cant": "All histories and values of verbose.", "anchors": ["src/matcouply/decomposition.py:cmf_aoadmm", "src/matcouply/decomposition.py:_parse_all_penalties"]}
{"id": "C64", "title": "the printed number of iterations is the number of iterations", "statement": "The number printed when a fit converges is the number of iterations that were made (n_iter of the diagnostics).", "quantifier": "every fit that converges", "why_tests_cant": "Relates printed text and returned diagnostics for all runs.", "anchors": ["src/matcouply/decomposition.py:cmf_aoadmm"]}
{"id": "C65", "title": "enough inner iterations solve the penalised subproblem", "statement": "For convex penalties that some matrix meets together (all but one with room to spare): the factor and the auxiliary variables returned by an update of A, the B_i or C with k + 1 inner iterations approach every solution of the penalised subproblem, the squared infeasibility at rate 1/k and the objective value at rate 1/sqrt k; with a positive ridge penalty the solution is unique and the update, for every number of inner iterations from some number on, returns and is entrywise within any given distance of it.", "quantifier": "every data set, factorization, starting auxiliary and dual variables, and list of convex penalties; all large numbers of inner iterations", "why_tests_cant": "A limit statement; a test makes finitely many iterations from finitely many starts.", "anchors": ["src/matcouply/decomposition.py:admm_update_A", "src/matcouply/decomposition.py:admm_update_B", "src/matcouply/decomposition.py:admm_update_C"]}
{"id": "C66", "title": "a given start is checked against the data", "statement": "If init is a factorization, the call raises unless it represents as many matrices as the data has, each with the size of its data matrix, and has rank components.", "quantifier": "every call and every valid factorization as init", "why_tests_cant": "All shapes, ranks and combinations of penalties and fixed modes.", "anchors": ["src/matcouply/decomposition.py:cmf_aoadmm", "src/matcouply/decomposition.py:initialize_cmf", "src/matcouply/decomposition.py:_cmf_reconstruction_error", "src/matcouply/decomposition.py:compute_feasibility_gaps"]}
{"id": "C67", "title": "the order of the data matrices plays no part", "statement": "If two calls differ only in the order of the data matrices (and of the rows of the given start's A, its B_i and the given initial variables that belong to them), and A carries only penalties that treat its rows alike, then one returns exactly when the other does, with the same C, the same errors, losses, gaps, number of iterations and message, and with A, the B_i and the variables in the respective order.", "quantifier": "every call with a given start and zero or given initial variables, every permutation", "why_tests_cant": "All permutations, data and penalty lists, over whole runs.", "anchors": ["src/matcouply/decomposition.py:cmf_aoadmm", "src/matcouply/decomposition.py:admm_update_A", "src/matcouply/decomposition.py:admm_update_B", "src/matcouply/decomposition.py:admm_update_C", "src/matcouply/penalties.py:Parafac2"]}
{"id": "C68", "title": "a fit can be continued from what it returned", "statement": "If a fit with n iterations used them all up, then a second call with the returned factorization as init, the same penalties each started from its returned auxiliary and dual variables, the other arguments unchanged and m iterations ends exactly as the first call would have ended with n + m iterations: the same exception, or the same factors and variables, with the second history of errors, losses and gaps continuing the first where it ended. Every fit that returns its variables can be continued in this way.", "quantifier": "every call with any start, data and penalties, all n and m, wherever the run is cut in two", "why_tests_cant": "All cut points, histories and penalty lists; a test cuts one run once.", "anchors": ["src/matcouply/decomposition.py:cmf_aoadmm", "src/matcouply/decomposition.py:initialize_cmf", "src/matcouply/penalties.py:ADMMPenalty.init_aux", "src/matcouply/penalties.py:ADMMPenalty.init_dual", "src/matcouply/penalties.py:Parafac2.init_aux"]}
{"id": "C69", "title": "the order of the components plays no part", "statement": "If two calls differ only in the order of the components of the given start (columns of A, of the B_i and of C), then both raise the same exception, or both return the same components in the respective order, with variables in the same order and the same errors, losses, gaps, number of iterations and message.", "quantifier": "every accepted call with a given start and initial variables zero, every permutation of the components, all penalties", "why_tests_cant": "All permutations, ranks, data and penalty lists, over whole runs.", "anchors": ["src/matcouply/decomposition.py:cmf_aoadmm", "src/matcouply/decomposition.py:admm_update_A", "src/matcouply/decomposition.py:admm_update_B", "src/matcouply/decomposition.py:admm_update_C", "src/matcouply/penalties.py:MatricesPenalty", "src/matcouply/penalties.py:Parafac2"]}
{"id": "C70", "title": "the order of rows and columns of the data plays no part", "statement": "If two calls differ in the order of the rows of each data matrix (and of its B_i in the start) and of the columns of all data matrices (and of the rows of C in the start), and the modes whose order changes carry no penalty that looks at neighbouring rows (unimodality, total variation, generalized L2, PARAFAC2), then both raise the same exception, or both return the same factors and variables in the respective order, with the same diagnostics.", "quantifier": "every accepted call with a given start and initial variables zero, every permutation of the rows of each matrix and of the columns", "why_tests_cant": "All permutations, sizes and penalty lists, over whole runs.", "anchors": ["src/matcouply/decomposition.py:cmf_aoadmm", "src/matcouply/decomposition.py:admm_update_B", "src/matcouply/decomposition.py:admm_update_C", "src/matcouply/penalties.py:L2Ball", "src/matcouply/penalties.py:NonNegativity", "src/matcouply/penalties.py:Box", "src/matcouply/penalties.py:L1Penalty"]}
{"id": "C71", "title": "units of measurement play no part", "statement": "If the factors A, B_i and C are measured in other units (any three positive factors), the data in the unit that follows, and bounds, norm bounds, strengths, ridge terms and start are converted accordingly, then both calls raise the same exception, or both return factors and variables that correspond, with the same relative errors, feasibility gaps, number of iterations and message; the losses are the same when the unit of the data is kept or when there are only constraints (otherwise this needs tol switched off).", "quantifier": "every two corresponding calls with corresponding starting points: given factors with zero variables, or any start whatever that corresponds", "why_tests_cant": "All scalings, data and penalty lists, over whole runs with stopping rules.", "anchors": ["src/matcouply/decomposition.py:cmf_aoadmm", "src/matcouply/decomposition.py:admm_update_A", "src/matcouply/decomposition.py:admm_update_B", "src/matcouply/decomposition.py:admm_update_C", "src/matcouply/decomposition.py:compute_feasibility_gaps", "src/matcouply/penalties.py:L2Ball", "src/matcouply/penalties.py:Box", "src/matcouply/penalties.py:L1Penalty", "src/matcouply/penalties.py:GeneralizedL2Penalty"]}
{"id": "C72", "title": "the choice of the svd routine plays no part", "statement": "Without PARAFAC2 and with a given or random start, any two svd routines that return correct decompositions (signs, bases of repeated singular values and order are up to them) give the same outcome: the same exception, or exactly the same factors, variables and diagnostics. With PARAFAC2 the same holds for calls in which every matrix with rank columns that is decomposed has linearly independent columns.", "quantifier": "every accepted call, with PARAFAC2 those that meet no matrix with dependent columns, every pair of correct svd routines", "why_tests_cant": "Quantifies over all pairs of routines and whole runs.", "anchors": ["src/matcouply/decomposition.py:cmf_aoadmm", "src/matcouply/decomposition.py:admm_update_A", "src/matcouply/decomposition.py:admm_update_B", "src/matcouply/decomposition.py:admm_update_C", "src/matcouply/penalties.py:GeneralizedL2Penalty"]}
{"id": "C73", "title": "unpenalised fits approach stationary points", "statement": "With a positive l2 penalty and no other penalty on every updated mode, and tol switched off, the slopes of the objective (half the squared residual plus the l2 terms) at the returned factors go to zero as n_iter_max grows: for every eps there is a number of iterations from which on the objective changes at a rate of at most eps in every direction whose entries are at most 1 (modes that are not updated stay fixed). The slopes at an iterate are at most a constant times the last change of the factors, the squared changes have a sum of at most 2/l times the objective after the first iteration (l the smallest l2 penalty), so among the first n iterations one has slopes of order 1/sqrt(n).", "quantifier": "every such call: all data, starts (weighted or not), ranks, l2 strengths, sets of updated modes, inner iteration counts, numbers of iterations", "why_tests_cant": "A limit statement over infinitely many iterations.", "anchors": ["src/matcouply/decomposition.py:cmf_aoadmm", "src/matcouply/decomposition.py:admm_update_A", "src/matcouply/decomposition.py:admm_update_B", "src/matcouply/decomposition.py:admm_update_C"]}
{"id": "C74", "title": "penalty objects are interchangeable with classes that have the same methods", "statement": "The fitting code uses a penalty object only through its methods: for objects of the built-in classes, a fit that calls whatever methods the class of the object has (own ones, inherited ones, templates of the base classes) returns exactly what the fit with the built-in penalties returns.", "quantifier": "every call: all data, arguments, penalties, in every arithmetic", "why_tests_cant": "Two ways of dispatching must agree for all calls and histories.", "anchors": ["src/matcouply/penalties.py:ADMMPenalty", "src/matcouply/penalties.py:MatricesPenalty", "src/matcouply/penalties.py:MatrixPenalty", "src/matcouply/penalties.py:RowVectorPenalty", "src/matcouply/penalties.py:HardConstraintMixin", "src/matcouply/decomposition.py:cmf_aoadmm"]}
{"id": "C75", "title": "the parametrisation of auxiliary variables makes no difference", "statement": "If two penalty classes written by the user start alike, and their updates, subtractions and penalty values agree through a relation between how they store auxiliary variables, then fits with either return the same factors, dual variables and diagnostics (or raise the same exception), and the auxiliary variables are related. In particular storing the auxiliary matrices of a non-negativity constraint transposed changes nothing.", "quantifier": "every pair of classes with such a relation, every call, in every arithmetic", "why_tests_cant": "Relational statement over all runs of two programs.", "anchors": ["src/matcouply/penalties.py:ADMMPenalty.subtract_from_aux", "src/matcouply/penalties.py:ADMMPenalty.subtract_from_auxes", "src/matcouply/penalties.py:ADMMPenalty.aux_as_matrix", "src/matcouply/penalties.py:ADMMPenalty.auxes_as_matrices", "src/matcouply/decomposition.py:cmf_aoadmm"]}
{"id": "C76", "title": "auxiliary variables come from the object's own methods", "statement": "The auxiliary variable that a fit returns for an object in regs is the object's own start followed by calls of its own update, each call given the result of the one before, at most n_iter_max times inner_n_iter_max of them and at least one if both are positive. Hence whatever the start and every call ensure holds of the returned variable, and what every single call ensures holds as soon as both counts are positive.", "quantifier": "every list of user-written objects in each mode, every call", "why_tests_cant": "Provenance over all histories and stopping points.", "anchors": ["src/matcouply/decomposition.py:admm_update_A", "src/matcouply/decomposition.py:admm_update_B", "src/matcouply/decomposition.py:admm_update_C", "src/matcouply/decomposition.py:cmf_aoadmm", "src/matcouply/penalties.py:ADMMPenalty.init_aux"]}
{"id": "C77", "title": "templates of the penalty base classes", "statement": "A RowVectorPenalty that implements only factor_matrix_row_update acts on every row separately, in all modes; a MatrixPenalty that implements only factor_matrix_update acts on every B_i separately, on C, and on A if the feasibility penalty of A is constant. If an object lacks the method that its mode needs, a fit with at least one iteration cannot return. A class can be instantiated exactly if it has the methods its base class declares abstract, and then no inherited method raises NotImplementedError. aux_as_matrix and auxes_as_matrices give the matrices that auxiliary variables stand for (arrays themselves, the products of a PARAFAC2 pair), and feasibility gaps are distances from them.", "quantifier": "every user-written class and every call", "why_tests_cant": "Ranges over all classes a user can write.", "anchors": ["src/matcouply/penalties.py:RowVectorPenalty", "src/matcouply/penalties.py:MatrixPenalty", "src/matcouply/penalties.py:MatricesPenalty", "src/matcouply/penalties.py:ADMMPenalty.penalty", "src/matcouply/penalties.py:ADMMPenalty.aux_as_matrix", "src/matcouply/penalties.py:Parafac2.auxes_as_matrices"]}
{"id": "C78", "title": "the custom penalty of the gallery projects", "statement": "UnimodalAllExceptLast, the class written in the gallery example on custom penalties, returns a nearest matrix among those whose columns but the last are unimodal (and whose entries are all non-negative if asked for), and the same matrix if it already has the property; auxiliary matrices that a fit with it returns have the property, in modes 1 and 2.", "quantifier": "every matrix with at least one row and two columns, every competitor; every fit with positive iteration counts", "why_tests_cant": "Universal optimality statement and invariant over histories.", "anchors": ["examples/plot_custom_penalty.py:UnimodalAllExceptLast", "src/matcouply/penalties.py:MatrixPenalty"]}
{"id": "C79", "title": "fits with sound user-written penalties cannot fail", "statement": "If the methods of the user's objects return values of the right shapes for arguments of the right shapes (the user's own notion of a well-formed auxiliary variable being kept by the update), updated modes have a positive l2 penalty and the other arguments are usable, then the fit returns, with factor matrices that fit the data and have the requested rank.", "quantifier": "every such call: all data, ranks, random or given starts, sound objects of the user together with keyword constraints", "why_tests_cant": "Absence of exceptions in all reachable states.", "anchors": ["src/matcouply/decomposition.py:cmf_aoadmm", "src/matcouply/penalties.py:ADMMPenalty"]}
{"id": "C80", "title": "a call that is in order raises only for stated reasons", "statement": "If the arguments respect the documentation (data of one number of columns, accepted penalties, PARAFAC2 for the B_i only and with enough rows, penalties of whole columns of A only with a constant feasibility penalty, an absolute tolerance beside the relative one, initial values that are names or have the right shapes, a random start, a start from singular vectors or a given factorization of the right sizes), cmf_aoadmm returns factor matrices that fit the data and have the requested rank, or it divides by zero (a singular system without ridge, or a feasibility penalty of zero), or the root search of a unit simplex gives up. Nothing is assumed about ridge terms, strengths, iteration counts or data entries. With penalty classes written by the user, the only further exceptions are those their own methods raise for arguments of the right shapes.", "quantifier": "every such call, every data, every generator, every allowed set of exceptions of user methods", "why_tests_cant": "Absence of unexpected exceptions in all reachable states.", "anchors": ["src/matcouply/decomposition.py:cmf_aoadmm", "src/matcouply/decomposition.py:initialize_cmf", "src/matcouply/decomposition.py:admm_update_A", "src/matcouply/decomposition.py:admm_update_B", "src/matcouply/decomposition.py:admm_update_C", "src/matcouply/penalties.py:ADMMPenalty", "src/matcouply/penalties.py:Parafac2", "src/matcouply/penalties.py:UnitSimplex"]}
{"id": "C81", "title": "calls at the same time do not disturb one another", "statement": "Several processes may call get_semiconductor_etch_raw_data at the same time on the same directory. Each call should return, or fail, as it would alone, and when all have ended every file in the directory should be complete.", "quantifier": "any number of calls with any arguments, every interleaving of their operations, processes dying anywhere, any server that has one version of each file", "why_tests_cant": "The outcome depends on the interleaving, and there are infinitely many.", "anchors": ["src/matcouply/data.py:get_semiconductor_etch_raw_data"]}
{"id": "C82", "title": "updating a single mode solves its problem", "statement": "A fit in which only one of A, the B_i and C is updated, with a ridge penalty and convex penalties on that mode and no tolerances, gets as close as one likes to the optimum of its convex problem: the squared error with the other factors as they were at the start, plus the ridge term and all requested penalties, subject to all requested constraints, which must leave some room (a point allowed with all points near it). There is exactly one optimum; with enough outer iterations the call returns, and the returned factor and all returned auxiliary variables of the mode are within eps of it.", "quantifier": "all data, starts, regularisation arguments, numbers of inner iterations, initial auxiliary and dual variables, every eps", "why_tests_cant": "The claim is about the limit of the iterations, for all data.", "anchors": ["src/matcouply/decomposition.py:cmf_aoadmm", "src/matcouply/decomposition.py:admm_update_A", "src/matcouply/decomposition.py:admm_update_B", "src/matcouply/decomposition.py:admm_update_C"]}
{"id": "C83", "title": "the choice of orthonormal coordinates does not matter", "statement": "Replacing every data matrix X_i by P_i X_i Q^T, where the P_i and Q have orthonormal columns (rotations, reflections, exchanges of coordinates, appended rows or columns of zeros), turns the result and changes nothing else: if the calls start at corresponding points, the second returns the same A and weights, the B_i multiplied by P_i and C by Q, the auxiliary and dual variables multiplied likewise, and the same diagnostics; or both raise the same exception. This holds when a turned mode has no penalty that looks at single entries (a bound on the column norms and PARAFAC2 are allowed); modes that are not turned may have any penalty. For PARAFAC2 with turned rows it holds whenever the matrices decomposed have independent columns, so that the nearest orthonormal matrix is unique.", "quantifier": "all data, orthonormal P_i and Q of any sizes, starts, regularisation arguments, tolerances, svd routines", "why_tests_cant": "Any rotation of any data; a test compares a few, up to rounding.", "anchors": ["src/matcouply/decomposition.py:cmf_aoadmm", "src/matcouply/decomposition.py:admm_update_A", "src/matcouply/decomposition.py:admm_update_B", "src/matcouply/decomposition.py:admm_update_C", "src/matcouply/decomposition.py:compute_feasibility_gaps", "src/matcouply/decomposition.py:_cmf_reconstruction_error", "src/matcouply/penalties.py:L2Ball.factor_matrix_update", "src/matcouply/penalties.py:Parafac2.factor_matrices_update"]}
{"id": "C84", "title": "example gallery: the script keeps its best start", "statement": "The gallery scripts fit a model from several random starts and keep one. Bike sharing script: the selected model is the first of those with the lowest final regularised loss, hence (its only penalties are constraints) the first with the smallest relative reconstruction error; no model is selected only if no start ends with a number. Number-of-components script: each score is one minus the lowest final loss among the starts of that rank, i.e. 1 - e^2/2 for the smallest relative error e, and the stored model has that error. Simulated-data scripts: the kept model converged, and it should have the lowest loss of the converged ones.", "quantifier": "all data, ranks, numbers of starts, generators, svd routines; the selection rules in any ordered arithmetic", "why_tests_cant": "Depends on the order in which good and bad starts arrive.", "anchors": ["examples/plot_bikesharing.py", "examples/plot_examining_different_number_of_components.py", "examples/plot_simulated_nonnegative.py", "examples/plot_custom_penalty.py"]}
{"id": "C85", "title": "example gallery: the simulated data are what the text says", "statement": "The simulated data of the gallery scripts (any sizes with at least one row, any rank, any generator): A lies in [0.1, 1.1] when the uniform numbers lie in [0, 1]; the B_i are non-negative and are cyclic shifts of B_0, so they have the same cross products (the data follow PARAFAC2); C is non-negative when it is truncated; every noisy matrix is the represented one plus a multiple of fresh uniform numbers, and its relative distance to the represented one is exactly the noise level, for every matrix by itself. The script fails only if a noise matrix is zero.", "quantifier": "all sizes, ranks, noise levels, random numbers", "why_tests_cant": "Random numbers.", "anchors": ["examples/plot_simulated_nonnegative.py", "examples/plot_examining_different_number_of_components.py"]}
{"id": "C86", "title": "example gallery: preparing data and rearranging components keep what they should", "statement": "Semiconductor etch script: standardising shifts and divides every column in the same way in all matrices and gives columns with mean 0 and variance 1 over all rows together, whenever no column is constant; dividing A and C by their column norms and multiplying the B_i by them leaves every represented entry unchanged. Bike sharing script: reordering and clipping keeps every entry that is not negative, and for non-negative factors the represented data. The stacked CP tensor used to compare models holds every represented matrix in its own rows.", "quantifier": "all data, factorizations, PARAFAC2 tensors, sorting routines", "why_tests_cant": "Any numbers and sizes.", "anchors": ["examples/plot_semiconductor_etch_analysis.py", "examples/plot_bikesharing.py", "examples/plot_simulated_nonnegative.py", "examples/plot_custom_penalty.py"]}
{"id": "C87", "title": "example gallery: the first component shown explains the most", "statement": "The gallery scripts order the components before showing them, so that the first explains most of the variation (contributes most to the data, in the sum of squares).", "quantifier": "all factorizations whose B_i have columns of equal norm (PARAFAC2), non-negative weights, all sorting routines", "why_tests_cant": "Any sizes of the components.", "anchors": ["examples/plot_semiconductor_etch_analysis.py", "examples/plot_bikesharing.py"]}
{"id": "C88", "title": "the order of the penalties of a mode does not matter", "statement": "Listing the penalties of a mode in another order in regs gives the same fit: if one call returns so does the other, with the same factors, errors, losses, number of iterations, message and feasibility, and with the auxiliary variables, dual variables and feasibility gaps of the penalties in the new order.", "quantifier": "all data, settings and penalties, all orders of the user's own penalties, starts that agree (always so when no variable is drawn at random)", "why_tests_cant": "Every order, data set and number of iterations; any two penalties could be combined.", "anchors": ["src/matcouply/decomposition.py:cmf_aoadmm", "src/matcouply/decomposition.py:_check_feasibility", "src/matcouply/decomposition.py:compute_feasibility_gaps", "src/matcouply/decomposition.py:admm_update_A", "src/matcouply/decomposition.py:admm_update_B", "src/matcouply/decomposition.py:admm_update_C"]}
{"id": "C89", "title": "a fit reported as feasible nearly satisfies its constraints", "statement": "When the diagnostics say that the feasibility condition is satisfied, the factor matrix of every updated mode is closer than feasibility_tol times its norm to matrices that satisfy the constraint exactly, for every requested constraint. So no entry violates a bound, and no column a norm bound, by more than feasibility_tol times the norm of the factor. With enough iterations such a report is reached when one mode is updated and its problem is convex with a solution other than zero.", "quantifier": "all data, settings, starts, constraints given by keywords or as penalty objects, PARAFAC2, and all numbers of iterations", "why_tests_cant": "The statement is about every run that ends with such a report, of any length, and about the limit of ever longer runs.", "anchors": ["src/matcouply/decomposition.py:cmf_aoadmm", "src/matcouply/decomposition.py:_check_feasibility", "src/matcouply/decomposition.py:compute_feasibility_gaps"]}
{"id": "C90", "title": "different ways of asking for the same penalties give the same fit", "statement": "Every keyword regulariser of cmf_aoadmm stands for penalty objects: the call without keywords, with those objects in front of the user's own in regs, returns or raises the same. One value for all modes, three values and a dictionary with the same values are interchangeable. Asking for non-negativity and setting the lower bound to zero, by keyword or object, on any of the modes and also with an upper bound, gives the same factor matrices, variables and diagnostics.", "quantifier": "all data, settings, starts, random numbers, keyword values, user penalties, numbers of iterations and number types", "why_tests_cant": "Two calls are compared on every input; tests compare the parsed objects on a few literals.", "anchors": ["src/matcouply/decomposition.py:_parse_all_penalties", "src/matcouply/decomposition.py:_parse_mode_penalties", "src/matcouply/decomposition.py:_listify", "src/matcouply/decomposition.py:cmf_aoadmm", "src/matcouply/penalties.py:NonNegativity", "src/matcouply/penalties.py:Box"]}
{"id": "C91", "title": "rows and columns of zeros play no part", "statement": "If rows and columns of zeros are added to the data matrices (at the end, in between, with the others rearranged) and rows of zeros to the initial factors in the same places, then cmf_aoadmm returns the same A, weights and diagnostics, and the same B_i, C and ADMM variables with rows of zeros in those places, or it raises the same exception. What is asked of a mode to which rows are added must be satisfied by zeros and treat rows alike: signs, bounds between which 0 lies, sparsity, bounds on column norms, PARAFAC2.", "quantifier": "all data, ranks, numbers of rows and columns added and their positions, settings, penalties of these kinds, starts, correct svd routines and numbers of iterations", "why_tests_cant": "Two calls on data of different sizes are compared on every input; tests never pad data.", "anchors": ["src/matcouply/decomposition.py:cmf_aoadmm", "src/matcouply/decomposition.py:admm_update_B", "src/matcouply/decomposition.py:admm_update_C", "src/matcouply/decomposition.py:admm_update_A", "src/matcouply/decomposition.py:compute_feasibility_gaps", "src/matcouply/penalties.py:NonNegativity", "src/matcouply/penalties.py:Box", "src/matcouply/penalties.py:L1Penalty", "src/matcouply/penalties.py:L2Ball", "src/matcouply/penalties.py:Parafac2"]}
{"id": "C92", "title": "example gallery: the data of the custom penalty script are what its text says", "statement": "For all sizes and whatever numbers are drawn, the data that plot_custom_penalty.py simulates follow the PARAFAC2 constraint, have non-negative components with A at least 0.1, the relative noise level asked for in every matrix, and B_i whose component vectors are unimodal, except for the last component.", "quantifier": "all sizes, ranks, noise levels and sequences of random numbers", "why_tests_cant": "The script is run once, with one seed, and its claims are looked at in a plot; that small values appear in front of a peak is not visible there.", "anchors": ["examples/plot_custom_penalty.py"]}
{"id": "C93", "title": "the printed list of penalties says which penalties are used", "statement": "The printed form of a penalty object has its class, every constructor parameter with its value and the initialisations, and nothing else. Two penalties that print alike are of the same class with the same parameters and the same initialisations (arrays given as initial values are all printed alike, and nothing is said about norm matrices). So the list that a fit prints when verbose is not 0 determines the penalties of every mode, in order.", "quantifier": "all penalties of the library, parameter values, initialisations, lists of penalties of the three modes and ways of printing numbers that tell them apart", "why_tests_cant": "That two different objects never print alike is a statement about all pairs; the tests only check that some strings occur.", "anchors": ["src/matcouply/penalties.py:ADMMPenalty.__repr__", "src/matcouply/penalties.py:ADMMPenalty._auto_add_param_to_repr", "src/matcouply/decomposition.py:_parse_all_penalties"]}
{"id": "C94", "title": "stricter tolerances never stop a fit earlier", "statement": "Take a call that returns, and make tol, absolute_tol or feasibility_tol smaller, or switch them off. The second call goes through all iterations of the first: limited to any number of iterations that the first one made, the two return the same factors, the same ADMM variables and the same histories. So the second call makes at least as many iterations, and with return_errors its histories begin with those of the first.", "quantifier": "all calls that return (all data, penalties, starts, random streams), all non-negative smaller values of the three tolerances or None, all numbers of iterations", "why_tests_cant": "Users tighten tolerances to let a fit go on; that it cannot end earlier or elsewhere is a statement about pairs of calls and all their iterations.", "anchors": ["src/matcouply/decomposition.py:cmf_aoadmm", "src/matcouply/decomposition.py:_check_feasibility"]}
{"id": "C95", "title": "a start that already solves every mode is returned unchanged", "statement": "If the start of a fit (factors, auxiliary variables equal to them, dual variables) certifies that each updated factor already minimises its penalised least-squares problem with the other factors fixed, for convex penalties, then cmf_aoadmm returns exactly that start, factors and ADMM variables, whatever the numbers of outer and inner iterations, tolerances and random stream, and every recorded error, feasibility gap and loss is the initial one. The call cannot fail if each updated mode has a penalty or a ridge term. In particular a start that reproduces the data and meets all constraints is returned, with relative error 0 throughout.", "quantifier": "all data, convex penalties, ridge strengths, feasibility penalty scales, starts at rest, numbers of iterations, tolerances", "why_tests_cant": "A fixed-point statement about any number of iterations of a numerical loop on arbitrary sizes; a test can only try a few starts and a few iterations, and sees rounding.", "anchors": ["src/matcouply/decomposition.py:cmf_aoadmm", "src/matcouply/decomposition.py:admm_update_A", "src/matcouply/decomposition.py:admm_update_B", "src/matcouply/decomposition.py:admm_update_C", "src/matcouply/decomposition.py:compute_feasibility_gaps"]}
{"id": "C96", "title": "an exact PARAFAC2 solution is returned unchanged", "statement": "If the B_i of the start minimise the least-squares problem by themselves (for instance because the start reproduces the data), meet every constraint on them, PARAFAC2 with bases P_i of orthonormal columns and P_i D = B_i among them, with zero dual variables, and A and C are at rest, then cmf_aoadmm returns exactly the factors it started from, whatever the numbers of outer iterations, inner iterations and iterations of the PARAFAC2 projection; dual variables are unchanged, auxiliary variables stand for the same matrices, and every recorded error, feasibility gap and loss is the initial one. D may be singular. The call cannot fail if each updated mode has a penalty or a ridge term. For an exact solution every recorded relative error is 0.", "quantifier": "all data, ranks, convex constraints besides PARAFAC2, coordinate matrices, numbers of iterations of the three nested loops, tolerances", "why_tests_cant": "The PARAFAC2 constraint is not convex, and its projection is an inner loop that may change the bases and the coordinate matrix; that no iteration moves the factors off an exact solution concerns all sizes, coordinate matrices and iteration counts, and floating-point tests cannot tell a fixed point from slow drift.", "anchors": ["src/matcouply/decomposition.py:cmf_aoadmm", "src/matcouply/decomposition.py:parafac2_aoadmm", "src/matcouply/decomposition.py:admm_update_B", "src/matcouply/penalties.py:Parafac2.factor_matrices_update", "src/matcouply/penalties.py:Parafac2.subtract_from_auxes"]}
{"id": "C97", "title": "what the fits of the example gallery give", "statement": "The calls of parafac2_aoadmm in the example scripts return factors with the sizes of the data and the requested number of components (4 for the bike sharing data), after at most 1000 iterations, with the relative error of these factors as last reported error. If such a fit reports that it converged and no recorded gap is nan, then no entry of a factor that was asked to be non-negative (all factors of the bike sharing and of the simulated non-negative example, A alone in the example about the number of components) is below zero by more than 1/10000 of the norm of its factor, penalty objects passed in regs hold within the same distance, and the B_i are within that distance of matrices with one cross product. The components that the bike sharing script shows, whose negative entries are set to zero, therefore differ from those of the model by at most 1/10000 of the norms.", "quantifier": "all data, seeds, numbers of components, random streams and singular value decompositions", "why_tests_cant": "The guarantee concerns every run of the scripts that converges, on any data and with any random start; a test sees a few seeds on one data set.", "anchors": ["examples/plot_bikesharing.py", "examples/plot_examining_different_number_of_components.py", "examples/plot_simulated_nonnegative.py", "examples/plot_custom_penalty.py", "src/matcouply/decomposition.py:parafac2_aoadmm"]}
{"id": "C98", "title": "data, model and residual of a fit add up", "statement": "If nothing is asked of the mode whose factor matrix is updated last in an iteration (A if update_A, else C, else the B_i), whatever constraints and penalties the other modes have, then after any number of outer iterations the squared norm of the data is the squared norm of the residual plus that of the reconstructed matrices plus twice the ridge strength times the squared norm of that factor matrix. So 1 - rec_error^2 is the explained share of the variation (exactly, without ridge on that mode), and every recorded relative error after the initial one lies between 0 and 1. With a penalty on the last mode this is not so: one iteration from an ordinary start can be worse than the zero model.", "quantifier": "all data, ranks, constraints and penalties on the other modes, ridge strengths, starts, iteration counts, inner tolerances", "why_tests_cant": "The identity holds because each update solves a least-squares problem exactly and the updates of the other modes come before it; a change of the order of updates or of the scaling of the ridge term shows up as a small discrepancy for some data only.", "anchors": ["src/matcouply/decomposition.py:cmf_aoadmm", "src/matcouply/decomposition.py:admm_update_A", "src/matcouply/decomposition.py:admm_update_B", "src/matcouply/decomposition.py:admm_update_C", "src/matcouply/decomposition.py:_cmf_reconstruction_error"]}
{"id": "C99", "title": "equal parts of a problem stay equal", "statement": "What is equal at the start stays equal after any number of iterations, when auxiliary and dual variables start at zero. Components with equal columns in A, every B_i and C never separate: the fit returns equal columns, and only the start can break the tie. Equal columns of all data matrices with equal starting rows of C get equal rows of C, and equal rows of a data matrix with equal starting rows of its B_i get equal rows of that B_i, when nothing that depends on the order is imposed on that mode. Equal data matrices with equal starting rows of A and equal B_i get equal rows of A and equal B_i, with PARAFAC2 too.", "quantifier": "all data, ranks, shapes, penalties of the kinds named, ridge strengths, starts, iteration counts, tolerances", "why_tests_cant": "A test compares two columns for one problem; that no loop order, in-place update or shared buffer treats the first of two equal parts differently concerns every size, position and number of iterations.", "anchors": ["src/matcouply/decomposition.py:cmf_aoadmm", "src/matcouply/decomposition.py:admm_update_A", "src/matcouply/decomposition.py:admm_update_B", "src/matcouply/decomposition.py:admm_update_C", "src/matcouply/decomposition.py:initialize_cmf"]}
{"id": "C100", "title": "all-zero data: tolerances are never met", "statement": "If every entry of every data matrix is zero, the norm the errors are divided by is zero. Then no recorded error or loss is a number (nan if the model of that iteration is zero everywhere, infinite otherwise), whatever the penalties and ridge terms; no tolerance is ever met, so exactly n_iter_max iterations are carried out and the result is that of the call with tol, absolute_tol and feasibility_tol None. If nothing is asked of the mode updated last, the model is zero after the first iteration and every later error and loss is nan.", "quantifier": "all shapes, ranks, starts, penalties, tolerances, iteration limits", "why_tests_cant": "A test with one zero matrix sees a division warning; that no combination of tolerances, penalties and starts stops the loop early, although the objective is already minimal, concerns every call.", "anchors": ["src/matcouply/decomposition.py:cmf_aoadmm", "src/matcouply/decomposition.py:_cmf_reconstruction_error", "src/matcouply/decomposition.py:_root_sum_squared_list"]}
{"id": "C101", "title": "the printed summary of a factorization says what it is", "statement": "repr of a CoupledMatrixFactorization gives its rank and the shapes of its matrices in their order, and nothing else: two instances have the same text if and only if they have the same rank and the same shapes (a single matrix included, whose tuple is printed with a trailing comma). The summary of what a fit returns gives the requested rank and the shapes of the data matrices.", "quantifier": "all instances, ranks, numbers and sizes of matrices; all fits", "why_tests_cant": "That no two different sizes print alike (digits running together, a lost comma) and that no call returns other sizes concerns all numbers and all calls.", "anchors": ["src/matcouply/coupled_matrices.py:CoupledMatrixFactorization.__repr__", "src/matcouply/decomposition.py:cmf_aoadmm"]}
{"id": "C102", "title": "without iterations a fit returns its start", "statement": "With n_iter_max zero or negative, a call that succeeds returns exactly the initial factorization, the initial auxiliary and the initial dual variables; the diagnostics say zero iterations, have one entry in each history and report the iteration limit as the reason, satisfied_stopping_condition is False with a tolerance and None without, and satisfied_feasibility_condition is a truth value exactly when feasibility_tol is set, then saying whether the gaps of the start are below it. All such calls agree, exceptions included, whatever inner_n_iter_max, inner_tol, feasibility_penalty_scale and (valid) constant_feasibility_penalty are.", "quantifier": "all arguments, all non-positive iteration limits, every arithmetic", "why_tests_cant": "Every kind of start, constraint and tolerance, and every non-positive limit.", "anchors": ["src/matcouply/decomposition.py:cmf_aoadmm", "src/matcouply/decomposition.py:initialize_cmf", "src/matcouply/decomposition.py:initialize_aux", "src/matcouply/decomposition.py:initialize_dual"]}
{"id": "C103", "title": "calls with only data and rank", "statement": "Leaving out keyword arguments of cmf_aoadmm or parafac2_aoadmm is the same as passing the documented defaults. A fit with nothing but data, rank and perhaps l2_penalty has no feasibility gaps and counts as feasible from the start; it stops at the first iteration whose loss changed by less than 1e-8 of the one before or is below 1e-10, and otherwise after exactly 1000 iterations, as message and flags say. With a positive l2_penalty it always returns.", "quantifier": "all non-zero data, ranks, ridge strengths and random starts", "why_tests_cant": "At which of the thousand iterations a run stops depends on all of its losses, for every data set.", "anchors": ["src/matcouply/decomposition.py:cmf_aoadmm", "src/matcouply/decomposition.py:parafac2_aoadmm"]}
{"id": "C104", "title": "random numbers are used only where they are asked for", "statement": "If aux_init, dual_init and those of the user's penalties do not ask for random numbers, or if no updated mode has a penalty, the outcome of cmf_aoadmm (result or exception) depends on random_state only through the entries of the random start: the first rank*(I + K + J_1 + ... + J_I) uniform numbers, no normal ones and no later ones. With a given start, or one of singular vectors, random_state plays no part. By default aux_init is random, and then it does play a part, also with a given start. The same holds for parafac2_aoadmm.", "quantifier": "all data, ranks, starts, penalties, settings and any two streams of random numbers", "why_tests_cant": "Two runs with different seeds that agree do not show that no other seed would change the outcome.", "anchors": ["src/matcouply/decomposition.py:cmf_aoadmm", "src/matcouply/decomposition.py:initialize_cmf", "src/matcouply/decomposition.py:initialize_aux", "src/matcouply/decomposition.py:initialize_dual", "src/matcouply/penalties.py:ADMMPenalty.init_aux", "src/matcouply/penalties.py:Parafac2.init_aux"]}
{"id": "C105", "title": "random shapes and factorizations of the testing module", "statement": "random_length raises ValueError exactly if min is not less than mean, and otherwise returns an integer of at least min. The fixtures that test classes of users rely on always return: at least two matrices with as many columns, every size at least two (at least five rows for the rank 5 fixture), equal shapes for the regular ones, and a valid factorization of exactly these shapes with normalised columns whose rank is at least one and at most the smallest number of rows.", "quantifier": "all integers min and mean, all states and outputs of the generator (Poisson variates unbounded)", "why_tests_cant": "A fixture is only ever run with the few seeds of a test session; the numbers of matrices, rows and columns are unbounded.", "anchors": ["src/matcouply/testing/utils.py:random_length", "src/matcouply/testing/fixtures.py:random_ragged_cmf", "src/matcouply/testing/fixtures.py:random_regular_cmf", "src/matcouply/testing/fixtures.py:random_rank5_ragged_cmf"]}
{"id": "C106", "title": "stronger penalties penalise more", "statement": "For the same input of factor_matrix_update: multiplying the strengths of an L1Penalty, a TotalVariationPenalty or the norm matrix of a GeneralizedL2Penalty by a factor above one never increases the penalty of the result and never brings it closer to the input; raising one strength of a TotalVariationPenalty never increases what that strength multiplies; a larger feasibility penalty never moves the result away from the input and never lowers its penalty; a tighter constraint (narrower box, smaller ball, non-negativity or unimodality added) never brings the result closer to the input.", "quantifier": "all matrices, strengths, bounds and feasibility penalties", "why_tests_cant": "A monotone dependence on real parameters cannot be settled by sampling them.", "anchors": ["src/matcouply/penalties.py:L1Penalty.factor_matrix_row_update", "src/matcouply/penalties.py:TotalVariationPenalty.factor_matrix_update", "src/matcouply/penalties.py:GeneralizedL2Penalty.factor_matrix_update", "src/matcouply/penalties.py:L2Ball.factor_matrix_update", "src/matcouply/penalties.py:Box.factor_matrix_row_update", "src/matcouply/penalties.py:NonNegativity.factor_matrix_row_update"]}
