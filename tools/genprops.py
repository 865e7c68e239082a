import json
P=[]
def p(title,statement,quantifier,why,anchors):
    P.append(dict(id="C%02d"%(len(P)+1),title=title,statement=statement,quantifier=quantifier,why_tests_cant=why,anchors=anchors))
U="src/matcouply/_unimodal_regression.py"; PE="src/matcouply/penalties.py"; D="src/matcouply/decomposition.py"; CM="src/matcouply/coupled_matrices.py"; UT="src/matcouply/_utils.py"; RN="src/matcouply/random.py"; DA="src/matcouply/data.py"; DO="src/matcouply/_doc_utils.py"
p("unimodal_regression returns unimodal vectors","For every non-empty real vector y, unimodal_regression(y) has the length of y and is unimodal: there is an index t with the entries non-decreasing up to t and non-increasing from t on; for a matrix this holds for every column.","every non-empty real vector / every matrix with at least one row, both settings of non_negativity","The claim ranges over all real vectors of all lengths and all tie patterns; tests sample Gaussian noise at five lengths.",[U+":unimodal_regression",U+":_unimodal_regression",PE+":Unimodality.factor_matrix_update"])
p("unimodal_regression is the least-squares projection","unimodal_regression(y) minimises the sum of squared differences to y over all unimodal vectors of the same length, and the internally reported error equals that minimum.","every non-empty real vector y and every competing unimodal vector u","Optimality is a statement about all competitors; tests compare to one other solver on a few inputs.",[U+":unimodal_regression",U+":_get_best_unimodality_index"])
p("non-negative unimodal regression is the projection onto non-negative unimodal vectors","With non_negativity=True the output is non-negative and unimodal, and is at least as close to y as every non-negative unimodal vector.","every non-empty real vector, every non-negative unimodal competitor","Universal over inputs and competitors.",[U+":prefix_isotonic_regression",U+":unimodal_regression"])
p("prefix isotonic regression solves every prefix","For every k from 0 to n the fit read off for prefix length k is non-decreasing, minimises the weighted squared error to the first k samples among non-decreasing (and, if requested, non-negative) vectors, and error[k] is exactly that minimum.","every real vector, every vector of positive weights, every prefix length, both non_negativity settings","Needs the pool-adjacent-violators invariant for every history of merges.",[U+":prefix_isotonic_regression",U+":_compute_isotonic_from_index",U+":_merge_intervals_inplace"])
p("unimodal_regression accepts integer arrays","The projection property C02 should hold whatever the dtype of the input array, in particular for integer arrays.","every integer-valued input array","The intermediate level_set array inherits the integer dtype of y, truncating means; only particular inputs show it.",[U+":prefix_isotonic_regression"])
p("box and non-negativity updates are projections","NonNegativity and Box updates return an array of the same shape whose entries all satisfy the bounds, which is the nearest such array, and leave feasible arrays unchanged.","every real matrix, every pair of bounds with lower <= upper (either may be missing)","Universal over inputs and competitors.",[PE+":NonNegativity",PE+":Box"])
p("L1 update is the proximal operator of the L1 penalty","L1Penalty updates return the unique minimiser of reg_strength*sum|x| + (rho/2)*||x-v||^2 (over non-negative x when non_negativity is set); penalty() is reg_strength times the sum of absolute values.","every real matrix v, reg_strength >= 0, rho > 0, every competitor","Universal optimality statement.",[PE+":L1Penalty"])
p("generalized L2 update is the proximal operator of x^T M x","For every symmetric positive semidefinite M with a valid SVD, the update minimises trace(x^T M x) + (rho/2)||x-v||^2.","every symmetric PSD norm matrix, every v, rho > 0, every competitor","Universal optimality statement over all matrices and SVDs.",[PE+":GeneralizedL2Penalty"])
p("L2Ball update is the projection onto the norm ball","Every column of the output has norm at most norm_bound (and is non-negative if requested) and the output is the nearest such matrix.","every real matrix, norm_bound > 0, both non_negativity settings, every competitor","Universal optimality statement; the docstring's argument projects in the other order.",[PE+":L2Ball"])
p("UnitSimplex update returns (almost) a projection onto the simplex","The bracket handed to the bisection always contains a sign change; the returned column is non-negative; if the bisection returns a root within tolerance eps then the sum differs from one by at most n*eps and every entry is within eps of the exact simplex projection.","every non-empty real column, every bisection outcome within tolerance","Bracket validity must hold for every column.",[PE+":UnitSimplex._compute_lagrange_multiplier",PE+":UnitSimplex.factor_matrix_update"])
p("soft-thresholding after TV denoising is the joint TV+L1 proximal operator","If the TV denoiser returns a minimiser of ||x-v||^2 + (2 a/rho) TV(x), then TotalVariationPenalty's update minimises a*TV(x) + b*||x||_1 + (rho/2)||x-v||^2 over every column.","every vector, a > 0, b >= 0, rho > 0, every competitor","Compatibility of two proximal operators is an all-inputs theorem.",[PE+":TotalVariationPenalty"])
p("PARAFAC2 auxiliary variables satisfy the constant cross-product constraint","After every PARAFAC2 update the matrices represented by the auxiliary variable all have the same cross product, whatever the number of coordinate-descent iterations.","every list of factor matrices with at least rank rows, every feasibility penalty list, every n_iter >= 1, every valid SVD","Must hold for all data and all iteration counts.",[PE+":Parafac2.factor_matrices_update",PE+":Parafac2.auxes_as_matrices"])
p("PARAFAC2 coordinate descent never moves away from the target","Each basis update and each coordinate update does not increase the penalty-weighted squared distance between the factor matrices and the auxiliary matrices, so more iterations never give a worse projection.","every list of factor matrices, positive penalties, every n_iter, every feasible starting point","Monotonicity for all inputs and iteration counts.",[PE+":Parafac2.factor_matrices_update"])
p("row-wise and matrix-wise updates agree","For every row-vector penalty the whole-matrix update equals the row update applied to each row, so mode-0 results do not depend on which entry point is used.","every matrix, every penalty parameter, every row-vector penalty","Two code paths must agree on all inputs.",[PE+":RowVectorPenalty.factor_matrix_update",PE+":NonNegativity",PE+":Box",PE+":L1Penalty"])
p("auxiliary arithmetic is consistent with the matrix view","subtract_from_auxes(auxes, duals) equals auxes_as_matrices(auxes) minus duals elementwise for every penalty, including PARAFAC2's factored representation.","every auxiliary variable and dual list","Universal over representations.",[PE+":ADMMPenalty.subtract_from_auxes",PE+":Parafac2.subtract_from_auxes",PE+":Parafac2.auxes_as_matrices"])
p("penalty values are the documented ones","penalty() is 0 for hard constraints, reg*sum|x| for L1, trace(x^T M x) for the generalized L2 and reg*TV + l1*sum|x| for TV, is non-negative, and on a list it is the sum over the elements.","every factor matrix or list of them","Universal.",[PE+":HardConstraintMixin.penalty",PE+":L1Penalty.penalty",PE+":GeneralizedL2Penalty.penalty",PE+":TotalVariationPenalty.penalty"])
p("auxiliary and dual initialisation yields correctly shaped variables or an error","init_aux/init_dual return variables whose shapes fit the mode (I x R, J_i x R, K x R) or raise: pre-specified variables of the wrong kind or shape are always rejected.","every list of matrices, rank, mode, and initialiser","All combinations of kinds and shapes.",[PE+":ADMMPenalty.init_aux",PE+":ADMMPenalty.init_dual",PE+":Parafac2.init_aux"])
p("a CoupledMatrixFactorization exists only for consistent factors","Construction succeeds exactly when weights is None or a length-rank vector, A and C and every B_i are matrices with rank columns, and A has one row per B_i; the reported shape and rank are those of the represented matrices; otherwise TypeError or ValueError is raised.","every tuple of candidate factors of any kinds and shapes","Validation is an iff over an unbounded space of malformed inputs.",[CM+":_validate_cmf",CM+":CoupledMatrixFactorization.__init__"])
p("dense conversion computes B_i diag(a_i * w) C^T","Entry (j,k) of the i-th represented matrix is the sum over r of B_i[j,r]*A[i,r]*w[r]*C[k,r]; converting all matrices agrees with converting them one at a time; out-of-range indices raise.","every valid factorization, with or without weights, every index","Universal algebraic law.",[CM+":cmf_to_matrix",CM+":cmf_to_matrices",CM+":cmf_to_slice"])
p("tensor conversion pads with zeros only","The tensor has shape (I, max J_i, K); slice i holds matrix i in its first J_i rows and zeros below.","every valid factorization with at least one matrix, ragged or not","Universal over ragged shapes.",[CM+":cmf_to_tensor",UT+":create_padded_tensor",UT+":get_padded_tensor_shape"])
p("unfolding and vectorisation keep every entry in its documented place","Unfoldings along each mode and the vectorisation contain tensor entry (i,j,k) at the documented position; with pad=False they are exactly the concatenation of the matrices (no added zeros) and modes 0 and 1 are rejected.","every valid factorization, every mode, both pad settings","Index arithmetic for all sizes.",[CM+":cmf_to_unfolded",CM+":cmf_to_vec"])
p("conversion from CP and PARAFAC2 tensors preserves the represented data","from_CPTensor and from_Parafac2Tensor return factorizations whose matrices equal (for CP with shapes: the leading rows of) the slices of the original tensor, and reject inconsistent shapes.","every CP tensor of order three, every shapes argument, every PARAFAC2 tensor","Universal algebraic law and rejection rule.",[CM+":CoupledMatrixFactorization.from_CPTensor",CM+":CoupledMatrixFactorization.from_Parafac2Tensor"])
p("the reported reconstruction error is the true residual norm","The fast formula (with and without the intermediate results of the A update) equals the square root of the sum of squared differences between data and represented matrices.","every list of data matrices and every factorization of matching shape, both orders of multiplication","Two algebraic shortcuts must agree with the definition for all inputs.",[D+":_cmf_reconstruction_error",D+":admm_update_A"])
p("feasibility gaps measure distance to the auxiliary variables","Each gap is ||aux - factor|| / ||factor||; it is zero exactly when the auxiliary matrices equal the factor; the feasibility test passes exactly when every gap of every mode is below the tolerance (and passes when there are no penalties).","every factorization with nonzero factors, every list of penalties and auxiliaries","Universal.",[D+":compute_feasibility_gaps",D+":_check_feasibility"])
p("each ADMM factor update solves its least-squares subproblem","The new A rows, B_i matrices and C are global minimisers of the data fit plus ridge term plus feasibility penalties given the current auxiliaries and duals.","all data, factors, auxiliaries, duals, scales; any valid SVD; whenever the system is positive definite","Optimality over all competitors.",[D+":admm_update_A",D+":admm_update_B",D+":admm_update_C"])
p("dual variables accumulate the infeasibility","After every inner iteration, for every penalty, new dual = new factor - new auxiliary + old dual, in every mode.","every state and every number of inner iterations","Invariant over all histories.",[D+":admm_update_A",D+":admm_update_B",D+":admm_update_C"])
p("returned auxiliary variables satisfy the hard constraints exactly","After any positive number of outer iterations with at least one inner iteration, the auxiliary variables of every hard constraint (non-negativity, box, norm ball, unimodality, PARAFAC2) satisfy the constraint exactly, so the gap bounds the distance of the factor from the constraint set.","every data set, initialisation, penalty list, iteration count and stopping point","Must hold for every history and stopping point.",[D+":cmf_aoadmm",D+":admm_update_A",D+":admm_update_B",D+":admm_update_C"])
p("fixed points of the inner loop solve the penalised subproblem","If an inner iteration leaves factor, auxiliaries and duals unchanged then the factor equals every auxiliary and minimises the penalised least-squares subproblem for convex penalties.","every fixed point, every list of penalties whose update is a proximal operator of a convex function","Universal over fixed points and competitors.",[D+":admm_update_C",D+":admm_update_B",D+":admm_update_A"])
p("unregularised fits never get worse","Without penalties every outer iteration does not increase the reconstruction error, so the reported losses are non-increasing when l2_penalty is zero.","every data set, every starting point with positive definite subproblems, every number of iterations","Monotonicity over histories.",[D+":cmf_aoadmm"])
p("the reported loss is the objective being minimised","With an L2 penalty the sequence of reported regularised losses should be non-increasing, since every block update is an exact minimisation.","every data set and l2_penalty","The reported loss uses relative squared error while the updates use absolute squared error; only an analysis of both exposes it.",[D+":cmf_aoadmm",D+":_compute_l2_penalty"])
p("inner iterations stop exactly when the inner criteria hold","Each factor update runs at most inner_n_iter_max iterations, exactly that many when inner_tol is unset, and stops early only after an iteration whose relative change and feasibility gaps are within inner_tol.","every inner_tol, inner_n_iter_max and state","All histories.",[D+":_check_inner_convergence",D+":admm_update_A",D+":admm_update_B",D+":admm_update_C"])
p("frozen modes are left untouched","With update_A (update_B_is, update_C) False, that factor in the result equals the initial one, and no penalties, auxiliaries or gaps are kept for it.","every configuration and iteration count","All histories.",[D+":cmf_aoadmm"])
p("diagnostic histories have one entry per iteration plus the initial one","With return_errors=True the lists of reconstruction errors, feasibility gaps and losses all have length n_iter + 1, and n_iter <= max(n_iter_max,0).","every configuration and stopping history","All histories.",[D+":cmf_aoadmm"])
p("an early stop means the documented criteria hold","If the fit stops before n_iter_max, then the last feasibility gaps are all below feasibility_tol and the relative or absolute loss criterion holds for the last losses, the flags and message say so; no earlier iteration satisfied them; otherwise exactly n_iter_max iterations are run and the message says so.","every configuration and history","All histories.",[D+":cmf_aoadmm",D+":_check_feasibility"])
p("the absolute loss criterion stops the fit","If absolute_tol is set and an iteration is feasible with loss below absolute_tol, the fit stops, also when tol is unset.","every configuration","The branch is nested under the relative tolerance; needs all configurations.",[D+":cmf_aoadmm"])
p("requesting diagnostics does not change the fit","Running with return_errors=True or False yields the same factorization.","every configuration and history","When the gaps are too large and errors are not requested, losses are skipped, so later comparisons use an older loss; needs particular histories.",[D+":cmf_aoadmm"])
p("raising the iteration limit extends the run","If a run stops early, any larger n_iter_max gives the identical result; otherwise the histories of the shorter run are a prefix of the longer run's.","every configuration and pair of limits","Relates two executions.",[D+":cmf_aoadmm"])
p("requested constraints are imposed, and nothing else","For every combination of regularisation arguments and every mode, the penalties used impose exactly the requested constraints (non-negativity, bounds, norm bound, unimodality) on factor matrices of every shape, and their penalty functions add up to the requested L1, TV and generalized L2 terms, each counted once; a PARAFAC2 penalty appears exactly once, first, and only on mode 1 when requested; user-supplied penalties follow unchanged. A strength or norm bound of zero, or None, requests nothing. Arguments are accepted exactly when the documented parameter conditions hold.","every combination of regularisation arguments, every factor shape and matrix","Exponentially many combinations with real-valued parameters.",[D+":_parse_mode_penalties",D+":_parse_all_penalties"])
p("regularisation arguments are distributed over modes as documented","A scalar applies to all three modes, a dictionary to its keys (others None), a length-three iterable positionally; any other length raises ValueError.","every argument value","All lengths and key sets.",[D+":_listify",UT+":is_iterable"])
p("matrix-wise penalties on A need a constant feasibility penalty","A fit with a matrix-wise penalty on mode 0 raises unless constant_feasibility_penalty covers A; PARAFAC2 on modes 0 or 2 is always rejected before fitting.","every penalty list and configuration","All combinations.",[D+":admm_update_A",PE+":Parafac2.init_aux",D+":cmf_aoadmm"])
p("initialisation from a factorization preserves the represented data","When init is a factorization its weights are folded into A and the starting point represents the same matrices; the first update does not discard weights.","every valid initial factorization, every init method","Weights from the CP/PARAFAC2 initialisers are not folded.",[D+":initialize_cmf",D+":admm_update_B"])
p("fitting does not modify the caller's arrays","cmf_aoadmm leaves the arrays and lists passed as init, aux_init and dual_init unchanged.","every call","Aliasing depends on the parity of inner iterations and on which buffers are swapped.",[D+":admm_update_A",D+":admm_update_B",PE+":ADMMPenalty.init_aux"])
p("random_coupled_matrices normalisation keeps the represented matrices","Normalising factors moves the norms into the weights without changing the represented matrices and makes the columns of A, C and every B_i unit norm; unequal column counts are rejected.","every shapes list, rank, and draw with nonzero columns","Universal over draws.",[RN+":random_coupled_matrices"])
p("simulated data has the stated noise level and structure","The noisy matrices differ from the noiseless ones by exactly noise_level in relative norm; the B_i are cyclic shifts of one another, non-negative and with constant cross product; A lies between 0.1 and 1.1 and C is non-negative; the call fails only when all noise numbers are zero.","every noise level and random draw","Universal over draws.",[DA+":get_simple_simulated_data"])
p("the etch data cache is faithful","For every file: an existing local file is used without network access; otherwise it is downloaded only if allowed; with save_data=False the file system is unchanged; after a successful saving call, later calls need no network and return the same data.","every file system state, every server behaviour, every flag combination","All histories of calls and server answers.",[DA+":get_semiconductor_etch_raw_data"])
p("an interrupted download does not corrupt later loads","If the process dies while a file is being saved, the next call either re-downloads it or loads the complete file.","every crash point","Crash points cannot be enumerated by unit tests.",[DA+":get_semiconductor_etch_raw_data"])
p("mro computes a consistent linearisation or correctly refuses","mro(*bases) returns a duplicate-free ordering of all ancestors that preserves the order of every base's own MRO and of the bases themselves, and raises TypeError exactly when no such ordering exists.","every class hierarchy","All hierarchies.",[DO+":mro"])
p("docstring inheritance copies the nearest ancestor's docstring","A method without docstring receives the docstring of the first class in the MRO that defines it; a method with a docstring or without an ancestor is rejected.","every MRO and method","All MROs.",[DO+":_copy_ancestor_docstring"])
p("parafac2_aoadmm is cmf_aoadmm with the PARAFAC2 constraint","Calling parafac2_aoadmm gives the result of cmf_aoadmm with parafac2=True for every other argument, including the differing l2_penalty default.","every argument combination","All arguments.",[D+":parafac2_aoadmm"])
p("inner ADMM iterations never move away from a solution","For convex penalties on any mode, the weighted distance of (auxiliary, dual) to any optimal pair does not increase with any inner iteration of that mode's update, and among the first k iterations some iterate has infeasibility at most (initial distance)/k.","every problem, every optimal pair, every number of iterations","A Lyapunov argument over all histories.",[D+":admm_update_A",D+":admm_update_B",D+":admm_update_C"])
p("well-posed fits do not fail","With valid input and an SVD routine that works, a factor update whose system is positive definite returns a result, and so does a whole fit with a positive l2_penalty on every updated mode and penalties that do not divide by the feasibility penalty: no linear solve, division or shape check can fail part-way.","every data set, configuration and valid starting point, every iteration count","A crash after hours of iterations depends on values no test reaches.",[D+":admm_update_A",D+":admm_update_B",D+":admm_update_C",D+":cmf_aoadmm"])
p("padding keeps the data","create_padded_tensor returns the tensor of size I x max J_i x K whose slice i starts with matrix i and is zero below; matrices with different numbers of columns are a ValueError and an empty list an IndexError.","every list of matrices","All sizes.",[UT+":create_padded_tensor",UT+":get_padded_tensor_shape",UT+":get_shapes"])
p("named starting points are what they are documented to be","init='random' draws A, C and the B_i uniformly, in that order; 'svd' takes ones for A, leading left singular vectors of each matrix for B_i and right singular vectors of the stacked matrices for C, 'threshold_svd' the same with negative entries set to zero; 'parafac' and 'parafac_hals' represent the slices of the CP decomposition of the padded tensor, 'parafac2' the PARAFAC2 decomposition; all are valid factorizations; an unknown name is an error.","every data set, rank, random stream and result of the initial decompositions","All sizes and all decompositions.",[D+":initialize_cmf"])
p("simulated component vectors are unimodal","As documented, every component vector of every B_i of the simulated factorization is unimodal.","every matrix and component of every simulated data set","The claim fails only in the tails, far below any test tolerance.",[DA+":get_simple_simulated_data"])
p("a failed download can be repeated","If a call for the etch data fails because of what the server did, a later call succeeds once the server works.","every server behaviour, every history of calls","All histories of calls and server answers.",[DA+":get_semiconductor_etch_raw_data"])
p("etch data and metadata belong together","For every sample of the etch data, the measurement table and the metadata table of the same name hold the same time points of the same experiment: gluing them gives the sample's array without its last row, and experiment, sample number and fault name are those of that sample.","every content of the MATLAB file","All file contents.",[DA+":get_semiconductor_etch_machine_data"])
p("results do not depend on shared memory",
  "The factorization, variables, diagnostics and exceptions of a fit depend on the contents of the arrays passed in, not on which of them are the same object; the buffers that take turns holding A and the B_i and the writes in place do not show in the result.",
  "every call, every arrangement of the arguments in memory", "All aliasings and all parities of the inner iterations.",
  ["src/matcouply/decomposition.py:admm_update_A", "src/matcouply/decomposition.py:admm_update_B", "src/matcouply/decomposition.py:cmf_aoadmm"])
p("hard constraints survive rounding",
  "Whatever rounding the arithmetic does, as long as comparison is a total order: after a fit with at least one outer and inner iteration, each requested hard constraint that is a matter of order (non-negativity, bounds, unimodality, both together) holds exactly, without tolerance, for some returned auxiliary variable of every updated mode, and each user-supplied penalty of these kinds finds its own variable, of the factor's size, at the end of the list.",
  "every arithmetic with a total order, every data set, configuration, start and stopping point", "Tests see one arithmetic and a tolerance; the claim is exact and for all of them.",
  [D+":cmf_aoadmm", PE+":NonNegativity", PE+":Box", PE+":Unimodality", U+":unimodal_regression"])
p("bookkeeping of a fit does not depend on the arithmetic",
  "Under any arithmetic with a total order: the returned factors have the sizes of the data and the rank, frozen factors are the initial ones, the histories have n_iter + 1 entries, an early stop happens at the first iteration satisfying the documented criteria on the reported numbers, and message and flags agree with them (no reported gap being nan).",
  "every arithmetic with a total order, every call that returns", "Rounding could make a test on exact numbers irrelevant; all histories.",
  [D+":cmf_aoadmm"])
p("a factorization unpacks to what it was built from",
  "Iterating over a CoupledMatrixFactorization, indexing it with 0 and 1 and unpacking it give the weights and factors it was built from, every other index raises IndexError, len agrees with the number of items; building a factorization from another gives an equal one.",
  "every accepted object, every integer index", "All objects and indices.",
  [CM+":CoupledMatrixFactorization"])
p("penalties keep the contract the library's test mixins check",
  "Updating a matrix leaves it unchanged exactly when it satisfies the constraint and has zero penalty; the update never increases the penalty; updates of convex penalties are firmly non-expansive; matrices with columns in the simplex move by no more than the bisection tolerance; PARAFAC2 factor matrices equal to basis times coordinates stay the same.",
  "every penalty shipped with the library, every matrix, every feasibility penalty", "The mixins check random matrices and never the converse.",
  ["src/matcouply/testing/admm_penalty.py:BaseTestFactorMatrixPenalty", "src/matcouply/testing/admm_penalty.py:MixinTestHardConstraint", PE+":MatrixPenalty"])
p("bike data tables show the trips of the file",
  "The tables of Oslo, Trondheim and Bergen have one row for each station of the city and one column for each hour, and the entry for a station and an hour is the number of trips the file has for that city, station and hour; the metadata table is that of the file; the call returns exactly when all four tables exist, the cities have equally many hours, and hours and station ids are numbers.",
  "every content of the archive", "The shipped file is one case; a new release of the data is another.",
  [DA+":get_bike_data"])
p("verbose only prints",
  "The outcome of a fit, result or exception, is the same for every value of verbose; with verbose=False nothing is printed; with verbose = v > 0 the penalties and initial gaps are printed, then one report for each of the iterations 0, v, 2v, ..., with the numbers that the diagnostics hold for that iteration, then whether the fit converged or reached the maximum number of iterations.",
  "every call and every integer verbose", "All histories and values of verbose.",
  [D+":cmf_aoadmm", D+":_parse_all_penalties"])
p("the printed number of iterations is the number of iterations",
  "The number printed when a fit converges is the number of iterations that were made (n_iter of the diagnostics).",
  "every fit that converges", "Relates printed text and returned diagnostics for all runs.",
  [D+":cmf_aoadmm"])
p("enough inner iterations solve the penalised subproblem",
  "For convex penalties that some matrix meets together (all but one with room to spare): the factor and the auxiliary variables returned by an update of A, the B_i or C with k + 1 inner iterations approach every solution of the penalised subproblem, the squared infeasibility at rate 1/k and the objective value at rate 1/sqrt k; with a positive ridge penalty the solution is unique and the update, for every number of inner iterations from some number on, returns and is entrywise within any given distance of it.",
  "every data set, factorization, starting auxiliary and dual variables, and list of convex penalties; all large numbers of inner iterations", "A limit statement; a test makes finitely many iterations from finitely many starts.",
  [D+":admm_update_A", D+":admm_update_B", D+":admm_update_C"])
p("a given start is checked against the data",
  "If init is a factorization, the call raises unless it represents as many matrices as the data has, each with the size of its data matrix, and has rank components.",
  "every call and every valid factorization as init", "All shapes, ranks and combinations of penalties and fixed modes.",
  [D+":cmf_aoadmm", D+":initialize_cmf", D+":_cmf_reconstruction_error", D+":compute_feasibility_gaps"])
p("the order of the data matrices plays no part",
  "If two calls differ only in the order of the data matrices (and of the rows of the given start's A, its B_i and the given initial variables that belong to them), and A carries only penalties that treat its rows alike, then one returns exactly when the other does, with the same C, the same errors, losses, gaps, number of iterations and message, and with A, the B_i and the variables in the respective order.",
  "every call with a given start and zero or given initial variables, every permutation", "All permutations, data and penalty lists, over whole runs.",
  [D+":cmf_aoadmm", D+":admm_update_A", D+":admm_update_B", D+":admm_update_C", PE+":Parafac2"])
p("a fit can be continued from what it returned",
  "If a fit with n iterations used them all up, then a second call with the returned factorization as init, the same penalties each started from its returned auxiliary and dual variables, the other arguments unchanged and m iterations ends exactly as the first call would have ended with n + m iterations: the same exception, or the same factors and variables, with the second history of errors, losses and gaps continuing the first where it ended. Every fit that returns its variables can be continued in this way.",
  "every call with any start, data and penalties, all n and m, wherever the run is cut in two", "All cut points, histories and penalty lists; a test cuts one run once.",
  [D+":cmf_aoadmm", D+":initialize_cmf", PE+":ADMMPenalty.init_aux", PE+":ADMMPenalty.init_dual", PE+":Parafac2.init_aux"])
p("the order of the components plays no part",
  "If two calls differ only in the order of the components of the given start (columns of A, of the B_i and of C), then both raise the same exception, or both return the same components in the respective order, with variables in the same order and the same errors, losses, gaps, number of iterations and message.",
  "every accepted call with a given start and initial variables zero, every permutation of the components, all penalties", "All permutations, ranks, data and penalty lists, over whole runs.",
  [D+":cmf_aoadmm", D+":admm_update_A", D+":admm_update_B", D+":admm_update_C", PE+":MatricesPenalty", PE+":Parafac2"])
p("the order of rows and columns of the data plays no part",
  "If two calls differ in the order of the rows of each data matrix (and of its B_i in the start) and of the columns of all data matrices (and of the rows of C in the start), and the modes whose order changes carry no penalty that looks at neighbouring rows (unimodality, total variation, generalized L2, PARAFAC2), then both raise the same exception, or both return the same factors and variables in the respective order, with the same diagnostics.",
  "every accepted call with a given start and initial variables zero, every permutation of the rows of each matrix and of the columns", "All permutations, sizes and penalty lists, over whole runs.",
  [D+":cmf_aoadmm", D+":admm_update_B", D+":admm_update_C", PE+":L2Ball", PE+":NonNegativity", PE+":Box", PE+":L1Penalty"])
p("units of measurement play no part",
  "If the factors A, B_i and C are measured in other units (any three positive factors), the data in the unit that follows, and bounds, norm bounds, strengths, ridge terms and start are converted accordingly, then both calls raise the same exception, or both return factors and variables that correspond, with the same relative errors, feasibility gaps, number of iterations and message; the losses are the same when the unit of the data is kept or when there are only constraints (otherwise this needs tol switched off).",
  "every two corresponding calls with corresponding starting points: given factors with zero variables, or any start whatever that corresponds", "All scalings, data and penalty lists, over whole runs with stopping rules.",
  [D+":cmf_aoadmm", D+":admm_update_A", D+":admm_update_B", D+":admm_update_C", D+":compute_feasibility_gaps", PE+":L2Ball", PE+":Box", PE+":L1Penalty", PE+":GeneralizedL2Penalty"])
p("the choice of the svd routine plays no part",
  "Without PARAFAC2 and with a given or random start, any two svd routines that return correct decompositions (signs, bases of repeated singular values and order are up to them) give the same outcome: the same exception, or exactly the same factors, variables and diagnostics. With PARAFAC2 the same holds for calls in which every matrix with rank columns that is decomposed has linearly independent columns.",
  "every accepted call, with PARAFAC2 those that meet no matrix with dependent columns, every pair of correct svd routines", "Quantifies over all pairs of routines and whole runs.",
  [D+":cmf_aoadmm", D+":admm_update_A", D+":admm_update_B", D+":admm_update_C", PE+":GeneralizedL2Penalty"])

p("unpenalised fits approach stationary points",
  "With a positive l2 penalty and no other penalty on every updated mode, and tol switched off, the slopes of the objective (half the squared residual plus the l2 terms) at the returned factors go to zero as n_iter_max grows: for every eps there is a number of iterations from which on the objective changes at a rate of at most eps in every direction whose entries are at most 1 (modes that are not updated stay fixed). The slopes at an iterate are at most a constant times the last change of the factors, the squared changes have a sum of at most 2/l times the objective after the first iteration (l the smallest l2 penalty), so among the first n iterations one has slopes of order 1/sqrt(n).",
  "every such call: all data, starts (weighted or not), ranks, l2 strengths, sets of updated modes, inner iteration counts, numbers of iterations", "A limit statement over infinitely many iterations.",
  [D+":cmf_aoadmm", D+":admm_update_A", D+":admm_update_B", D+":admm_update_C"])

p("penalty objects are interchangeable with classes that have the same methods",
  "The fitting code uses a penalty object only through its methods: for objects of the built-in classes, a fit that calls whatever methods the class of the object has (own ones, inherited ones, templates of the base classes) returns exactly what the fit with the built-in penalties returns.",
  "every call: all data, arguments, penalties, in every arithmetic", "Two ways of dispatching must agree for all calls and histories.",
  [PE+":ADMMPenalty", PE+":MatricesPenalty", PE+":MatrixPenalty", PE+":RowVectorPenalty", PE+":HardConstraintMixin", D+":cmf_aoadmm"])
p("the parametrisation of auxiliary variables makes no difference",
  "If two penalty classes written by the user start alike, and their updates, subtractions and penalty values agree through a relation between how they store auxiliary variables, then fits with either return the same factors, dual variables and diagnostics (or raise the same exception), and the auxiliary variables are related. In particular storing the auxiliary matrices of a non-negativity constraint transposed changes nothing.",
  "every pair of classes with such a relation, every call, in every arithmetic", "Relational statement over all runs of two programs.",
  [PE+":ADMMPenalty.subtract_from_aux", PE+":ADMMPenalty.subtract_from_auxes", PE+":ADMMPenalty.aux_as_matrix", PE+":ADMMPenalty.auxes_as_matrices", D+":cmf_aoadmm"])
p("auxiliary variables come from the object's own methods",
  "The auxiliary variable that a fit returns for an object in regs is the object's own start followed by calls of its own update, each call given the result of the one before, at most n_iter_max times inner_n_iter_max of them and at least one if both are positive. Hence whatever the start and every call ensure holds of the returned variable, and what every single call ensures holds as soon as both counts are positive.",
  "every list of user-written objects in each mode, every call", "Provenance over all histories and stopping points.",
  [D+":admm_update_A", D+":admm_update_B", D+":admm_update_C", D+":cmf_aoadmm", PE+":ADMMPenalty.init_aux"])
p("templates of the penalty base classes",
  "A RowVectorPenalty that implements only factor_matrix_row_update acts on every row separately, in all modes; a MatrixPenalty that implements only factor_matrix_update acts on every B_i separately, on C, and on A if the feasibility penalty of A is constant. If an object lacks the method that its mode needs, a fit with at least one iteration cannot return. A class can be instantiated exactly if it has the methods its base class declares abstract, and then no inherited method raises NotImplementedError. aux_as_matrix and auxes_as_matrices give the matrices that auxiliary variables stand for (arrays themselves, the products of a PARAFAC2 pair), and feasibility gaps are distances from them.",
  "every user-written class and every call", "Ranges over all classes a user can write.",
  [PE+":RowVectorPenalty", PE+":MatrixPenalty", PE+":MatricesPenalty", PE+":ADMMPenalty.penalty", PE+":ADMMPenalty.aux_as_matrix", PE+":Parafac2.auxes_as_matrices"])
p("the custom penalty of the gallery projects",
  "UnimodalAllExceptLast, the class written in the gallery example on custom penalties, returns a nearest matrix among those whose columns but the last are unimodal (and whose entries are all non-negative if asked for), and the same matrix if it already has the property; auxiliary matrices that a fit with it returns have the property, in modes 1 and 2.",
  "every matrix with at least one row and two columns, every competitor; every fit with positive iteration counts", "Universal optimality statement and invariant over histories.",
  ["examples/plot_custom_penalty.py:UnimodalAllExceptLast", PE+":MatrixPenalty"])
p("fits with sound user-written penalties cannot fail",
  "If the methods of the user's objects return values of the right shapes for arguments of the right shapes (the user's own notion of a well-formed auxiliary variable being kept by the update), updated modes have a positive l2 penalty and the other arguments are usable, then the fit returns, with factor matrices that fit the data and have the requested rank.",
  "every such call: all data, ranks, random or given starts, sound objects of the user together with keyword constraints", "Absence of exceptions in all reachable states.",
  [D+":cmf_aoadmm", PE+":ADMMPenalty"])

p("a call that is in order raises only for stated reasons",
  "If the arguments respect the documentation (data of one number of columns, accepted penalties, PARAFAC2 for the B_i only and with enough rows, penalties of whole columns of A only with a constant feasibility penalty, an absolute tolerance beside the relative one, initial values that are names or have the right shapes, a random start, a start from singular vectors or a given factorization of the right sizes), cmf_aoadmm returns factor matrices that fit the data and have the requested rank, or it divides by zero (a singular system without ridge, or a feasibility penalty of zero), or the root search of a unit simplex gives up. Nothing is assumed about ridge terms, strengths, iteration counts or data entries. With penalty classes written by the user, the only further exceptions are those their own methods raise for arguments of the right shapes.",
  "every such call, every data, every generator, every allowed set of exceptions of user methods", "Absence of unexpected exceptions in all reachable states.",
  [D+":cmf_aoadmm", D+":initialize_cmf", D+":admm_update_A", D+":admm_update_B", D+":admm_update_C", PE+":ADMMPenalty", PE+":Parafac2", PE+":UnitSimplex"])

p("calls at the same time do not disturb one another",
  "Several processes may call get_semiconductor_etch_raw_data at the same time on the same directory. Each call should return, or fail, as it would alone, and when all have ended every file in the directory should be complete.",
  "any number of calls with any arguments, every interleaving of their operations, processes dying anywhere, any server that has one version of each file", "The outcome depends on the interleaving, and there are infinitely many.",
  [DA+":get_semiconductor_etch_raw_data"])

p("updating a single mode solves its problem",
  "A fit in which only one of A, the B_i and C is updated, with a ridge penalty and convex penalties on that mode and no tolerances, gets as close as one likes to the optimum of its convex problem: the squared error with the other factors as they were at the start, plus the ridge term and all requested penalties, subject to all requested constraints, which must leave some room (a point allowed with all points near it). There is exactly one optimum; with enough outer iterations the call returns, and the returned factor and all returned auxiliary variables of the mode are within eps of it.",
  "all data, starts, regularisation arguments, numbers of inner iterations, initial auxiliary and dual variables, every eps", "The claim is about the limit of the iterations, for all data.",
  [D+":cmf_aoadmm", D+":admm_update_A", D+":admm_update_B", D+":admm_update_C"])

p("the choice of orthonormal coordinates does not matter",
  "Replacing every data matrix X_i by P_i X_i Q^T, where the P_i and Q have orthonormal columns (rotations, reflections, exchanges of coordinates, appended rows or columns of zeros), turns the result and changes nothing else: if the calls start at corresponding points, the second returns the same A and weights, the B_i multiplied by P_i and C by Q, the auxiliary and dual variables multiplied likewise, and the same diagnostics; or both raise the same exception. This holds when a turned mode has no penalty that looks at single entries (a bound on the column norms and PARAFAC2 are allowed); modes that are not turned may have any penalty. For PARAFAC2 with turned rows it holds whenever the matrices decomposed have independent columns, so that the nearest orthonormal matrix is unique.",
  "all data, orthonormal P_i and Q of any sizes, starts, regularisation arguments, tolerances, svd routines", "Any rotation of any data; a test compares a few, up to rounding.",
  [D+":cmf_aoadmm", D+":admm_update_A", D+":admm_update_B", D+":admm_update_C", D+":compute_feasibility_gaps", D+":_cmf_reconstruction_error", PE+":L2Ball.factor_matrix_update", PE+":Parafac2.factor_matrices_update"])

EX="examples/"
p("example gallery: the script keeps its best start",
  "The gallery scripts fit a model from several random starts and keep one. Bike sharing script: the selected model is the first of those with the lowest final regularised loss, hence (its only penalties are constraints) the first with the smallest relative reconstruction error; no model is selected only if no start ends with a number. Number-of-components script: each score is one minus the lowest final loss among the starts of that rank, i.e. 1 - e^2/2 for the smallest relative error e, and the stored model has that error. Simulated-data scripts: the kept model converged, and it should have the lowest loss of the converged ones.",
  "all data, ranks, numbers of starts, generators, svd routines; the selection rules in any ordered arithmetic", "Depends on the order in which good and bad starts arrive.",
  [EX+"plot_bikesharing.py", EX+"plot_examining_different_number_of_components.py", EX+"plot_simulated_nonnegative.py", EX+"plot_custom_penalty.py"])

p("example gallery: the simulated data are what the text says",
  "The simulated data of the gallery scripts (any sizes with at least one row, any rank, any generator): A lies in [0.1, 1.1] when the uniform numbers lie in [0, 1]; the B_i are non-negative and are cyclic shifts of B_0, so they have the same cross products (the data follow PARAFAC2); C is non-negative when it is truncated; every noisy matrix is the represented one plus a multiple of fresh uniform numbers, and its relative distance to the represented one is exactly the noise level, for every matrix by itself. The script fails only if a noise matrix is zero.",
  "all sizes, ranks, noise levels, random numbers", "Random numbers.",
  [EX+"plot_simulated_nonnegative.py", EX+"plot_examining_different_number_of_components.py"])

p("example gallery: preparing data and rearranging components keep what they should",
  "Semiconductor etch script: standardising shifts and divides every column in the same way in all matrices and gives columns with mean 0 and variance 1 over all rows together, whenever no column is constant; dividing A and C by their column norms and multiplying the B_i by them leaves every represented entry unchanged. Bike sharing script: reordering and clipping keeps every entry that is not negative, and for non-negative factors the represented data. The stacked CP tensor used to compare models holds every represented matrix in its own rows.",
  "all data, factorizations, PARAFAC2 tensors, sorting routines", "Any numbers and sizes.",
  [EX+"plot_semiconductor_etch_analysis.py", EX+"plot_bikesharing.py", EX+"plot_simulated_nonnegative.py", EX+"plot_custom_penalty.py"])
p("example gallery: the first component shown explains the most",
  "The gallery scripts order the components before showing them, so that the first explains most of the variation (contributes most to the data, in the sum of squares).",
  "all factorizations whose B_i have columns of equal norm (PARAFAC2), non-negative weights, all sorting routines", "Any sizes of the components.",
  [EX+"plot_semiconductor_etch_analysis.py", EX+"plot_bikesharing.py"])

p("the order of the penalties of a mode does not matter",
  "Listing the penalties of a mode in another order in regs gives the same fit: if one call returns so does the other, with the same factors, errors, losses, number of iterations, message and feasibility, and with the auxiliary variables, dual variables and feasibility gaps of the penalties in the new order.",
  "all data, settings and penalties, all orders of the user's own penalties, starts that agree (always so when no variable is drawn at random)", "Every order, data set and number of iterations; any two penalties could be combined.",
  [D+":cmf_aoadmm", D+":_check_feasibility", D+":compute_feasibility_gaps", D+":admm_update_A", D+":admm_update_B", D+":admm_update_C"])

p("a fit reported as feasible nearly satisfies its constraints",
  "When the diagnostics say that the feasibility condition is satisfied, the factor matrix of every updated mode is closer than feasibility_tol times its norm to matrices that satisfy the constraint exactly, for every requested constraint. So no entry violates a bound, and no column a norm bound, by more than feasibility_tol times the norm of the factor. With enough iterations such a report is reached when one mode is updated and its problem is convex with a solution other than zero.",
  "all data, settings, starts, constraints given by keywords or as penalty objects, PARAFAC2, and all numbers of iterations", "The statement is about every run that ends with such a report, of any length, and about the limit of ever longer runs.",
  [D+":cmf_aoadmm", D+":_check_feasibility", D+":compute_feasibility_gaps"])

p("different ways of asking for the same penalties give the same fit",
  "Every keyword regulariser of cmf_aoadmm stands for penalty objects: the call without keywords, with those objects in front of the user's own in regs, returns or raises the same. One value for all modes, three values and a dictionary with the same values are interchangeable. Asking for non-negativity and setting the lower bound to zero, by keyword or object, on any of the modes and also with an upper bound, gives the same factor matrices, variables and diagnostics.",
  "all data, settings, starts, random numbers, keyword values, user penalties, numbers of iterations and number types", "Two calls are compared on every input; tests compare the parsed objects on a few literals.",
  [D+":_parse_all_penalties", D+":_parse_mode_penalties", D+":_listify", D+":cmf_aoadmm", PE+":NonNegativity", PE+":Box"])

p("rows and columns of zeros play no part",
  "If rows and columns of zeros are added to the data matrices (at the end, in between, with the others rearranged) and rows of zeros to the initial factors in the same places, then cmf_aoadmm returns the same A, weights and diagnostics, and the same B_i, C and ADMM variables with rows of zeros in those places, or it raises the same exception. What is asked of a mode to which rows are added must be satisfied by zeros and treat rows alike: signs, bounds between which 0 lies, sparsity, bounds on column norms, PARAFAC2.",
  "all data, ranks, numbers of rows and columns added and their positions, settings, penalties of these kinds, starts, correct svd routines and numbers of iterations", "Two calls on data of different sizes are compared on every input; tests never pad data.",
  [D+":cmf_aoadmm", D+":admm_update_B", D+":admm_update_C", D+":admm_update_A", D+":compute_feasibility_gaps", PE+":NonNegativity", PE+":Box", PE+":L1Penalty", PE+":L2Ball", PE+":Parafac2"])

p("example gallery: the data of the custom penalty script are what its text says",
  "For all sizes and whatever numbers are drawn, the data that plot_custom_penalty.py simulates follow the PARAFAC2 constraint, have non-negative components with A at least 0.1, the relative noise level asked for in every matrix, and B_i whose component vectors are unimodal, except for the last component.",
  "all sizes, ranks, noise levels and sequences of random numbers", "The script is run once, with one seed, and its claims are looked at in a plot; that small values appear in front of a peak is not visible there.",
  [EX+"plot_custom_penalty.py"])

p("the printed list of penalties says which penalties are used",
  "The printed form of a penalty object has its class, every constructor parameter with its value and the initialisations, and nothing else. Two penalties that print alike are of the same class with the same parameters and the same initialisations (arrays given as initial values are all printed alike, and nothing is said about norm matrices). So the list that a fit prints when verbose is not 0 determines the penalties of every mode, in order.",
  "all penalties of the library, parameter values, initialisations, lists of penalties of the three modes and ways of printing numbers that tell them apart", "That two different objects never print alike is a statement about all pairs; the tests only check that some strings occur.",
  [PE+":ADMMPenalty.__repr__", PE+":ADMMPenalty._auto_add_param_to_repr", D+":_parse_all_penalties"])

p("stricter tolerances never stop a fit earlier",
  "Take a call that returns, and make tol, absolute_tol or feasibility_tol smaller, or switch them off. The second call goes through all iterations of the first: limited to any number of iterations that the first one made, the two return the same factors, the same ADMM variables and the same histories. So the second call makes at least as many iterations, and with return_errors its histories begin with those of the first.",
  "all calls that return (all data, penalties, starts, random streams), all non-negative smaller values of the three tolerances or None, all numbers of iterations", "Users tighten tolerances to let a fit go on; that it cannot end earlier or elsewhere is a statement about pairs of calls and all their iterations.",
  [D+":cmf_aoadmm", D+":_check_feasibility"])

p("a start that already solves every mode is returned unchanged",
  "If the start of a fit (factors, auxiliary variables equal to them, dual variables) certifies that each updated factor already minimises its penalised least-squares problem with the other factors fixed, for convex penalties, then cmf_aoadmm returns exactly that start, factors and ADMM variables, whatever the numbers of outer and inner iterations, tolerances and random stream, and every recorded error, feasibility gap and loss is the initial one. The call cannot fail if each updated mode has a penalty or a ridge term. In particular a start that reproduces the data and meets all constraints is returned, with relative error 0 throughout.",
  "all data, convex penalties, ridge strengths, feasibility penalty scales, starts at rest, numbers of iterations, tolerances", "A fixed-point statement about any number of iterations of a numerical loop on arbitrary sizes; a test can only try a few starts and a few iterations, and sees rounding.",
  [D+":cmf_aoadmm", D+":admm_update_A", D+":admm_update_B", D+":admm_update_C", D+":compute_feasibility_gaps"])

p("an exact PARAFAC2 solution is returned unchanged",
  "If the B_i of the start minimise the least-squares problem by themselves (for instance because the start reproduces the data), meet every constraint on them, PARAFAC2 with bases P_i of orthonormal columns and P_i D = B_i among them, with zero dual variables, and A and C are at rest, then cmf_aoadmm returns exactly the factors it started from, whatever the numbers of outer iterations, inner iterations and iterations of the PARAFAC2 projection; dual variables are unchanged, auxiliary variables stand for the same matrices, and every recorded error, feasibility gap and loss is the initial one. D may be singular. The call cannot fail if each updated mode has a penalty or a ridge term. For an exact solution every recorded relative error is 0.",
  "all data, ranks, convex constraints besides PARAFAC2, coordinate matrices, numbers of iterations of the three nested loops, tolerances", "The PARAFAC2 constraint is not convex, and its projection is an inner loop that may change the bases and the coordinate matrix; that no iteration moves the factors off an exact solution concerns all sizes, coordinate matrices and iteration counts, and floating-point tests cannot tell a fixed point from slow drift.",
  [D+":cmf_aoadmm", D+":parafac2_aoadmm", D+":admm_update_B", PE+":Parafac2.factor_matrices_update", PE+":Parafac2.subtract_from_auxes"])

p("what the fits of the example gallery give",
  "The calls of parafac2_aoadmm in the example scripts return factors with the sizes of the data and the requested number of components (4 for the bike sharing data), after at most 1000 iterations, with the relative error of these factors as last reported error. If such a fit reports that it converged and no recorded gap is nan, then no entry of a factor that was asked to be non-negative (all factors of the bike sharing and of the simulated non-negative example, A alone in the example about the number of components) is below zero by more than 1/10000 of the norm of its factor, penalty objects passed in regs hold within the same distance, and the B_i are within that distance of matrices with one cross product. The components that the bike sharing script shows, whose negative entries are set to zero, therefore differ from those of the model by at most 1/10000 of the norms.",
  "all data, seeds, numbers of components, random streams and singular value decompositions", "The guarantee concerns every run of the scripts that converges, on any data and with any random start; a test sees a few seeds on one data set.",
  [EX+"plot_bikesharing.py", EX+"plot_examining_different_number_of_components.py", EX+"plot_simulated_nonnegative.py", EX+"plot_custom_penalty.py", D+":parafac2_aoadmm"])

p("data, model and residual of a fit add up",
  "If nothing is asked of the mode whose factor matrix is updated last in an iteration (A if update_A, else C, else the B_i), whatever constraints and penalties the other modes have, then after any number of outer iterations the squared norm of the data is the squared norm of the residual plus that of the reconstructed matrices plus twice the ridge strength times the squared norm of that factor matrix. So 1 - rec_error^2 is the explained share of the variation (exactly, without ridge on that mode), and every recorded relative error after the initial one lies between 0 and 1. With a penalty on the last mode this is not so: one iteration from an ordinary start can be worse than the zero model.",
  "all data, ranks, constraints and penalties on the other modes, ridge strengths, starts, iteration counts, inner tolerances", "The identity holds because each update solves a least-squares problem exactly and the updates of the other modes come before it; a change of the order of updates or of the scaling of the ridge term shows up as a small discrepancy for some data only.",
  [D+":cmf_aoadmm", D+":admm_update_A", D+":admm_update_B", D+":admm_update_C", D+":_cmf_reconstruction_error"])

p("equal parts of a problem stay equal",
  "What is equal at the start stays equal after any number of iterations, when auxiliary and dual variables start at zero. Components with equal columns in A, every B_i and C never separate: the fit returns equal columns, and only the start can break the tie. Equal columns of all data matrices with equal starting rows of C get equal rows of C, and equal rows of a data matrix with equal starting rows of its B_i get equal rows of that B_i, when nothing that depends on the order is imposed on that mode. Equal data matrices with equal starting rows of A and equal B_i get equal rows of A and equal B_i, with PARAFAC2 too.",
  "all data, ranks, shapes, penalties of the kinds named, ridge strengths, starts, iteration counts, tolerances", "A test compares two columns for one problem; that no loop order, in-place update or shared buffer treats the first of two equal parts differently concerns every size, position and number of iterations.",
  [D+":cmf_aoadmm", D+":admm_update_A", D+":admm_update_B", D+":admm_update_C", D+":initialize_cmf"])

p("all-zero data: tolerances are never met",
  "If every entry of every data matrix is zero, the norm the errors are divided by is zero. Then no recorded error or loss is a number (nan if the model of that iteration is zero everywhere, infinite otherwise), whatever the penalties and ridge terms; no tolerance is ever met, so exactly n_iter_max iterations are carried out and the result is that of the call with tol, absolute_tol and feasibility_tol None. If nothing is asked of the mode updated last, the model is zero after the first iteration and every later error and loss is nan.",
  "all shapes, ranks, starts, penalties, tolerances, iteration limits", "A test with one zero matrix sees a division warning; that no combination of tolerances, penalties and starts stops the loop early, although the objective is already minimal, concerns every call.",
  [D+":cmf_aoadmm", D+":_cmf_reconstruction_error", D+":_root_sum_squared_list"])

p("the printed summary of a factorization says what it is",
  "repr of a CoupledMatrixFactorization gives its rank and the shapes of its matrices in their order, and nothing else: two instances have the same text if and only if they have the same rank and the same shapes (a single matrix included, whose tuple is printed with a trailing comma). The summary of what a fit returns gives the requested rank and the shapes of the data matrices.",
  "all instances, ranks, numbers and sizes of matrices; all fits", "That no two different sizes print alike (digits running together, a lost comma) and that no call returns other sizes concerns all numbers and all calls.",
  [CM+":CoupledMatrixFactorization.__repr__", D+":cmf_aoadmm"])

p("without iterations a fit returns its start",
  "With n_iter_max zero or negative, a call that succeeds returns exactly the initial factorization, the initial auxiliary and the initial dual variables; the diagnostics say zero iterations, have one entry in each history and report the iteration limit as the reason, satisfied_stopping_condition is False with a tolerance and None without, and satisfied_feasibility_condition is a truth value exactly when feasibility_tol is set, then saying whether the gaps of the start are below it. All such calls agree, exceptions included, whatever inner_n_iter_max, inner_tol, feasibility_penalty_scale and (valid) constant_feasibility_penalty are.",
  "all arguments, all non-positive iteration limits, every arithmetic", "Every kind of start, constraint and tolerance, and every non-positive limit.",
  [D+":cmf_aoadmm", D+":initialize_cmf", D+":initialize_aux", D+":initialize_dual"])

p("calls with only data and rank",
  "Leaving out keyword arguments of cmf_aoadmm or parafac2_aoadmm is the same as passing the documented defaults. A fit with nothing but data, rank and perhaps l2_penalty has no feasibility gaps and counts as feasible from the start; it stops at the first iteration whose loss changed by less than 1e-8 of the one before or is below 1e-10, and otherwise after exactly 1000 iterations, as message and flags say. With a positive l2_penalty it always returns.",
  "all non-zero data, ranks, ridge strengths and random starts", "At which of the thousand iterations a run stops depends on all of its losses, for every data set.",
  [D+":cmf_aoadmm", D+":parafac2_aoadmm"])

p("random numbers are used only where they are asked for",
  "If aux_init, dual_init and those of the user's penalties do not ask for random numbers, or if no updated mode has a penalty, the outcome of cmf_aoadmm (result or exception) depends on random_state only through the entries of the random start: the first rank*(I + K + J_1 + ... + J_I) uniform numbers, no normal ones and no later ones. With a given start, or one of singular vectors, random_state plays no part. By default aux_init is random, and then it does play a part, also with a given start. The same holds for parafac2_aoadmm.",
  "all data, ranks, starts, penalties, settings and any two streams of random numbers", "Two runs with different seeds that agree do not show that no other seed would change the outcome.",
  [D+":cmf_aoadmm", D+":initialize_cmf", D+":initialize_aux", D+":initialize_dual", PE+":ADMMPenalty.init_aux", PE+":Parafac2.init_aux"])

p("random shapes and factorizations of the testing module",
  "random_length raises ValueError exactly if min is not less than mean, and otherwise returns an integer of at least min. The fixtures that test classes of users rely on always return: at least two matrices with as many columns, every size at least two (at least five rows for the rank 5 fixture), equal shapes for the regular ones, and a valid factorization of exactly these shapes with normalised columns whose rank is at least one and at most the smallest number of rows.",
  "all integers min and mean, all states and outputs of the generator (Poisson variates unbounded)", "A fixture is only ever run with the few seeds of a test session; the numbers of matrices, rows and columns are unbounded.",
  ["src/matcouply/testing/utils.py:random_length", "src/matcouply/testing/fixtures.py:random_ragged_cmf", "src/matcouply/testing/fixtures.py:random_regular_cmf", "src/matcouply/testing/fixtures.py:random_rank5_ragged_cmf"])

p("stronger penalties penalise more",
  "For the same input of factor_matrix_update: multiplying the strengths of an L1Penalty, a TotalVariationPenalty or the norm matrix of a GeneralizedL2Penalty by a factor above one never increases the penalty of the result and never brings it closer to the input; raising one strength of a TotalVariationPenalty never increases what that strength multiplies; a larger feasibility penalty never moves the result away from the input and never lowers its penalty; a tighter constraint (narrower box, smaller ball, non-negativity or unimodality added) never brings the result closer to the input.",
  "all matrices, strengths, bounds and feasibility penalties", "A monotone dependence on real parameters cannot be settled by sampling them.",
  [PE+":L1Penalty.factor_matrix_row_update", PE+":TotalVariationPenalty.factor_matrix_update", PE+":GeneralizedL2Penalty.factor_matrix_update", PE+":L2Ball.factor_matrix_update", PE+":Box.factor_matrix_row_update", PE+":NonNegativity.factor_matrix_row_update"])

with open("/verif/properties.jsonl","w") as f:
    for x in P: f.write(json.dumps(x)+"\n")
print(len(P))
