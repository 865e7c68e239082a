{
 "C01": "`prefix_isotonic_regression` and its callers, loop for loop; invariant of the pool-adjacent-violators stack, optimality by the block-mean certificate, best split by induction.",
 "C02": "`prefix_isotonic_regression` and its callers, loop for loop; invariant of the pool-adjacent-violators stack, optimality by the block-mean certificate, best split by induction.",
 "C03": "`prefix_isotonic_regression` and its callers, loop for loop; invariant of the pool-adjacent-violators stack, optimality by the block-mean certificate, best split by induction.",
 "C04": "`prefix_isotonic_regression` and its callers, loop for loop; invariant of the pool-adjacent-violators stack, optimality by the block-mean certificate, best split by induction.",
 "C05": "The same functions with truncating storage; witness.",
 "C06": "Penalty classes; entrywise optimality lifted to matrices; uniqueness from strong convexity.",
 "C07": "Penalty classes; entrywise optimality lifted to matrices; uniqueness from strong convexity.",
 "C08": "Quadratic optimality from the SVD certificate.",
 "C09": "Cauchy-Schwarz column by column.",
 "C10": "Monotone multiplier function, invariant of the bisection loop, explicit error bound.",
 "C11": "Dual certificate extracted from optimality of the TV step, re-used for TV+L1.",
 "C12": "Orthogonality algebra, Procrustes inequality, weighted means; induction over the coordinate-descent steps.",
 "C13": "Orthogonality algebra, Procrustes inequality, weighted means; induction over the coordinate-descent steps.",
 "C14": "Case analysis over the penalty classes.",
 "C15": "Case analysis over the penalty classes.",
 "C16": "Case analysis over the penalty classes.",
 "C17": "`init_aux`, `init_dual` for every penalty, mode and kind of given value; case analysis.",
 "C18": "`coupled_matrices.py`; case analysis and index lemmas for flattening and unfolding.",
 "C19": "`coupled_matrices.py`; case analysis and index lemmas for flattening and unfolding.",
 "C20": "`coupled_matrices.py`; case analysis and index lemmas for flattening and unfolding.",
 "C21": "`coupled_matrices.py`; case analysis and index lemmas for flattening and unfolding.",
 "C22": "`coupled_matrices.py`; case analysis and index lemmas for flattening and unfolding.",
 "C23": "Reconstruction error, gaps and feasibility test; expansion of the squared residual.",
 "C24": "Reconstruction error, gaps and feasibility test; expansion of the squared residual.",
 "C25": "`admm_update_A/B/C`; normal equations solved through the SVD, induction over the inner iterations.",
 "C26": "`admm_update_A/B/C`; normal equations solved through the SVD, induction over the inner iterations.",
 "C31": "`admm_update_A/B/C`; normal equations solved through the SVD, induction over the inner iterations.",
 "C27": "Invariant over all inner and outer iterations, then through the front end.",
 "C28": "Stationarity of the three updates gives the optimality condition of the penalised problem.",
 "C29": "Each block update minimises the objective; induction over iterations.",
 "C30": "Each block update minimises the objective; induction over iterations.",
 "C32": "Outer loop with its histories; induction over iterations, then through the front end.",
 "C33": "Outer loop with its histories; induction over iterations, then through the front end.",
 "C34": "Outer loop with its histories; induction over iterations, then through the front end.",
 "C35": "Outer loop with its histories; induction over iterations, then through the front end.",
 "C36": "Outer loop with its histories; induction over iterations, then through the front end.",
 "C37": "Outer loop with its histories; induction over iterations, then through the front end.",
 "C38": "Argument parsing; case analysis.",
 "C39": "Argument parsing; case analysis.",
 "C40": "Argument parsing; case analysis.",
 "C41": "`initialize_cmf` and its named starts; algebra.",
 "C53": "`initialize_cmf` and its named starts; `init_params` as a dictionary completed in place; algebra.",
 "C42": "Heap model with in-place writes; frame logic and refinement to the value model, counterexamples; `init_params` as a dictionary.",
 "C57": "Heap model with in-place writes; frame logic and refinement to the value model, counterexamples.",
 "C43": "`random_coupled_matrices`; algebra of the normalisation.",
 "C44": "`get_simple_simulated_data`; algebra, monotonicity of exp.",
 "C54": "`get_simple_simulated_data`; algebra, monotonicity of exp.",
 "C45": "Programs with disk and network effects, arbitrary faults and crash points; induction over programs and histories of calls.",
 "C46": "Programs with disk and network effects, arbitrary faults and crash points; induction over programs and histories of calls.",
 "C55": "Programs with disk and network effects, arbitrary faults and crash points; induction over programs and histories of calls.",
 "C47": "C3 merge with fuel shown sufficient, class creation; induction on the merge and on hierarchies.",
 "C48": "C3 merge with fuel shown sufficient, class creation; induction on the merge and on hierarchies.",
 "C49": "Equality of the two front ends.",
 "C50": "Lyapunov function of scaled ADMM.",
 "C51": "Totality of every step under stated conditions, lifted to runs and calls.",
 "C52": "Padding helpers; index lemmas.",
 "C56": "Dictionary building; induction over the samples.",
 "C58": "Model over an arbitrary Num with a total order; order-only reasoning through the updates and the loop.",
 "C59": "Invariants of the loop over an arbitrary Num.",
 "C60": "Instances as records; case analysis of the protocol.",
 "C61": "From the strong form of the proximal characterisation, summed for two arguments.",
 "C62": "Frames as lists of labels and cells; positions of labels followed from the file to the result.",
 "C63": "The loop with print statements as a writer; erasing the lines gives the loop, induction over the iterations for the lines.",
 "C64": "Concrete run by computation.",
 "C65": "Lyapunov function for rates; completeness and strong convexity for existence; separation of a convex cone from a ray, coordinate by coordinate, for multipliers.",
 "C66": "The first reconstruction and the first gaps as a check of the start; starts with too few matrices in a separate model that agrees with the main one.",
 "C67": "Simulation: the permutation commutes with setup, every update, the gaps, errors and the stopping test; induction over the outer and inner loops.",
 "C68": "The state after n iterations is rebuilt by the setup of the second call (given variables pass every check); the loop depends on the history only through its last loss, so the longer loop is the first followed by the second.",
 "C69": "One iteration, the loop, the run and the call are each shown to map corresponding inputs to corresponding outputs (SymStep, SymLoop, SymRun, SymFit) for a general change of units and orders; here only the order of the components changes.",
 "C70": "The same general theorem with permuted rows and columns; proxes that do not look at the order commute with the permutation (SymPen).",
 "C71": "Every prox, least-squares solution, misfit, gap and stopping test is shown to commute with the change of units; unique solutions of the least-squares problems carry the correspondence across any correct svd routine. With PARAFAC2: the polar factor of a matrix with independent columns is unique (trace argument) and does not change with positive factors; a routine that refuses all other matrices (strict, P40_Routines.v) makes both runs correspond, and what it does not refuse the correct routines do alike.",
 "C72": "The general theorem with two environments and no change: least-squares solutions do not depend on the decomposition; correspondence with factor 1 is equality. With PARAFAC2 both routines are first made strict (refusing matrices with dependent columns); the strict runs agree, and a strict run that returns equals the run with the routine itself.",
 "C73": "Each block update is an exact minimiser over its block (from the least-squares theorems), so it has no slope there and the ridge term makes the objective drop by l/2 times the squared step; sums telescope. The derivative is a polynomial in the entries, hence Lipschitz on the bounded level set, uniformly in unit directions: the slope after a round is at most a constant times the step. Limits by the Cauchy criterion; classical case split on whether some iteration fails.",
 "C74": "Custom.v models penalty classes as records of optional methods and repeats the fit with method lookup; the built-in classes are embedded and a simulation shows that each step commutes with the embedding.",
 "C75": "The same simulation, for two user classes and any relation between their auxiliary variables, through all steps of the fit (CustomSim.v, CustomFit.v).",
 "C76": "Induction over inner and outer iterations: every step appends one call of the object's method to the chain that starts at its own init_aux (CustomCalls.v).",
 "C77": "Unfolding the templates under C76; instantiation by cases on which methods exist.",
 "C78": "Pythagoras column by column: the last column is clipped entrywise, the others are projected by unimodal regression (C02, C03); the fit by C76.",
 "C79": "Shape invariant over states with auxiliary variables of any type; every system is positive definite because of the ridge terms (CustomTotal.v). The keyword penalties are shown to be sound objects, so they are treated like the user's.",
 "C80": "The shape invariant of C79 with results in 'a value of the right shape or an allowed exception' (FailRun.v); every built-in penalty is reliable up to divisions by zero, PARAFAC2 with its pair as the auxiliary variable (FailBuiltin.v); the built-in fit follows by C74.",
 "C81": "Processes are the programs of DataCache.v with a position in the open file; a schedule is any sequence of single operations by any of them (DataConcurrent.v). Invariant: every byte of a new file is right, or some process that is still writing has yet to write it; files are damaged copies at worst. The refutations construct the schedules.",
 "C82": "With one mode updated the other factors, hence the linear systems and feasibility penalties, never change: n outer iterations of m inner iterations are one update with n m inner iterations (LoneRun.v), to which C65 applies. Without a tolerance the outer loop makes all its iterations and cannot fail. The problem solved is stated from the call's arguments (LoneSpec.v) through C38.",
 "C83": "The cross products B^T B, C^T C and B^T X C are unchanged, so the systems, feasibility penalties, losses and gaps are the same and the right-hand sides are turned; the relation is carried through inner loops, outer loop and call (TurnFacts.v, TurnRun.v, TurnLoop.v, TurnFit.v). For PARAFAC2 the polar factor of a matrix with independent columns is unique (TurnPolar.v: it maximises an inner product and the maximiser is unique), hence equivariant; a run with the refusing routine is a run with the ordinary one (TurnRefuse.v).",
 "C84": "Gallery.v models the loops of the scripts over an arbitrary function from seeds to results; invariants over the loops (lowest so far, first index). For the real calls the final loss is half the squared relative error because the penalties are constraints (C06). The refutation evaluates two double-precision fits in the kernel.",
 "C85": "gallery_data (Gallery.v) run step by step with the drawing lemmas of C27; rolling rows permutes a sum cyclically; the norm of the scaled noise is computed.",
 "C86": "Entry by entry computation over the stacked matrix (sum_stack), the normalised factors (etch_val) and permuted sums (rsum_reorder).",
 "C87": "The size of a component is weight times the three column norms when the B_i have equal column norms (component_size_val); the sorting routine is any function returning a permutation that sorts.",
 "C88": "Simulation between the two runs, step by step, with the variables permuted (PenOrderRun.v); sums over penalties and maxima of gaps do not depend on the order as long as no gap is NaN; the starts correspond because values that are not drawn take nothing from the random stream (PenOrderFixed.v). The refutation is a run in double precision.",
 "C89": "Combines the exactness of the auxiliary variables (C27) with what the feasibility flag means (C34), and the limit of one-mode runs (C82) for the converse; entries by the Cauchy-Schwarz inequality. The refutation is the run of C88.",
 "C90": "KeywordSpec.v says which objects the keywords of a mode stand for; parsing is shown to build exactly those. Interchangeable objects have convertible methods, so the calls agree by the simulation of C74.",
 "C91": "PadSpec.v says where rows and columns go. Padding is multiplication by a matrix with orthonormal columns made of zeros and ones, so the simulation of C83 applies once the updates of the penalties that act entry by entry are shown to commute with it; that needs non-negative weights in the updates.",
 "C92": "custom_data (GalleryCustom.v) run step by step as in C85. A sequence without a dip is unimodal (its largest entry is the peak); the density falls with the distance from the mean; a dip refutes unimodality.",
 "C93": "Repr.v is __repr__ on strings, ReprSpec.v lists the constructor parameters. Injectivity: strings are cut at characters that the parts before do not contain; lists of lines at the headings.",
 "C94": "TolSpec.v compares calls and results. Tolerances.v: the loop body is split into step, recording and stopping test; each test is monotone in its tolerance, so by induction the strict loop follows the loose one. The refutation is a computed run on one number.",
 "C95": "RestSpec.v says what a start at rest is. Rest.v: one ADMM iteration from a saddle point with the multipliers as duals stays there (strong convexity of the proximal steps). RestRun.v: induction over outer iterations, the records stay constant and no update fails. RestPerfect.v: an exact, feasible start with zero duals is at rest.",
 "C96": "RestPf2Spec.v says what a start at rest with PARAFAC2 is. RestPf2.v: the B update returns the unique minimiser of the augmented problem, which is the start; the PARAFAC2 projection never increases the weighted distance (C13), which is 0 at the start, so the new pair stands for the same matrices. RestPf2Run.v: induction over outer iterations with equality up to the pair.",
 "C97": "The calls of Gallery.v are sensible calls of cmf_aoadmm; the converged flag implies feasibility (C34), feasibility implies nearness (C89), and clipping (C86) moves an entry by no more than it is negative. The example uses C96 to run the loop.",
 "C98": "ExplainSpec.v defines the squared norm of the model and the mode updated last. Explain.v: the update without penalties minimises the ridge-regularised distance over all factor matrices of the mode, in particular over multiples t of its own result; this parabola in t has its lowest point at 1, which is the identity. P54_Explained.v: every state of the trajectory after the first ends with such an update.",
 "C99": "EqualSpec.v says when components, rows, columns or matrices are equal. P55_Equal.v: exchanging two equal parts leaves the problem as it is, so by the symmetry theorems the result equals its own exchange.",
 "C100": "ZeroSpec.v says what zero data, a zero model and the call without tolerances are. P56_Zero.v: induction over the outer loop with the invariant that no recorded value is a number, for the call and the call without tolerances side by side; the error of a state is nan iff its residual is zero; vanishing follows from the identity of C98.",
 "C101": "CmfRepr.v models __repr__ with decimal digits and tuples. P57_Summary.v: digits contain no comma, space or parenthesis, so texts can be cut at them; induction over the tuple. The sizes of a fit come from C33's invariant.",
 "C102": "The loop body is never entered; a constructed factorization survives the final validation unchanged, and the variables are those of the initialisers (P58_NoIterations.v, for every arithmetic).",
 "C103": "The lists of penalties stay empty along the trajectory, so every tuple of gaps is empty and the feasibility test is true; the rest is C34 with the default tolerances. DefaultSpec.v writes the documented defaults out.",
 "C104": "Two streams that agree on the numbers of the random start give the same start; keyword penalties carry aux_init and dual_init, so no variable is drawn and the two set-ups are equal. DrawSpec.v says which values ask for random numbers and how many entries a random start has.",
 "C105": "Fixtures.v models the fixtures with a generator that also gives Poisson variates and integers; induction over the matrices, then C43 for the factorization (uniform numbers are positive, so no column is zero).",
 "C106": "Each result is the proximal point of its own objective (C06-C09, C11); the two optimality inequalities, each taken at the other result, add up to the claim. StrengthSpec.v says what a multiple of a penalty and a tighter constraint are."
}