# Formal model of matcouply: design and trusted base

The model is written in Coq 8.16.1 under `rocq/theories` (logical name `Verif`).  It is a shallow
embedding: every Python function becomes a Gallina function with the same branches, and exceptions
are values (`res A := Ok a | Err exn`).  Every definition of the model cites the file and lines of
`/repo` it models and says where it simplifies.

The parts of a property:

* the **model** (`Unimodal.v`, `Penalties.v`, `Decomp.v`, ...): what the code does;
* the **specification** (`Spec.v`, `*Spec.v`): what the words of the property mean, on plain entries,
  sums and lists, without the model's algorithms;
* the **theorems** (`P01_*.v` ... ): one file for each part of the library, every theorem with the property's
  number in its name, followed by `Print Assumptions` and, in the same file or in the `*Examples.v` file
  named there, by a concrete case that meets its hypotheses;
* the remaining files hold the proofs.

Suffixes: `_partial` means that only part of the property is proved (the note in `MANIFEST.json` and the
comment above the theorem say what is missing); `_refuted` means that the property, read as documented,
is false of the code, and the theorem proves its negation with a concrete or general witness.

## Trusted base

1. Coq's kernel (with `vm_compute` in a few examples and counterexamples over rationals).
2. The axioms listed by `Print Assumptions` (for every theorem: the last section of this file, written by
   `tools/assumptions.py`).  They are all from the standard library:
   * `ClassicalDedekindReals.sig_forall_dec`, `ClassicalDedekindReals.sig_not_dec` and
     `FunctionalExtensionality.functional_extensionality_dep`: Coq's real numbers.  All theorems about real
     arithmetic depend on these three.
   * `Classical_Prop.classic`: enters with the real-analysis part of the standard library (square roots of
     sums, `exp`, maxima of finite families) in the theorems of P04-P11 and P24-P30 about whole
     runs and the B_i, and in P14.
   * `IndefiniteDescription.constructive_indefinite_description`: only in `C30_reported_loss_refuted`,
     `C36_diagnostics_change_fit_refuted`, `C41_named_start_refuted`, `C66_too_few_refuted`, `C65_converges_A/B/C`, `C82_only_A/B/C` (choosing a minimising sequence) and
     the non-vacuity examples that use `Ideal.v` (choosing an SVD routine that is correct for all matrices).
   * Theorems of P12, P15, P16, nearly all of P17, all of P18, P19, P21-P23 and P31, and `C24_feasible_without_penalties`,
     `C39_broadcast`, `C39_forms_agree` need no axiom.
   * vcheck also lists opaque constants of the standard library (`RbaseSymbolsImpl.*`, `RinvImpl.*`) and
     of ssreflect (`Under_rel`); these are module items with definitions, not axioms.
3. The reading of Python in the model, described below.

No axioms, functors, module types, `Admitted` or switched-off checks are used.

## Numbers

All numeric definitions are written once over an arbitrary record of operations (`Num` in `Num.v`: 0, 1, +,
-, *, /, comparison, sqrt, literals; no laws).  Instances:

* `RNum`: the real numbers.  Theorems about optimality, errors, losses and constraints of the L2 ball,
  the simplex and PARAFAC2 are about this instance, that is, about exact arithmetic.
* every `N : Num`: theorems about control flow, memory, shapes and order hold for any arithmetic (P17, P18).
  P18 assumes that the comparison is a total order (`ordered`) and, for some clauses, that products of
  non-negative numbers are non-negative (`product_signs`); no law of addition, rounding or square roots is assumed.
* `DNum` (`Binary64.v`): IEEE double precision as specified in the standard library (`SpecFloat`), with infinities and `nan`; the only
  difference is that `<=` puts `nan` above all numbers, whereas numpy's comparisons with `nan` are false.  P23 applies P18 to it and runs a fit
  of 27 iterations in double precision.
* `FNum` (`FixedPoint.v`): integers counting thousandths, every operation rounding down; shows that the hypotheses of
  P18 are met by an arithmetic that is neither associative nor distributive.
* `QNum`: rationals, to run the same definitions with `vm_compute` (counterexamples).

Division by zero and singular systems: numpy goes on with `nan` or `inf`, the model stops with
`Err NonFinite`.  So a result `Ok` of the model is a run in which no such division happened; theorems of the form
"if the call returns, then ..." are about those runs.  Feasibility gaps and losses are the exception: they
are extended numbers (`Fin`, `PInf`, `NaN`), because the code compares them.

## External routines

| routine | in the model | assumed in theorems |
|---|---|---|
| `svd` (tensorly) | arbitrary function `x_svd` | `svd_correct`/`has_svd`: its result is a singular value decomposition of the argument (only where the theorem says so) |
| `condat_tv.tv_denoise_matrix` | arbitrary function `x_tv` | `tv_correct`: returns a minimiser of its documented objective |
| `scipy.optimize.bisect` | modelled, the loop with its default tolerances | nothing |
| `parafac`, `non_negative_parafac_hals`, `parafac2` (tensorly) | arbitrary functions | `ranks_kept`: result has the requested rank |
| `numpy.linalg.eigvalsh` | arbitrary function `e_eigvals` | appears in the statement (`acceptable`) |
| random generators | arbitrary streams, read in order | nothing |
| disk, network, `loadmat` | explicit world, oracle for every answer and fault, arbitrary parser | stated in each theorem |
| Python's `int`, MATLAB record access | arbitrary functions | nothing |

`Exist.v`/`Ideal.v` prove that routines meeting these assumptions exist, so the hypotheses are not vacuous.

## What is modelled

| file of /repo | model | not modelled |
|---|---|---|
| `_unimodal_regression.py` | `Unimodal.v`: everything | numpy dtype rules other than integer truncation on assignment (C05) |
| `penalties.py` | `Penalties.v` (constructors, `penalty`, `factor_matrix(es)_update`, row updates, `subtract_from_aux(es)`, `auxes_as_matrices`), `InitVars.v` (`init_aux`, `init_dual`), `Repr.v` (`__repr__`), `Custom.v` (base classes as templates for classes written by users: abstract methods, inherited methods, the fit with method lookup) | penalty objects whose methods change the object |
| `coupled_matrices.py` | `CoupledMatrices.v`: validation, `from_CPTensor`, `from_Parafac2Tensor`, `to_matrix(ces)`, `to_tensor`, `to_unfolded`, `to_vec`; `CmfObject.v`: instances, `__getitem__`, `__iter__`, `__len__`; `CmfRepr.v`: `__repr__` | generators, strings and dictionaries as arguments |
| `decomposition.py` | `Decomp.v` (updates, gaps, error, outer loop), `Parse.v` (`_listify`, `_parse_mode_penalties`, `_parse_all_penalties`), `Fit.v` (`initialize_cmf`, `cmf_aoadmm`, `parafac2_aoadmm`), `Heap.v` (the same loops with arrays and lists overwritten in place), `Verbose.v` (what is printed and when), `Repr.v` (text of the list of penalties), `InitParams.v` (`init_params`), `ShortStart.v` (starts for too few matrices) | wording of the other printed text, shape errors raised inside numpy (`NotModelled`) |
| `random.py` | `RandomGen.v`: everything | seeding of the generator |
| `data.py` | `DataSim.v` (`get_simple_simulated_data`), `DataCache.v` (`get_semiconductor_etch_raw_data`), `DataConcurrent.v` (several calls of it at once), `EtchMachine.v` (`get_semiconductor_etch_machine_data`), `BikeData.v` (`get_bike_data`, for any content of its archive, which is not in /repo) | names of data frame indices and columns other than the variables, dates out of range, time zone of the labels |
| `_doc_utils.py` | `DocUtils.v`: `mro`, the metaclass, the decorator | properties and descriptors beyond plain attributes |
| `_utils.py` | in `Fit.v` (padding, shapes) and `Parse.v` (`is_iterable`); `get_svd` as a check that the name is known | |
| `examples/` | `CustomExample.v`: the class `UnimodalAllExceptLast` of plot_custom_penalty.py; `Gallery.v`: calls and choice among starts, simulated data of two scripts (of plot_custom_penalty.py in `GalleryCustom.v`), standardising, normalising, ordering, clipping and stacking of components | plots, printed text, the PARAFAC2-ALS of TensorLy |
| `testing/` | not code that runs in a fit: the contract its test mixins check on random inputs (invariant points, changed inputs, reduced penalty) is proved for all inputs as C61; `Fixtures.v`: `random_length` and the fixtures for shapes and factorizations | pytest, the seed, the fixtures of normal matrices of fixed size |

`Err NotModelled` marks the places where the code goes on in a way the model does not follow: numpy
broadcasting of a 1-row or 1-column initial factor, starts with too few matrices (but see `ShortStart.v`), empty data, norm matrices without a
shape, rebinding of the decorator's name inside a class body.  No theorem claims anything about
such calls except that "returns" excludes them.

Mutable state: `Decomp.v` computes with values.  `Heap.v` repeats the loops with a heap of arrays and lists and
P17 proves that both agree whenever the caller's arrays do not overlap (C57), which objects of the
caller can change (C42), and counterexamples otherwise.

## Findings

Behaviour of the code that departs from its documentation or is likely to surprise, found while proving:

* C05: integer input to `unimodal_regression` truncates the fitted levels.
* C30, C36: with `return_errors=False` the loss is not recorded in infeasible iterations (`continue`), so the relative
  criterion compares with an older loss; requesting diagnostics can change the fit.  The reported loss
  normalises the data term and can increase although the minimised objective decreases.
* C35: `absolute_tol` alone (without `tol`) never stops the fit; a falsy `feasibility_tol` means it never stops
  early; `absolute_tol=None` with `tol` set raises `TypeError`.
* C40: penalties on A that act on the whole matrix raise `AttributeError` in the first iteration unless `constant_feasibility_penalty` is set.
* C41: the weights found by the `parafac`/`parafac2` starts are dropped by the first update of A.
* C42, C57: the caller's initial A, the list of the initial B_i and mode-0 `aux_init` arrays are overwritten in place; one array
  passed as `aux_init` of two penalties changes the result; B_is given as a tuple would raise in the second inner iteration.
* C46, C55: a file cut short by an interruption, or an unreadable answer with status 200, is taken from the
  cache by every later call.
* C48: docstring inheritance with several bases uses `getattr` on the first class of the order that has the attribute, which need not
  be the nearest definition, and can pick up metaclass attributes.
* C54: the cyclic shifts of the simulated component vectors are not unimodal.
* C62: `get_bike_data` labels the columns of all cities with the hours of Oslo; if another city has other hours (or another order), its numbers are shown under wrong hours.
* C63, C64: with `verbose`, "converged in k iterations" names one iteration less than were made; a negative `verbose` prints the first and last lines only;
  the printed list of penalties includes those of frozen modes, which are not used.
* C42: `init_params` gets the key `n_iter_max` when it is missing, also when the name of the start is unknown and the call raises.
* C66: with A and the B_i fixed, a given start for the first few matrices is accepted and all further data matrices are ignored without a warning; a given start of another
  rank than `rank` is accepted when nothing is imposed.
* C84: plot_simulated_nonnegative.py and plot_custom_penalty.py compare the loss of a start with the reconstruction error of the kept one, so a later, worse start replaces a better one; the "fit score" of
  plot_examining_different_number_of_components.py is 1 - e^2/2 for the relative error e, so it is never below 1/2 when e <= 1.
* C87: plot_semiconductor_etch_analysis.py sorts the components in ascending order and shows the smallest first, although the comment says the first explains most.
* C88: `_check_feasibility` takes Python's `max` of gaps that can be NaN (a factor that is exactly zero): the NaN of one mode is dropped when a later mode has a finite gap, so a result with an infinite gap is
  reported as feasible, depending on the order of the penalties.
* C92: in plot_custom_penalty.py the components that the text calls unimodal are not unimodal from the third matrix on, because `np.roll` brings the end of the density to the front.
* C93: the list of penalties shown in README.rst is not what the code prints: the order of the parameters differs. The printed text has an unmatched closing parenthesis.
* C94: without `return_errors`, a smaller `feasibility_tol` can end a fit earlier, at another result: iterations skipped as infeasible leave no loss behind, and the relative criterion compares with the last recorded loss.
* C100: with all-zero data the relative error is 0/0, so no tolerance is ever met and all iterations are carried out.
* C56: equal sample names pair measurements with the metadata of another sample.
* Others: `l2_norm_bound=0` and strength 0 are ignored silently; a negative `l2_penalty` or feasibility scale is accepted; Box with a
  negative upper bound plus `non_negative` gives negative values; `rank` is ignored when `init` is a factorization and there are no penalties;
  weights of `init` are multiplied in before they are validated; penalties of frozen modes are missing from the reported loss;
  `regs` given as tuples raise `TypeError` when keyword penalties are added, and a fourth list is ignored;
  `GeneralizedL2Penalty` accepts eigenvalues down to -1e-14;
  the documented feasibility gap divides by the norm of the auxiliary variable, the code by the norm of the factor; `__prepare__` passes `*kwds`.

## Wrong-program experiments

`seeded/LOG.jsonl` has one line for each edit of the model that was tried; `seeded/mutants/` holds the
edits and the script that applies them to a scratch copy and rebuilds.  "theorems_failed" lists the lemma or theorem
whose proof broke first and the property's theorems that depend on it.

## Properties

Each line: what is proved, how, and by which theorems.  The full statements are in `properties.jsonl`.

