# Formal model of rbfopt in Rocq (Coq 8.16.1)

The code is read as text from /repo/src/rbfopt (pinned commit); nothing is executed. The model is a
function-by-function transcription into small total Gallina functions. Every definition cites
the file and lines it models and names its simplifications. `rocq/theories` contains

* `Model*.v` - definitions only, one file per part of the code;
* `Spec*.v` - vocabulary of the statements, written from the documentation / the English property
  and independent of proof helpers;
* `*Proofs.v`, `*Glue.v`, `Alg*.v`, `Par*.v`, ... - lemmas; `Witness*.v` - concrete runs used by refutations;
* `Properties*.v` - one `Theorem Cxx_...` per claim, each followed by `Print Assumptions` and by an
  `Example Cxx_case` that exhibits a concrete non-trivial instance of the hypotheses.

Naming: `Cxx_..._refuted` disproves (by witness, or for all inputs of a class) a claim that the property
text marks as false of the code; `_partial` would mark an incomplete proof (none at present).

## Conventions

* **Numbers.** Counters are `nat`/`Z`. Coordinates and objective values in the executable parts (optimizer
  state machine, initialization, encodings, GA, parallel machine, settings, command line, test functions) are exact
  rationals `Q`; the analytic parts (logarithms, square roots, radial functions, linear algebra, refinement, search
  steps, solver models) are over the reals of the standard library. Rounding error is *not* modelled there.
  `ModelFloat.v` models domain scaling and best-value bookkeeping in IEEE binary64 (Flocq), `ModelFloatRun.v` the stopping test and the treatment of proposed points, `ModelFloatValues.v` the rescaling of values.
* **Distances.** In the rational parts `distance(p,q) <= d` with `d >= 0` is `sqdist p q <= d*d`;
  `GeomProofs.v` / theorem `C48_squared_comparisons` prove that the two comparisons agree over R.
* **Oracles.** Random numbers, the black box, the external solvers (Pyomo/Bonmin/Ipopt), the surrogate search where it is not the
  subject, LAPACK success/failure and results, the clock, the scheduler of the worker pool, the serializer and the
  crash point are *inputs*: theorems quantify over all of them. No axiom describes them. Where a theorem needs something of
  an oracle (a solver result solves its system; a permutation sorts; a draw is in its range) this is a visible
  hypothesis phrased in a `Spec*.v` definition, and the Example shows it can be met.
* **Exceptions** are values (`Failed`/`Crash`/`SFail`/`CFail` constructors, with the kind of exception). Loops over the environment are folds
  over a list of per-pass inputs, so "every reachable state" is "every finite list of inputs"; non-termination
  questions (C03, C76) are stated about these lists without bound.
* **Python/numpy idioms** modelled explicitly where they matter: `argmin` returns the first minimum (first NaN in
  doubles), `round` half to even, `astype(int)` truncation, boolean masks, mutable aliasing (C71, C55, C39), leaking loop variables and
  unassigned names (C14, C75, C110), negative indices.

## What is modelled, and what is not

| model file | code (rbfopt/...) | simplifications |
|---|---|---|
| ModelBase, ModelAlg | rbfopt_algorithm.py constructor counters, update_log, remove/add nodes, optimize, optimize_serial, restart (no pool), remove_existing_nodes, restoration_search, phase/refinement/stalling/step updates, require_accurate_evaluation; compute_gap; update_refinement_radius | search steps deliver an arbitrary proposal (point, model data) per pass; printing reduced to log events; user interrupts not modelled |
| ModelCategorical | algorithm.py 244-331, 790-812, 2905-3004; utils.py 679-860 | dtype conversions ignored |
| ModelInit | utils.py 167-622, 1917-1994, 2177-2309 | random designs, correlation criterion, singular values are inputs |
| ModelSettings | rbfopt_settings.py 370-690 | values are numbers, strings, booleans |
| ModelProblem | algorithm.py constructor 244-468 as a whole, optimize with all variables fixed 776-812; rbfopt_user_black_box.py | count settings are integers |
| ModelGeom, ModelRBF, ModelScaling | utils.py distances, RBF matrix, coefficients, evaluation, model selection, leave-one-out, transform_function_values | reals; `solve`/`inv` arbitrary functions |
| ModelRefine, ModelSteps | rbfopt_refinement.py; algorithm.py local_step, refinement_step, global_step; aux_problems.py get_min_bump_node, get_bump_new_node | least-squares fit, QR factorization, sorting permutation, searches are arguments |
| ModelGA, ModelAux | aux_problems.py generate_sample_points, ga_*, MetricSRSMObj, MaximinDistanceObj, Gutmann*Obj, sampling searches; get_matrix_inverse | random draws are arguments |
| ModelPyomo | degree1/degree0/degreem1 model builders; get_noisy_rbf_coefficients | a model = feasible set + objective; solver arbitrary |
| ModelPersist | save_to_file, load_from_file, set_output_stream, checkpoint calls, clock | serializer arbitrary; file system = map, writes arrive in chunks |
| ModelParallel | optimize_parallel, restart with pool, refinement_update_parallel, results_ready | step machine; worker processes reduced to when their results become ready and what they return |
| ModelRandom | init_environment and its two uses (constructor, pool initializer), restoration by load_from_file | generator = sequence determined by the seed plus a position; log levels not represented |
| ModelSummary | end of optimize and print_summary_line | data of the line; number formats and clock times not represented |
| ModelLinear | get_best_rbf coefficient solve, least-squares fallbacks, solver answer post-processing, starting points, estimates for pending points | `numpy.linalg.solve`/`lstsq` arbitrary functions with stated correctness (`GaussSolver.v` shows a function meeting them exists) |
| ModelExternal | rbfopt_aux_problems.py: set_minlp_solver_options, set_nlp_solver_options, dispatch of pure_global_search / global_search / minimize_rbf / get_noisy_rbf_coefficients | the solver is an arbitrary function of options and starting values; results of the genetic and sampling search are arguments |
| ModelTestBB | TestNoisyBlackBox, TestEnlargedBlackBox | the individual benchmark formulas are an arbitrary function |
| ModelBench, ModelBenchData | rbfopt_test_functions.py: the 54 function classes (declarations, tables, evaluate) | generated from the Python syntax tree; exact arithmetic on the decimal literals; additional_optima left out |
| ModelOptima | additional_optima of branin and branin_cat | exact |
| ModelSelect, ModelAutoScale | algorithm.py optimize_serial/optimize_parallel bookkeeping of the chosen RBF model, failures and function scaling; utils.py get_most_common_element | the cross validation itself is in ModelRBF, here its result is an input |
| ModelQuality | rbfopt_utils.py: get_model_quality_estimate, the scan of get_best_rbf_model | exact real arithmetic; the factorization is an arbitrary solver that is exact where it answers |
| ModelCLI | rbfopt_cl_interface.py | text conversions arbitrary; argparse abbreviations not modelled |
| ModelTestMain | rbfopt_test_interface.py: main, rbfopt_test_interface | up to the creation of the optimizer; ASCII names |
| ModelFloatValues | transform_function_values in binary64 (off and affine scaling, all clipping modes) | log scaling and error bounds not in this file |
| ModelRank | the matrix of the rank test in initialize_nodes | singular values are not modelled (the verdict is an input) |
| ModelFloatRun | compute_gap and the loop test, np.clip, np.around, floor, ceil, distances, the discard test in binary64 | no fused multiply-add; summation order left open |
| ModelFloat | transform_domain and incumbent bookkeeping in binary64 | node removal (two-phase mode) not in this file |

Not modelled: the Pyomo/solver processes themselves, rounding errors
outside ModelFloat, ModelFloatRun and ModelFloatValues, the text of log lines, multiprocessing internals, numpy dtype effects, memory exhaustion, signals.

## Trusted base

* Coq 8.16.1's kernel (including `vm_compute`), the standard library; libraries used: Flocq (only in `ModelFloat`, `FloatProofs`, `NanProofs`, `PropertiesFloat`, and `ModelFloatRun`, `FloatRun`, `FloatDist`, `FloatAcc`, `SpecFloatRun`, `PropertiesFloatRun`, `ModelFloatValues`, `FloatValues`, `FloatCutoff`, `SpecFloatValues`, `PropertiesFloatValues`;
  Flocq itself adds no axioms). No functors, module types, plugins or own axioms.
* The reading of the Python code recorded in the comments of `Model*.v`. It is validated by mutation (seeded/LOG.jsonl) only in the sense
  that the theorems notice changed models; that the model is the code rests on review of the cited lines.
* Axioms (all of the standard library) reported by `Print Assumptions` per theorem: see the last section.

## Per property: what is modelled and how it is proved

| id | title | model | method |
|---|---|---|---|
| C01 | Evaluation accounting | ModelAlg | trace invariant: counters = number of evaluation events; induction over input lists |
| C02 | Evaluation budget | ModelAlg | loop guard + bound per pass (restart sizes), induction; stronger reading refuted by run |
| C03 | Serial termination | ModelAlg | lexicographic measure: every two passes increase iteration or cycle count |
| C04 | Authenticity of the result | ModelAlg | provenance invariant: every table row stems from an answer of the trace or from the user |
| C05 | Optimality among evaluated points | ModelAlg | argmin invariant over runs without deletion; deletion witness run |
| C06 | Incumbent bookkeeping | ModelAlg | argmin invariant over runs without deletion; deletion witness run |
| C07 | Alignment of the node tables | ModelAlg | table alignment invariant (suffix relation) over all inputs |
| C08 | Evaluations stay inside the box | ModelAlg, ModelBase | clip/round lemmas + invariant on evaluation events; affine+integer witness |
| C09 | Integrality | ModelAlg, ModelBase | clip/round lemmas + invariant on evaluation events; affine+integer witness |
| C10 | Node separation | ModelAlg | separation invariant; look-up before evaluation across restarts |
| C11 | No point evaluated twice | ModelAlg | separation invariant; look-up before evaluation across restarts |
| C12 | Two-phase discipline | ModelAlg | mode monotonicity and flag invariants; witness runs for the false halves |
| C13 | Noise flags and error bounds | ModelAlg | mode monotonicity and flag invariants; witness runs for the false halves |
| C14 | Error bounds of reused noisy evaluations | ModelAlg | mode monotonicity and flag invariants; witness runs for the false halves |
| C15 | User-supplied points | ModelAlg, ModelInit | exact characterization of the user points merged at the first start |
| C16 | Checkpoint cadence | ModelAlg | events of a pass: save iff interval divides the iteration number |
| C17 | Save/load and resume | ModelPersist | serializer round trip as hypothesis; crash-point case analysis over all chunkings; witnesses |
| C18 | Pause/resume composition | ModelAlg | run composition lemma (fold over appended inputs) with gap freshness side condition; witnesses |
| C19 | Checkpoint atomicity | ModelPersist | serializer round trip as hypothesis; crash-point case analysis over all chunkings; witnesses |
| C20 | Restart keeps history | ModelAlg | prefix relation on histories, monotone counters |
| C21 | Search-step schedule | ModelAlg | step/stall/window automata, invariant with ghost history |
| C22 | Stalling detection | ModelAlg | step/stall/window automata, invariant with ghost history |
| C23 | Fixed variables | ModelCategorical | list induction over the fixed-variable mask and the encoding layout; witness for C24 |
| C24 | Dimension of the returned point | ModelCategorical | list induction over the fixed-variable mask and the encoding layout; witness for C24 |
| C25 | Categorical encoding round trip | ModelCategorical, ModelInit | encode/decode induction on blocks; corner witness |
| C26 | Encoding structure | ModelCategorical | list induction over the fixed-variable mask and the encoding layout; witness for C24 |
| C27 | Categorical bounds and integer variables compress correctly | ModelCategorical, ModelInit | encode/decode induction on blocks; corner witness |
| C28 | Corner initialization with categorical variables | ModelCategorical, ModelInit | encode/decode induction on blocks; corner witness |
| C29 | Domain scaling round trip | ModelAlg (Q transform) | field algebra on lists; witness for bounds with integer variables |
| C30 | Domain scaling in binary64 | ModelFloat | Flocq rounding monotonicity and relative error of sums; witness by computation |
| C31 | Function scaling preserves order | ModelScaling | real analysis (ln monotone), median of sorted list; witnesses |
| C32 | Affine scaling range | ModelScaling | real analysis (ln monotone), median of sorted list; witnesses |
| C33 | Log scaling is defined | ModelScaling | real analysis (ln monotone), median of sorted list; witnesses |
| C34 | Clipping bounds | ModelScaling | real analysis (ln monotone), median of sorted list; witnesses |
| C35 | Optimality gap | ModelAlg | rational algebra of the gap; witness at target 0 |
| C36 | Immediate accurate re-evaluation covers potential optima | ModelAlg | rational algebra of the gap; witness at target 0 |
| C37 | Settings validation | ModelSettings | dictionary induction against the documented table; all-fixed failure |
| C38 | Settings from dictionary | ModelSettings | dictionary induction against the documented table; all-fixed failure |
| C39 | Automatic settings | ModelSettings | dictionary induction against the documented table; all-fixed failure |
| C40 | Automatic domain scaling choice | ModelSettings | dictionary induction against the documented table; all-fixed failure |
| C41 | Initial sample size | ModelInit | arithmetic of sizes, enumeration of corners, permutation per column, retry loop induction |
| C42 | Corner sets | ModelInit | arithmetic of sizes, enumeration of corners, permutation per column, retry loop induction |
| C43 | Latin hypercube | ModelInit | arithmetic of sizes, enumeration of corners, permutation per column, retry loop induction |
| C44 | Initial points are feasible | ModelInit | arithmetic of sizes, enumeration of corners, permutation per column, retry loop induction |
| C45 | Initialization retries | ModelInit | arithmetic of sizes, enumeration of corners, permutation per column, retry loop induction |
| C46 | Target-value index | ModelInit | integer division arithmetic |
| C47 | Rounding of integer bounds | ModelAlg, ModelInit | floor/ceiling; witness |
| C48 | Distances | ModelGeom | argmin/argmax lemmas, norm axioms, bridge between squared and real comparisons |
| C49 | Radial functions | ModelRBF | calculus (derivative signs) for monotonicity; table by cases |
| C50 | Interpolation matrix | ModelRBF | finite sums; list-based linear algebra; solver result assumed to solve its system |
| C51 | Interpolation | ModelRBF | finite sums; list-based linear algebra; solver result assumed to solve its system |
| C52 | Bulk and single model evaluation agree | ModelRBF | finite sums; list-based linear algebra; solver result assumed to solve its system |
| C53 | Dropping redundant categorical columns | ModelRBF | finite sums; list-based linear algebra; solver result assumed to solve its system |
| C54 | Leave-one-out shortcut | ModelRBF | finite sums; list-based linear algebra; solver result assumed to solve its system |
| C55 | Model selection | ModelRBF | minimum over a fold with failure; settings aliasing witness |
| C56 | Removal of close starting points | ModelInit | greedy filter induction |
| C57 | Refinement candidate | ModelRefine, ModelAlg | step-length case analysis, rounding lemmas, sums over blocks, run invariant; witnesses |
| C58 | Integer refinement candidate | ModelRefine, ModelAlg | step-length case analysis, rounding lemmas, sums over blocks, run invariant; witnesses |
| C59 | Categorical rounding | ModelRefine, ModelAlg | step-length case analysis, rounding lemmas, sums over blocks, run invariant; witnesses |
| C60 | Refinement radius | ModelRefine, ModelAlg | step-length case analysis, rounding lemmas, sums over blocks, run invariant; witnesses |
| C61 | Refinement model set | ModelRefine, ModelAlg | step-length case analysis, rounding lemmas, sums over blocks, run invariant; witnesses |
| C62 | Replacement index in model improvement | ModelRefine, ModelAlg | step-length case analysis, rounding lemmas, sums over blocks, run invariant; witnesses |
| C63 | Genetic search invariants | ModelGA | population invariants over all draws |
| C64 | MSRSM score | ModelAux | real algebra of the scores; cardinal interpolant; argmin |
| C65 | Bumpiness objectives | ModelAux | real algebra of the scores; cardinal interpolant; argmin |
| C66 | Symmetric quadratic form | ModelPyomo | double sums, feasible-set equivalences, error bound of the shifted kernels; witnesses |
| C67 | Global-step target and weights | ModelSteps | real algebra of targets, weights and boxes |
| C68 | Local search box | ModelSteps | real algebra of targets, weights and boxes |
| C69 | Restoration | ModelAlg | a point is at distance 0 from a set containing it: no run ever succeeds |
| C70 | Re-evaluation choice | ModelSteps | index bookkeeping and aliasing of error bounds; sign of the quadratic form; witnesses |
| C71 | Least-bumpiness scan leaves data unchanged | ModelSteps | index bookkeeping and aliasing of error bounds; sign of the quadratic form; witnesses |
| C72 | Parallel tables | ModelParallel | invariants of the step machine over every schedule (list of inputs); stuck/failure theorems; witness schedules |
| C73 | Parallel conservation | ModelParallel | invariants of the step machine over every schedule (list of inputs); stuck/failure theorems; witness schedules |
| C74 | Parallel capacity | ModelParallel | invariants of the step machine over every schedule (list of inputs); stuck/failure theorems; witness schedules |
| C75 | Parallel shutdown in noisy mode | ModelParallel | invariants of the step machine over every schedule (list of inputs); stuck/failure theorems; witness schedules |
| C76 | Parallel initialization progress | ModelParallel | invariants of the step machine over every schedule (list of inputs); stuck/failure theorems; witness schedules |
| C77 | Parallel initialization coordinates | ModelParallel | invariants of the step machine over every schedule (list of inputs); stuck/failure theorems; witness schedules |
| C78 | Discard window | ModelAlg | step/stall/window automata, invariant with ghost history |
| C79 | Log and displayed gap | ModelAlg | log events invariant |
| C80 | NaN values | ModelFloat | order on binary64 incl. infinities; NaN propagation through argmin; incumbent invariant |
| C81 | Noisy test black box brackets the truth | ModelTestBB | rational algebra; permutation/index arithmetic; weights sum to one |
| C82 | Enlarged test black box keeps the optimum | ModelTestBB | rational algebra; permutation/index arithmetic; weights sum to one |
| C83 | Noisy interpolation | ModelPyomo | double sums, feasible-set equivalences, error bound of the shifted kernels; witnesses |
| C84 | Command line settings | ModelCLI | dictionary lemmas, induction on the option list |
| C85 | Readiness queries | ModelInit | list induction |
| C86 | Noisy restart with known sample | ModelAlg, ModelParallel | exact case analysis of restart (serial) and of the wait (parallel); witness runs |
| C87 | At least two starting points | ModelAlg, ModelParallel | exact case analysis of restart (serial) and of the wait (parallel); witness runs |
| C88 | User starting points and fixed variables | ModelCategorical, ModelAlg | dimension argument on the constructor |
| C89 | Maximin design | ModelInit | argmax over generated designs |
| C90 | Most common model choice | ModelInit | list induction |
| C91 | Scaled errors and later values | ModelScaling | real analysis (ln monotone), median of sorted list; witnesses |
| C92 | Model-improving point | ModelRefine, ModelAlg | step-length case analysis, rounding lemmas, sums over blocks, run invariant; witnesses |
| C93 | Refinement data along a run | ModelRefine, ModelAlg | step-length case analysis, rounding lemmas, sums over blocks, run invariant; witnesses |
| C94 | Reported improvement of a model-improving point | ModelRefine, ModelAlg | step-length case analysis, rounding lemmas, sums over blocks, run invariant; witnesses |
| C95 | Bumpiness is non-negative | ModelSteps | index bookkeeping and aliasing of error bounds; sign of the quadratic form; witnesses |
| C96 | Re-evaluation candidates | ModelSteps | index bookkeeping and aliasing of error bounds; sign of the quadratic form; witnesses |
| C97 | Local step aims below the best value | ModelSteps | real algebra of targets, weights and boxes |
| C98 | Genetic mutation size | ModelGA | population invariants over all draws |
| C99 | Sampling searches choose the best sample | ModelAux | real algebra of the scores; cardinal interpolant; argmin |
| C100 | Inverse matrix with categorical variables | ModelAux | block elimination on lists |
| C101 | Objective handed to the solver is the surrogate | ModelPyomo | double sums, feasible-set equivalences, error bound of the shifted kernels; witnesses |
| C102 | Feasible set of the auxiliary problems | ModelPyomo | double sums, feasible-set equivalences, error bound of the shifted kernels; witnesses |
| C103 | Distance problems | ModelPyomo | double sums, feasible-set equivalences, error bound of the shifted kernels; witnesses |
| C104 | Solver objectives of Gutmann's method | ModelPyomo | double sums, feasible-set equivalences, error bound of the shifted kernels; witnesses |
| C105 | Failed save | ModelPersist | serializer round trip as hypothesis; crash-point case analysis over all chunkings; witnesses |
| C106 | Wall clock limit | ModelPersist | serializer round trip as hypothesis; crash-point case analysis over all chunkings; witnesses |
| C107 | Parallel evaluation budget | ModelParallel | invariants of the step machine over every schedule (list of inputs); stuck/failure theorems; witness schedules |
| C108 | Parallel iterations and pause | ModelParallel | invariants of the step machine over every schedule (list of inputs); stuck/failure theorems; witness schedules |
| C109 | Parallel refinement resumes | ModelParallel | invariants of the step machine over every schedule (list of inputs); stuck/failure theorems; witness schedules |
| C110 | Parallel superseded evaluations | ModelParallel | invariants of the step machine over every schedule (list of inputs); stuck/failure theorems; witness schedules |
| C111 | Parallel failure of linear algebra without model selection | ModelParallel | invariants of the step machine over every schedule (list of inputs); stuck/failure theorems; witness schedules |
| C112 | Parallel leftovers and linear algebra | ModelParallel | invariants of the step machine over every schedule (list of inputs); stuck/failure theorems; witness schedules |
| C113 | Parallel node tables and incumbents | ModelParallel | invariants of the step machine over every schedule (list of inputs); stuck/failure theorems; witness schedules |
| C114 | Parallel evaluation points | ModelParallel | invariants of the step machine over every schedule (list of inputs); stuck/failure theorems; witness schedules |
| C115 | Parallel results are not wasted | ModelParallel | invariants of the step machine over every schedule (list of inputs); stuck/failure theorems; witness schedules |
| C116 | Points returned for solver answers | ModelLinear | coordinatewise analysis of rounding; extremal characterization; witnesses |
| C117 | Linear model of the refinement step | ModelLinear | normal equations; rank-nullity by elimination |
| C118 | Interpolation with few nodes | ModelLinear, ModelRBF | definiteness of the five basis functions proved from scratch (Gaussian through powers of inner products; the others as growing families whose derivative is a definite form, by monotonicity and limits, without integration); injectivity of the system; least squares by normal equations |
| C119 | Starting point of the external solver | ModelLinear | coordinatewise analysis of rounding; extremal characterization; witnesses |
| C120 | Estimates for pending evaluations | ModelLinear | composition with C51/C118; witness |
| C121 | Interpolation is well posed | ModelLinear, ModelRBF | definiteness of the five basis functions proved from scratch (Gaussian through powers of inner products; the others as growing families whose derivative is a definite form, by monotonicity and limits, without integration); injectivity of the system; least squares by normal equations |
| C122 | Gutmann's measure is positive | ModelAux, ModelPyomo, ModelRBF | sign of the quadratic form on vectors with side conditions |
| C123 | Refitting with noisy nodes is convex | ModelAux, ModelPyomo, ModelRBF | sign of the quadratic form on vectors with side conditions |
| C124 | Leave-one-out never divides by zero | ModelAux, ModelPyomo, ModelRBF | sign of the quadratic form on vectors with side conditions |
| C125 | From declared problem to black box calls | ModelProblem, ModelCategorical, ModelInit, ModelGA, ModelAlg, ModelParallel | region invariants of the runs composed with encoding/decoding lemmas; concrete end-to-end runs |
| C126 | From declared problem to parallel calls | ModelProblem, ModelCategorical, ModelInit, ModelGA, ModelAlg, ModelParallel | region invariants of the runs composed with encoding/decoding lemmas; concrete end-to-end runs |
| C127 | The constructor | ModelProblem, ModelSettings | case analysis of the constructor; induction on the calls; witnesses |
| C128 | All variables fixed | ModelProblem, ModelSettings | case analysis of the constructor; induction on the calls; witnesses |
| C129 | Black boxes built from functions | ModelProblem, ModelAlg | length invariant of the run |
| C130 | Parallel refinement | ModelParallel | one-step case analysis, invariant over runs, concrete run for the refutation |
| C131 | Automatic choice of the RBF type in parallel | ModelParallel | one-step case analysis, invariant over runs, concrete run for the refutation |
| C132 | Noisy-evaluation budget | ModelAlg | invariant over reachable states |
| C133 | Parallel reuse of evaluations | ModelParallel | invariant of the flag over one call; concrete runs |
| C134 | Finite search spaces | ModelAlg, ModelProblem, ModelInit | distinctness invariant over runs; counting and pigeonhole; concrete runs |
| C135 | Choice of the surrogate model over a run | ModelSelect, ModelRBF | invariant relating the recorded lists to the history of turns and failures |
| C136 | Model failures in parallel mode | ModelSelect, ModelRBF | invariant relating the recorded lists to the history of turns and failures |
| C137 | Automatic function scaling over a run | ModelAutoScale | induction over the run; counting in the sorted list |
| C138 | Benchmark functions: declarations and domain | ModelBench, ModelBenchData | check of the declarations by computation; domain conditions proved for all points |
| C139 | Benchmark functions: declared optima that are right | ModelBench, ModelBenchData | completing squares, verified branch and bound, nearest-ratio search, series bounds of exp/ln/cos/sin; interpolation property of the Schoen functions |
| C140 | Benchmark functions: declared optima that are beaten | ModelBench, ModelBenchData | better points evaluated with rational enclosures of exp and cos |
| C141 | What cross validation measures | ModelQuality, ModelRBF | leave-one-out formula (C124), permutation of the nodes, ranks as counts |
| C142 | Cross validation with categorical variables | ModelQuality, ModelRBF, ModelSelect | explicit kernel vector; induction over iterations |
| C143 | Benchmark functions: families | ModelBench, ModelBenchData | case analysis on the category; equality of the interpolation sums |
| C144 | The benchmark interface | ModelTestMain, ModelCLI, ModelSettings | induction over the options; C37/C84 for the settings; C139 for the target |
| C145 | Noisy evaluation budget in parallel mode | ModelParallel | invariant over pstep: noisy submissions bounded by limit plus in-flight work |
| C146 | Why optimize stops | ModelAlg, ModelParallel | invariant: the gap always belongs to a value of the history; C06/C113 for the incumbents; exactness of single-phase rows |
| C147 | When exactly the optimizer restarts | ModelAlg, ModelParallel | case analysis of a pass / of the planning step; counting of restarts in the trace |
| C148 | Which record a re-evaluation removes | ModelParallel | case analysis of all steps over the log of rows |
| C149 | Parallel evaluations are not repeated or wasted | ModelParallel | invariant over pstep: nodes and pending points apart; where every submitted point is now |
| C150 | Parallel termination | ModelParallel | potential function over pstep: every step that is not a wait decreases it |
| C151 | Random streams | ModelRandom | induction over the tasks; the numbers a worker used are an initial segment of the sequence of the seed |
| C152 | The summary line | ModelSummary, ModelAlg, ModelParallel | invariant: fbest is at most every recorded value and was produced; C06/C113 without noise |
| C153 | All optima of branin | ModelOptima, ModelBench | the value is the minimum iff the square vanishes and the factor is -1; zeros of the sine |
| C154 | When refinement steps are made | ModelAlg | exact case analysis of a pass; invariant relating the counter of the phase to the executed steps in the trace; witness runs |
| C155 | Symmetries of the surrogate | ModelRBF, ModelBase | an explicit interpolant of the transformed problem; uniqueness of the interpolant (C121) |
| C156 | Runs of the external solvers | ModelExternal | case analysis of the calls; the option dictionary as a map; the generator as a sequence |
| C157 | Finite search spaces in parallel mode | ModelParallel, ModelProblem | invariant: all points ever sent are pairwise apart (C149); injection into the grid of integer points |
| C158 | The stopping test in doubles | ModelFloatRun | monotone rounding; error of one subtraction and one division (Flocq); class analysis for infinities and NaN |
| C159 | Proposed points in doubles | ModelFloatRun | order on binary64; rounding to integers (Flocq); induction over the summation trees |
| C160 | Value rescaling in doubles | ModelFloatValues | monotone rounding; sorting and counting for the median; error of subtraction and division (Flocq); witnesses by computation |
| C161 | Single categorical variable | ModelRank, ModelInit, ModelCategorical | computation of the one-variable design and its encoding; the zero row; induction over the attempts |

## Assumptions of each theorem (`Print Assumptions`)

**Closed under the global context** (no axioms) - 291 theorems:

C00_calls_reach, C01_evaluation_accounting, C02_budget, C02_no_iteration_at_the_limit, C02_strict_refuted, C03_serial_termination, C04_result_is_authentic, C05_result_is_best, C05_two_phase_refuted, C06_incumbents, C06_two_phase_refuted, C07_tables_aligned, C08_affine_with_integers_refuted, C08_inside_the_box, C09_integrality, C10_affine_sample_refuted, C10_any_scaling, C10_node_separation, C11_no_repeated_evaluation, C12_phase_ends, C12_single_phase_never_noisy, C12_switch_is_final, C13_accurate_recorded_noisy_refuted, C13_accurate_records_have_no_error, C13_single_phase_records_are_accurate, C14_recorded_bounds, C14_reuse_fails_refuted, C14_reused_errors_refuted, C15_user_points, C16_checkpoint_cadence, C17_checkpoint, C17_resume, C17_save_is_transparent, C18_gap_up_to_date, C18_pause_at_zero_refuted, C18_pause_resume, C18_stale_gap_refuted, C19_atomicity_refuted, C19_completed, C19_crash_points, C20_history_only_grows, C20_monotone_counters, C20_restart_keeps_history, C21_back_to_first_step_refuted, C21_cyclic_advance, C21_refinement_ends_in_a_new_cycle, C21_steps_are_defined, C22_iteration, C22_restart_resets, C22_stalling, C23_categorical_value, C23_fixed_variables, C24_dimension_refuted, C24_returned_dimension, C24_returned_is_evaluated, C24_without_fixed, C25_decoders_agree, C25_decoders_differ_off_codes_refuted, C25_round_trip, C26_encoding_structure, C27_compressed_bounds, C28_corner_category_refuted, C28_lhd_categories_in_range, C29_corners, C29_identity, C29_round_trip, C29_scaled_bounds_with_integers_refuted, C29_unit_cube_to_box, C35_gap, C36_followed, C36_potential_optimum, C36_target_zero_refuted, C37_accepted_settings_fail_refuted, C37_invalid_raises, C37_settings_validation, C37_zero_interval_never_completes, C38_constructor_keeps_values, C38_from_dictionary, C38_unknown_name_raises_ValueError, C39_auto_idempotent, C39_auto_resolves, C39_auto_values, C39_user_object_untouched, C40_automatic_domain_scaling, C40_fails_only_when_all_fixed, C41_at_least_two, C41_awaited_at_most_requested, C41_monotone, C42_all_corners, C42_lower_corners, C42_random_corners, C42_random_corners_end, C43_one_sample_per_interval, C44_initial_points_feasible, C45_last_attempt_refuted, C45_succeeds_iff, C46_assumed_points, C46_few_points_refuted, C46_index_formula, C46_order_statistic, C47_evaluated_outside_refuted, C47_never_enlarges_refuted, C47_rounded_bounds, C56_dropped_near_kept_refuted, C56_first_sorted_separated, C56_kept_points, C60_radius, C60_update, C61_limit, C61_update, C61_update_exact, C62_index_refuted, C63_best_never_worse, C63_fractional_categories_refuted, C63_population, C63_result, C69_failed_solve, C69_failed_solve_exact, C69_restoration_never_succeeds, C69_restoration_refuted, C72_estimates_in_range, C72_recorded_where_made, C72_temporary_nodes_aligned, C73_counters, C73_every_evaluation_has_one_fate, C73_history_is_the_log, C73_nothing_pending_at_exit, C74_capacity, C74_without_premise_refuted, C75_accurate_recorded, C75_shutdown_refuted, C76_corner_strategies_refuted, C76_progress, C76_sample_large_enough, C76_single_variable_refuted, C76_small_sample_never_resumes, C76_small_sample_never_starts, C76_waits_forever_refuted, C77_leftover_misplaced_refuted, C77_recorded_where_made_unscaled, C78_restart_reasons, C78_window_bounded, C78_window_holds_last_outcomes, C79_displayed_gap_never_increases, C79_star, C81_noisy_brackets_truth, C82_enlarged_keeps_optimum, C84_bad_log_file_fails, C84_invalid_settings_raise, C84_load_ignores_settings, C84_options_are_parameters, C84_points_file, C84_rejected_iff, C84_settings_reach_optimizer, C84_valid_command_line_succeeds, C84_wrong_width_passed_on, C85_ready_index, C85_results_ready, C86_accurate_restart, C86_exactly_when, C86_noisy_restart_fails_refuted, C86_parallel_known_sample, C87_single_start_point_fails, C87_single_start_point_refuted, C88_accepted_dimension, C88_evaluated_at_user_point, C88_full_dimension_rejected_refuted, C89_maximin_design, C90_most_common, C93_after_failure_refuted, C93_indices_valid, C93_starts_at_best, C98_few_variables, C98_max_size, C98_mutation_in_bounds, C98_mutation_size, C98_one_variable, C98_wasted_individual, C105_failed_save, C106_call_limit, C106_total_limit_refuted, C107_parallel_budget, C107_parallel_budget_single_phase, C107_strict_refuted, C108_exact_pause_refuted, C108_parallel_iterations, C108_parallel_iterations_single_phase, C109_refinement_never_again, C109_refinement_resumes_refuted, C110_superseded_result_is_lost_refuted, C111_failed_linear_algebra_crashes, C111_failed_solve_exact, C112_leftovers_and_singular_system, C113_incumbents, C113_tables_aligned, C114_affine_noisy_refuted, C114_inside_the_box, C114_integral, C115_accurate_evaluations_are_recorded, C115_dropped_results, C119_given, C125_evaluations_declared, C125_own_search, C125_result_declared, C125_unchecked_points_refuted, C126_parallel_evaluations_declared, C127_accepted, C127_budget, C127_settings_used, C127_too_few_points_refuted, C128_all_fixed_default_refuted, C128_all_fixed_result, C129_user_function_total, C130_continues, C130_discard, C130_limit_not_enforced_refuted, C130_plan, C130_update, C131_bound, C131_selection, C132_large_sample_refuted, C132_noisy_budget, C132_restart_limit_refuted, C133_error_bounds_refuted, C133_needs_result, C133_reuse_fails_refuted, C134_categorical_refuted, C134_exhaustive, C134_repeated_sample_refuted, C134_size, C134_stops, C135_failed_model_dropped_refuted, C135_final, C135_latest, C135_origin, C135_user_model, C135_when, C136_parallel, C136_user_model_raises_refuted, C137_algorithm, C144_letter_case, C145_after_phase, C145_parallel_noisy_budget, C145_phase_ends, C145_strict_refuted, C146_error_interval, C146_evaluation_then_stop, C146_later_calls_return, C146_no_restart_then_stop, C146_parallel_evaluation_then_stop, C146_parallel_later_calls, C146_parallel_reason, C146_parallel_restart_keeps_gap, C146_parallel_restart_sample_refuted, C146_parallel_stops_iff, C146_reason_to_stop, C146_restart_sample_refuted, C146_stops_iff, C147_due, C147_iff, C147_parallel, C147_parallel_only, C148_nothing_else, C148_row_removed, C149_exception_refuted, C149_nothing_thrown_away, C149_proposals_are_new, C149_samples_are_new, C150_parallel_termination, C150_waiting_unbounded_refuted, C151_blocks, C151_calls_repeat, C151_creation_restarts, C151_independence_refuted, C151_one_by_one, C151_reproducible, C151_same_work_same_results, C151_workers_share_stream, C152_no_noise, C152_parallel, C152_shown, C152_two_phase_refuted, C154_begins, C154_continues, C154_ends, C154_frequency_refuted, C154_limit, C157_categorical_refuted, C157_exhaustive, C157_stops, C161_single_categorical_fails_refuted.

**ClassicalDedekindReals.sig_forall_dec, FunctionalExtensionality.functional_extensionality_dep** - 61 theorems:

C33_log_arguments, C33_log_arguments_with_clipping_refuted, C34_clipping, C55_selection, C55_selection_with_failure, C55_settings_unchanged_refuted, C59_choice, C59_round_categorical, C59_share, C61_model_set, C62_index_range, C66_only_symmetric, C66_triangular, C67_decreasing_weight_refuted, C67_distance_weight, C67_distance_weight_last, C67_target, C67_target_at_most_minimum_refuted, C67_target_scaling, C68_fractional_bound_refuted, C68_global_step_box, C68_local_box, C71_bounds_changed, C71_bounds_unchanged_refuted, C71_never_again, C71_scan_effect, C92_improving_point, C96_any_target_refuted, C96_candidates_can_take_target, C97_local_step_aims_below, C99_best_sample, C102_categorical_missing, C102_feasible_set, C102_valid_point_refuted, C116_clipped_refuted, C116_failure, C116_recovers, C116_valid_point, C117_best_fit, C117_few_points, C117_flag, C117_underdetermined_flag_refuted, C119_distance_start, C119_feasible_start_refuted, C119_random_in_box, C121_unisolvence, C135_rated, C135_unrated_refuted, C137_auto, C137_user, C140_gear_refuted, C143_gear4_category_ignored, C156_coefficients, C156_draws, C156_limits, C156_limits_noisy, C156_method, C156_method_local, C156_missing, C156_point, C156_start.

**ClassicalDedekindReals.sig_forall_dec, ClassicalDedekindReals.sig_not_dec, Classical_Prop.classic, FunctionalExtensionality.functional_extensionality_dep** - 123 theorems:

C30_lower_bound_kept, C30_outside_bounds_refuted, C30_round_trip_outside_refuted, C30_scaled_inside_unit_cube, C30_wide_bounds_never_finite, C31_order, C32_affine_range, C49_shape, C49_values, C50_interpolation_matrix, C51_interpolation, C51_with_zeroed_entries, C52_bulk_evaluation, C53_dropped_columns, C54_leave_one_out, C54_small_weight, C64_dominance, C64_ideal_point, C64_infinite, C64_range, C64_strict_dominance, C65_bumpiness_meaning, C65_mu_documented_refuted, C65_mu_offset, C65_mu_ranking, C65_zero_at_nodes, C66_inverse_symmetric, C70_least_bumpiness_refuted, C80_best_value_lost_refuted, C80_indices, C80_internal_best_ignores_nan, C80_nan_in_sample_blinds_run, C80_nan_is_returned, C80_without_nan_minimum_returned, C83_feasible_set, C83_feasible_start, C83_refit, C83_smoother, C91_rescale_order, C91_rescale_order_refuted, C91_scaled_errors, C95_negative_everywhere_refuted, C95_nonnegative, C95_nonnegative_bumpiness_refuted, C99_too_close, C100_bumpiness, C100_categorical, C100_inverse, C101_msrsm_dominance, C101_surrogate_error, C101_surrogate_exact, C104_bumpiness, C104_one_over_mu, C118_routes_agree, C118_underdetermined, C120_affine_collapses, C120_node_value_refuted, C120_range, C120_submitted, C120_unscaled, C121_degenerate_refuted, C121_duplicates_refuted, C121_exists, C121_never_fails, C121_unique, C122_mu, C122_objective, C123_bumpiness_nonnegative, C123_polynomial, C123_unique_weights, C124_leave_one_out, C138_benchmarks_declared, C138_evaluation_defined, C139_branin_attained, C139_declared_optimum_is_minimum, C139_declared_optimum_near_minimum, C140_declared_optimum_beaten_refuted, C141_estimate, C141_predictions_determined, C141_selection, C142_accurate_phase, C142_full_system_singular, C142_run, C142_selection_blind, C143_categorical_extends_plain, C144_accepted_iff, C144_target_is_minimum, C144_target_option_ignored, C144_what_is_optimized, C153_branin_cat_complete_refuted, C153_branin_cat_declared, C153_branin_cat_minimizers, C153_branin_declared, C153_branin_minimizers, C155_affine_objective, C155_constant_objective, C155_constant_objective_refuted, C155_domain_scaling, C155_moved, C155_order_of_points, C155_superposition, C155_unit_of_length, C155_unit_of_length_refuted, C155_values, C155_variables, C158_accuracy, C158_goes_on_only_above_target, C158_monotone, C158_no_target_refuted, C159_clipped, C159_discard_accuracy, C159_distance, C159_distance_accuracy, C159_nan_point_discarded_refuted, C159_rounding, C159_same_point_discarded, C159_zero_distance_refuted, C160_affine_accuracy, C160_cutoff, C160_finite_refuted, C160_strict_order_refuted, C160_unscaled, C160_values.

**ClassicalDedekindReals.sig_forall_dec, ClassicalDedekindReals.sig_not_dec, FunctionalExtensionality.functional_extensionality_dep** - 22 theorems:

C48_bulk_agrees, C48_farthest_node, C48_metric, C48_nearest_node, C48_norm, C48_squared_comparisons, C57_candidate, C57_progress, C57_step, C58_rounding, C58_step_improvement, C58_within_radius, C58_within_radius_refuted, C61_centre_first, C61_radius, C70_nearest_node, C94_difference_refuted, C99_maximin, C103_distance_constraint, C103_far_enough, C103_far_enough_suffices_refuted, C103_maximin.

**ClassicalDedekindReals.sig_forall_dec** - 3 theorems:

C49_tail, C94_reported_value, C118_route.

