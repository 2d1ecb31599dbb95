{"id": "C01", "title": "Evaluation accounting", "statement": "The evaluation counters returned by optimize() (serial mode) are exactly the number of calls to the black box's evaluate() and evaluate_noisy() made since the object was built: no call is unreported, none is counted twice.", "quantifier": "all settings, all black boxes and black-box answers, all search-step outcomes, linear-algebra failures and clock behaviours, all numbers of iterations, restarts and successive optimize() calls", "why_tests_cant": "a test follows one run; the counter is updated at seven places (restart, user points, noisy, accurate, re-evaluation, all-fixed) and must agree with the calls on every interleaving of them", "anchors": ["src/rbfopt/rbfopt_algorithm.py:optimize_serial", "src/rbfopt/rbfopt_algorithm.py:restart", "src/rbfopt/rbfopt_algorithm.py:optimize", "src/rbfopt/rbfopt_algorithm.py:objfun"]}
{"id": "C02", "title": "Evaluation budget", "statement": "Serial optimize() begins no iteration once the number of accurate evaluations has reached max_evaluations, and with S the largest initial sample (including user points) the total never exceeds the larger of (evaluations before the call + S) and (max_evaluations - 1 + max(2S, S+1)): one iteration can contain two restarts. The stronger reading 'at most max_evaluations evaluations are made' is false.", "quantifier": "all settings, black boxes and histories", "why_tests_cant": "the overshoot depends on where in the history a restart happens relative to the limit", "anchors": ["src/rbfopt/rbfopt_algorithm.py:optimize_serial", "src/rbfopt/rbfopt_algorithm.py:restart"]}
{"id": "C03", "title": "Serial termination", "statement": "Serial optimize() always stops: the main loop performs at most 2*((max_iterations - iterations already done) + (max_cycles - cycles already done)) + 1 passes, whatever the black box, the auxiliary solvers, the linear algebra and the clock do.", "quantifier": "all settings, histories, oracles", "why_tests_cant": "non-termination is a statement about all infinite schedules of failures; a test cannot run them", "anchors": ["src/rbfopt/rbfopt_algorithm.py:optimize_serial", "src/rbfopt/rbfopt_algorithm.py:advance_step_counter", "src/rbfopt/rbfopt_algorithm.py:refinement_update", "src/rbfopt/rbfopt_algorithm.py:restart"]}
{"id": "C04", "title": "Authenticity of the result", "statement": "The (value, point) returned by optimize() was actually produced by the black box: the value is the answer of an evaluate()/evaluate_noisy() call recorded for exactly that point, or a value supplied by the user for it. It is never a model prediction nor a value recorded for another point.", "quantifier": "all histories of the serial optimizer, including restarts and reuse of earlier evaluations", "why_tests_cant": "values and coordinates live in parallel arrays updated at many sites; one misaligned update anywhere breaks it only on some histories", "anchors": ["src/rbfopt/rbfopt_algorithm.py:add_node", "src/rbfopt/rbfopt_algorithm.py:add_noisy_node", "src/rbfopt/rbfopt_algorithm.py:remove_node", "src/rbfopt/rbfopt_algorithm.py:restart", "src/rbfopt/rbfopt_algorithm.py:optimize"]}
{"id": "C05", "title": "Optimality among evaluated points", "statement": "The value returned by optimize() is no larger than every value the black box has returned so far. It holds for every run without two-phase (noisy) evaluation; with two-phase evaluation the re-evaluation of a point deletes its old record and the claim is false.", "quantifier": "all serial histories", "why_tests_cant": "the loss only shows on histories where the deleted record was the incumbent", "anchors": ["src/rbfopt/rbfopt_algorithm.py:optimize", "src/rbfopt/rbfopt_algorithm.py:remove_node", "src/rbfopt/rbfopt_algorithm.py:local_step"]}
{"id": "C06", "title": "Incumbent bookkeeping", "statement": "At every point of a run the incumbent used for the stopping test and the incumbent of the current restart are the minimum, and the index stored with it is the first position attaining it, of all recorded values (resp. of the values recorded since the last restart), as long as no record has been deleted; after a deletion (two-phase mode) the incumbent value can be one that is recorded nowhere and its index can designate a node with another value.", "quantifier": "all sequences of insertions, restarts and deletions", "why_tests_cant": "index staleness depends on the order of insertions and deletions", "anchors": ["src/rbfopt/rbfopt_algorithm.py:add_node", "src/rbfopt/rbfopt_algorithm.py:remove_node", "src/rbfopt/rbfopt_algorithm.py:restart"]}
{"id": "C07", "title": "Alignment of the node tables", "statement": "At every reachable state the coordinate, value, noise-flag and error-bound tables have the same length, and the nodes of the current restart are exactly the tail of the complete history (same values, flags and error bounds; coordinates related by the domain scaling).", "quantifier": "all sequences of insert / noisy insert / delete / restart", "why_tests_cant": "an invariant over unbounded operation sequences", "anchors": ["src/rbfopt/rbfopt_algorithm.py:add_node", "src/rbfopt/rbfopt_algorithm.py:add_noisy_node", "src/rbfopt/rbfopt_algorithm.py:remove_node", "src/rbfopt/rbfopt_algorithm.py:restart"]}
{"id": "C08", "title": "Evaluations stay inside the box", "statement": "Every point passed to the black box during the main loop satisfies the (rounded) variable bounds, for every domain_scaling the automatic setting can choose. With domain_scaling='affine' forced on a problem with integer variables the claim is false.", "quantifier": "all bounds, histories and all points proposed by the auxiliary solvers (even out of bounds)", "why_tests_cant": "the proposed points come from external solvers and random search; only a proof covers all of them", "anchors": ["src/rbfopt/rbfopt_algorithm.py:optimize_serial", "src/rbfopt/rbfopt_utils.py:transform_domain", "src/rbfopt/rbfopt_utils.py:transform_domain_bounds"]}
{"id": "C09", "title": "Integrality", "statement": "Every point passed to the black box has integer values for the integer variables, provided each proposed point is integral before clipping; clipping against the rounded bounds preserves integrality.", "quantifier": "all points, bounds, sets of integer variables", "why_tests_cant": "real-valued universally quantified input", "anchors": ["src/rbfopt/rbfopt_utils.py:round_integer_vars", "src/rbfopt/rbfopt_utils.py:round_integer_bounds", "src/rbfopt/rbfopt_algorithm.py:optimize_serial"]}
{"id": "C10", "title": "Node separation", "statement": "Within one restart, any two interpolation nodes are more than min_dist apart (in the scaled space), provided the initial sample is; points closer than that are discarded, never evaluated. Iterations never break the separation whatever the scaling; a starting sample can, because with affine scaling its distances are measured before scaling.", "quantifier": "all histories and proposals", "why_tests_cant": "holds by induction over iterations; tests see finitely many", "anchors": ["src/rbfopt/rbfopt_algorithm.py:optimize_serial", "src/rbfopt/rbfopt_utils.py:get_min_distance", "src/rbfopt/rbfopt_algorithm.py:restart"]}
{"id": "C11", "title": "No point evaluated twice", "statement": "In single-phase serial mode with no domain scaling, no two accurate evaluations of the main loop are made at points closer than eps_zero, also across restarts: a point evaluated before a restart is looked up, not evaluated again.", "quantifier": "all histories with any number of restarts", "why_tests_cant": "requires tracking all evaluations across restarts", "anchors": ["src/rbfopt/rbfopt_algorithm.py:optimize_serial", "src/rbfopt/rbfopt_algorithm.py:restart", "src/rbfopt/rbfopt_algorithm.py:remove_existing_nodes"]}
{"id": "C12", "title": "Two-phase discipline", "statement": "evaluate_noisy() is never called on a black box whose has_evaluate_noisy() is False; the evaluation mode only ever moves from noisy to accurate; after the switch no noisy evaluation is made.", "quantifier": "all histories", "why_tests_cant": "temporal property of all runs", "anchors": ["src/rbfopt/rbfopt_algorithm.py:phase_update", "src/rbfopt/rbfopt_algorithm.py:optimize_serial", "src/rbfopt/rbfopt_algorithm.py:restart"]}
{"id": "C13", "title": "Noise flags and error bounds", "statement": "A node recorded as accurate carries error bounds (0,0), and a node evaluated with evaluate() is recorded as accurate. The second half is false after a restart that evaluates accurately because a noisy limit was reached: those nodes are recorded as noisy.", "quantifier": "all histories", "why_tests_cant": "the wrong branch is only reachable with particular limits and restart counts", "anchors": ["src/rbfopt/rbfopt_algorithm.py:restart", "src/rbfopt/rbfopt_algorithm.py:add_node", "src/rbfopt/rbfopt_algorithm.py:add_noisy_node"]}
{"id": "C14", "title": "Error bounds of reused noisy evaluations", "statement": "When a noisy evaluation made before a restart is reused, it is recorded with the error bounds that evaluation returned. False: the bounds recorded are those of the most recent noisy evaluation made by an iteration of the current call, and if there is none the program fails.", "quantifier": "all two-phase histories", "why_tests_cant": "needs a restart, a re-proposal of an old point and a noisy phase at once", "anchors": ["src/rbfopt/rbfopt_algorithm.py:optimize_serial"]}
{"id": "C15", "title": "User-supplied points", "statement": "A user-supplied starting point with a supplied value is recorded with that value and without evaluation; user points that are within min_dist of a generated sample or of an earlier user point are skipped, and only those.", "quantifier": "all lists of user points, values and generated samples", "why_tests_cant": "quantifies over arbitrary point sets", "anchors": ["src/rbfopt/rbfopt_algorithm.py:restart", "src/rbfopt/rbfopt_algorithm.py:__init__"]}
{"id": "C16", "title": "Checkpoint cadence", "statement": "The optimizer state is saved exactly after the iterations whose number is a multiple of save_state_interval, and at no other time.", "quantifier": "all histories and intervals", "why_tests_cant": "temporal, all histories", "anchors": ["src/rbfopt/rbfopt_algorithm.py:optimize_serial", "src/rbfopt/rbfopt_algorithm.py:save_to_file"]}
{"id": "C17", "title": "Save/load and resume", "statement": "Resuming from a saved state continues exactly as the uninterrupted run would: loading what was saved restores every attribute (except the output stream) and the random generator, so the two runs perform the same evaluations in the same order.", "quantifier": "all states, all later inputs", "why_tests_cant": "equivalence of two unbounded executions", "anchors": ["src/rbfopt/rbfopt_algorithm.py:save_to_file", "src/rbfopt/rbfopt_algorithm.py:load_from_file"]}
{"id": "C18", "title": "Pause/resume composition", "statement": "optimize(pause_after_iters=a) followed by optimize(pause_after_iters=b) performs the same evaluations and reaches the same state as optimize(pause_after_iters=a+b), when at least one iteration was done before the pause. It needs the stopping gap to be up to date at the pause, which holds unless a restart happened in the first call. When no iteration was done (a = 0) the second call initializes again and the claim is false; after a restart inside the call the uninterrupted run can go on past a reached target while the resumed one stops.", "quantifier": "all a, b, states, oracles", "why_tests_cant": "equivalence of executions for all split points", "anchors": ["src/rbfopt/rbfopt_algorithm.py:optimize", "src/rbfopt/rbfopt_algorithm.py:optimize_serial"]}
{"id": "C19", "title": "Checkpoint atomicity", "statement": "A crash at any point during saving leaves either the old or the new checkpoint readable. False: the file is truncated before the new content is written, so there are crash points after which neither is readable; only crashes before the open or after the close are safe.", "quantifier": "all crash points and file contents", "why_tests_cant": "crash points", "anchors": ["src/rbfopt/rbfopt_algorithm.py:save_to_file"]}
{"id": "C20", "title": "Restart keeps history", "statement": "A restart never alters or drops any record made before it: the complete history before the restart is a prefix of the history after it, evaluation counters never decrease, and the best value so far never gets worse.", "quantifier": "all states and restart samples", "why_tests_cant": "all states", "anchors": ["src/rbfopt/rbfopt_algorithm.py:restart"]}
{"id": "C21", "title": "Search-step schedule", "statement": "The search step is always one of the defined steps; steps advance cyclically inf-step, global steps 1..g, local search, and the cycle counter increases exactly when the step number wraps around; the steps the user disabled are never executed (if at least one kind of step is enabled); a refinement phase ends in a new cycle. 'It returns to the first step' is false: after a discarded refinement point the next step is 1 even if the infinity step is enabled.", "quantifier": "all settings and histories", "why_tests_cant": "all histories", "anchors": ["src/rbfopt/rbfopt_algorithm.py:advance_step_counter", "src/rbfopt/rbfopt_algorithm.py:optimize_serial", "src/rbfopt/rbfopt_algorithm.py:refinement_update"]}
{"id": "C22", "title": "Stalling detection", "statement": "The number of stalled iterations is exactly the number of iterations since the last one that improved the reference value by at least eps_impr*max(1,|reference|), counted from the last restart.", "quantifier": "all sequences of values", "why_tests_cant": "all sequences", "anchors": ["src/rbfopt/rbfopt_algorithm.py:stalling_update", "src/rbfopt/rbfopt_algorithm.py:restart"]}
{"id": "C23", "title": "Fixed variables", "statement": "Every point passed to the black box has the full dimension, with each fixed variable at its lower bound in its original position and the free variables in their original order.", "quantifier": "all subsets of fixed variables, all points", "why_tests_cant": "all index sets", "anchors": ["src/rbfopt/rbfopt_algorithm.py:__init__", "src/rbfopt/rbfopt_algorithm.py:objfun", "src/rbfopt/rbfopt_algorithm.py:objfun_noisy"]}
{"id": "C24", "title": "Dimension of the returned point", "statement": "The point returned by optimize() has the dimension of the black box and evaluates to the returned value. False when some variables are fixed: fixed variables are missing from the returned point.", "quantifier": "all problems", "why_tests_cant": "depends on the set of fixed variables", "anchors": ["src/rbfopt/rbfopt_algorithm.py:optimize"]}
{"id": "C25", "title": "Categorical encoding round trip", "statement": "Encoding a point whose categorical values are in range and decoding it gives back the same point; decoding used by the black-box call and decoding used for the returned point agree on every encoded point.", "quantifier": "all numbers, positions and ranges of categorical variables, all points", "why_tests_cant": "all index layouts", "anchors": ["src/rbfopt/rbfopt_utils.py:expand_categorical_vars", "src/rbfopt/rbfopt_utils.py:compress_categorical_vars", "src/rbfopt/rbfopt_algorithm.py:objfun", "src/rbfopt/rbfopt_algorithm.py:__init__"]}
{"id": "C26", "title": "Encoding structure", "statement": "The encoded representation built at construction has the non-categorical variables first, in order, followed by one contiguous, disjoint block of 0/1 integer variables per categorical variable, of size upper-lower+1, covering every index exactly once.", "quantifier": "all variable types and bounds", "why_tests_cant": "all layouts", "anchors": ["src/rbfopt/rbfopt_algorithm.py:__init__"]}
{"id": "C27", "title": "Categorical bounds and integer variables compress correctly", "statement": "Mapping the encoded bounds and integer-variable list back to the original space gives the original bounds and exactly the original integer and categorical variables, sorted.", "quantifier": "all layouts", "why_tests_cant": "all layouts", "anchors": ["src/rbfopt/rbfopt_utils.py:compress_categorical_bounds", "src/rbfopt/rbfopt_utils.py:compress_categorical_integer_vars"]}
{"id": "C28", "title": "Corner initialization with categorical variables", "statement": "Every initial point evaluated assigns each categorical variable a value in its range. False for the corner strategies: the corners are taken in the encoded space, giving all-zero blocks, decoded as 0 even when 0 is below the lower bound.", "quantifier": "all categorical ranges", "why_tests_cant": "depends on strategy and range", "anchors": ["src/rbfopt/rbfopt_utils.py:initialize_nodes", "src/rbfopt/rbfopt_utils.py:get_lower_corners", "src/rbfopt/rbfopt_algorithm.py:objfun"]}
{"id": "C29", "title": "Domain scaling round trip", "statement": "Scaling a point to the unit cube and back is the identity; points of the scaled box map into the user's box and the corners map to the corners (exact arithmetic). With integer variables points are not scaled; that the bounds are then left alone too is false.", "quantifier": "all bounds and points", "why_tests_cant": "reals", "anchors": ["src/rbfopt/rbfopt_utils.py:transform_domain", "src/rbfopt/rbfopt_utils.py:bulk_transform_domain", "src/rbfopt/rbfopt_utils.py:transform_domain_bounds"]}
{"id": "C30", "title": "Domain scaling in binary64", "statement": "In IEEE double arithmetic the un-scaled image of a point of the unit cube can lie strictly outside the user's bounds, so exact-arithmetic containment does not transfer.", "quantifier": "existential: a witness; the exact-arithmetic version is universal", "why_tests_cant": "needs a specific rounding pattern", "anchors": ["src/rbfopt/rbfopt_utils.py:transform_domain"]}
{"id": "C31", "title": "Function scaling preserves order", "statement": "Each function-value scaling (off, affine, log), with or without clipping, is monotone: it never reverses the order of two values, and without clipping it is strictly monotone, so the best node stays the best.", "quantifier": "all finite value sets and settings", "why_tests_cant": "reals", "anchors": ["src/rbfopt/rbfopt_utils.py:transform_function_values"]}
{"id": "C32", "title": "Affine scaling range", "statement": "Affine function scaling maps all node values into [0,1], the minimum to 0 and (when not flat) the maximum to 1.", "quantifier": "all value sets", "why_tests_cant": "reals", "anchors": ["src/rbfopt/rbfopt_utils.py:transform_function_values"]}
{"id": "C33", "title": "Log scaling is defined", "statement": "Log scaling never takes the logarithm of a non-positive number. True without clipping for err_l <= 0; false with clipping: a clipped value plus its lower error bound can be non-positive after the shift.", "quantifier": "all values, errors, thresholds", "why_tests_cant": "reals", "anchors": ["src/rbfopt/rbfopt_utils.py:transform_function_values"]}
{"id": "C34", "title": "Clipping bounds", "statement": "Median clipping leaves every value at most the median and the values not above it untouched; the maximum reported equals the maximum of the clipped values.", "quantifier": "all value sets", "why_tests_cant": "reals", "anchors": ["src/rbfopt/rbfopt_utils.py:transform_function_values"]}
{"id": "C35", "title": "Optimality gap", "statement": "The gap is zero exactly at the target, increases with the value, and 'gap <= eps_opt' means value <= target + eps_opt*max-like denominator (|target|, or 1 when |target| < eps_zero).", "quantifier": "all values, targets", "why_tests_cant": "reals", "anchors": ["src/rbfopt/rbfopt_utils.py:compute_gap"]}
{"id": "C36", "title": "Immediate accurate re-evaluation covers potential optima", "statement": "A noisy value whose optimistic estimate would satisfy the stopping test triggers an accurate evaluation; exactly, an accurate evaluation follows when the optimistic value improves on the best one by the relative threshold or is within the tolerance of the target. True for targets with |target| >= eps_zero; false for target 0, where the test uses a zero tolerance while the stopping test uses eps_opt.", "quantifier": "all targets and values", "why_tests_cant": "boundary in reals", "anchors": ["src/rbfopt/rbfopt_algorithm.py:require_accurate_evaluation", "src/rbfopt/rbfopt_utils.py:compute_gap"]}
{"id": "C37", "title": "Settings validation", "statement": "Constructing settings succeeds exactly when every enumerated option is one of its documented values and every listed numeric parameter is nonnegative; otherwise an error is raised and no object exists. Some accepted settings still make the optimizer fail (save_state_interval = 0 divides by zero at the first iteration).", "quantifier": "all parameter values", "why_tests_cant": "all combinations", "anchors": ["src/rbfopt/rbfopt_settings.py:RbfoptSettings.__init__"]}
{"id": "C38", "title": "Settings from dictionary", "statement": "Building settings from a dictionary accepts exactly the dictionaries whose keys are parameter names and whose values are valid, keeps every given value, and uses the default for every other parameter.", "quantifier": "all dictionaries", "why_tests_cant": "all dictionaries", "anchors": ["src/rbfopt/rbfopt_settings.py:from_dictionary"]}
{"id": "C39", "title": "Automatic settings", "statement": "Resolving automatic settings leaves no option at 'auto' and no negative sample fraction, changes nothing the user fixed, does not modify the user's object and is idempotent.", "quantifier": "all settings and problems", "why_tests_cant": "all combinations", "anchors": ["src/rbfopt/rbfopt_settings.py:set_auto_parameters"]}
{"id": "C40", "title": "Automatic domain scaling choice", "statement": "With domain_scaling='auto' scaling is used exactly when there are no integer variables and the largest variable range is at least 5 times the smallest; on a problem whose variables are all fixed, the computation fails.", "quantifier": "all bounds", "why_tests_cant": "all bounds", "anchors": ["src/rbfopt/rbfopt_settings.py:set_auto_parameters", "src/rbfopt/rbfopt_algorithm.py:__init__"]}
{"id": "C41", "title": "Initial sample size", "statement": "The number of initial samples is at least 2, is nondecreasing in the sample fraction, and the minimum awaited in parallel mode never exceeds the number requested.", "quantifier": "all dimensions and fractions", "why_tests_cant": "rationals", "anchors": ["src/rbfopt/rbfopt_utils.py:get_num_init_samples", "src/rbfopt/rbfopt_utils.py:get_min_num_init_samples_parallel"]}
{"id": "C42", "title": "Corner sets", "statement": "all_corners returns each of the 2^n corners exactly once, starting with the lower one; lower_corners returns the lower corner and its n neighbours; rand_corners returns n+1 distinct corners.", "quantifier": "all n and bounds", "why_tests_cant": "all n", "anchors": ["src/rbfopt/rbfopt_utils.py:get_all_corners", "src/rbfopt/rbfopt_utils.py:get_lower_corners", "src/rbfopt/rbfopt_utils.py:get_random_corners"]}
{"id": "C43", "title": "Latin hypercube", "statement": "In each coordinate of the hypercube sample, every one of the num_samples equal intervals contains exactly one sample.", "quantifier": "all permutations and random draws", "why_tests_cant": "random draws", "anchors": ["src/rbfopt/rbfopt_utils.py:get_uniform_lhs"]}
{"id": "C44", "title": "Initial points are feasible", "statement": "Every initial sample point lies within the bounds and is integral in the integer variables, for every strategy, after rounding (integral bounds for integer variables).", "quantifier": "all bounds, integer sets, random draws", "why_tests_cant": "random draws", "anchors": ["src/rbfopt/rbfopt_utils.py:initialize_nodes", "src/rbfopt/rbfopt_utils.py:get_lhd_maximin_points", "src/rbfopt/rbfopt_utils.py:get_lhd_corr_points"]}
{"id": "C45", "title": "Initialization retries", "statement": "Initialization fails only if none of max_random_init attempts gave an independent sample. False: it also fails when the last allowed attempt succeeds; in particular max_random_init = 1 always fails.", "quantifier": "all limits and attempt outcomes", "why_tests_cant": "depends on random outcomes", "anchors": ["src/rbfopt/rbfopt_utils.py:initialize_nodes"]}
{"id": "C46", "title": "Target-value index", "statement": "The index used to choose the target value is k-1-(step-1)*floor((k-n0)/g); it is a valid position whenever at least n0 points exist, and is out of range when fewer exist and step >= 2.", "quantifier": "all k, step, g, n0", "why_tests_cant": "all integers", "anchors": ["src/rbfopt/rbfopt_utils.py:get_sigma_n", "src/rbfopt/rbfopt_utils.py:get_fmax_current_iter"]}
{"id": "C47", "title": "Rounding of integer bounds", "statement": "Rounding never enlarges the user's box: the documented behaviour (lower up, upper down). False: the lower bound is rounded down and the upper up, so fractional bounds on integer variables lead to evaluations outside the user's box; for integral bounds nothing changes.", "quantifier": "all bounds", "why_tests_cant": "reals", "anchors": ["src/rbfopt/rbfopt_utils.py:round_integer_bounds"]}
{"id": "C48", "title": "Distances", "statement": "The nearest-node query returns the smallest distance and the first node attaining it; the farthest-node query likewise; the bulk version agrees with the single one; distance is symmetric, nonnegative and zero only for equal points.", "quantifier": "all point sets", "why_tests_cant": "reals", "anchors": ["src/rbfopt/rbfopt_utils.py:get_min_distance", "src/rbfopt/rbfopt_utils.py:get_min_distance_and_index", "src/rbfopt/rbfopt_utils.py:get_max_distance_and_index", "src/rbfopt/rbfopt_utils.py:bulk_get_min_distance", "src/rbfopt/rbfopt_utils.py:distance"]}
{"id": "C49", "title": "Radial functions", "statement": "Each basis function is defined for every distance r >= 0 (the thin plate spline is 0 at 0), nonnegative where documented, and monotone where documented; its polynomial degree and tail size agree with the theory's conditional definiteness table.", "quantifier": "all distances and shape parameters", "why_tests_cant": "reals", "anchors": ["src/rbfopt/rbfopt_utils.py:get_rbf_function", "src/rbfopt/rbfopt_utils.py:get_degree_polynomial", "src/rbfopt/rbfopt_utils.py:get_size_P_matrix"]}
{"id": "C50", "title": "Interpolation matrix", "statement": "The matrix [Phi P; P^T 0] built from the nodes is symmetric, its entry depends only on the node pair, and zeroing tiny entries keeps symmetry and changes each entry by less than eps_zero.", "quantifier": "all node sets", "why_tests_cant": "reals", "anchors": ["src/rbfopt/rbfopt_utils.py:get_rbf_matrix"]}
{"id": "C51", "title": "Interpolation", "statement": "If the coefficients solve the linear system then the model value at every node equals the node value exactly (up to eps_zero times the sum of the coefficient magnitudes when tiny entries were zeroed).", "quantifier": "all node sets, values, basis functions", "why_tests_cant": "reals", "anchors": ["src/rbfopt/rbfopt_utils.py:get_rbf_coefficients", "src/rbfopt/rbfopt_utils.py:evaluate_rbf"]}
{"id": "C52", "title": "Bulk and single model evaluation agree", "statement": "Evaluating the model at many points gives, for each point, the single-point value.", "quantifier": "all models and points", "why_tests_cant": "reals", "anchors": ["src/rbfopt/rbfopt_utils.py:evaluate_rbf", "src/rbfopt/rbfopt_utils.py:bulk_evaluate_rbf"]}
{"id": "C53", "title": "Dropping redundant categorical columns", "statement": "With categorical variables the solution computed after removing one column per categorical variable is, padded with zeros, a solution of the full system when every node has exactly one active value per categorical variable.", "quantifier": "all categorical layouts and node sets", "why_tests_cant": "all layouts", "anchors": ["src/rbfopt/rbfopt_utils.py:get_rbf_coefficients", "src/rbfopt/rbfopt_utils.py:get_matrix_inverse"]}
{"id": "C54", "title": "Leave-one-out shortcut", "statement": "The leave-one-out prediction computed by correcting the full solution equals the prediction of a model that interpolates all the other nodes and gives node i zero weight.", "quantifier": "all node sets", "why_tests_cant": "reals", "anchors": ["src/rbfopt/rbfopt_utils.py:get_model_quality_estimate"]}
{"id": "C55", "title": "Model selection", "statement": "Model selection returns one of the documented (basis, shape) candidates (or the current one), with the smallest estimated error among those tried, first in order of trial, and leaves the caller's settings unchanged. The last part is false when a trial fails.", "quantifier": "all error estimates and failures", "why_tests_cant": "all failure patterns", "anchors": ["src/rbfopt/rbfopt_utils.py:get_best_rbf_model", "src/rbfopt/rbfopt_utils.py:get_most_common_element"]}
{"id": "C56", "title": "Removal of close starting points", "statement": "Cleaning a list of starting points keeps the first, returns positions in increasing order, and any two kept points are more than min_dist apart.", "quantifier": "all point lists", "why_tests_cant": "all lists", "anchors": ["src/rbfopt/rbfopt_utils.py:init_points_cleanup"]}
{"id": "C57", "title": "Refinement candidate", "statement": "The refinement candidate lies in the box, within the refinement radius of the start, and its linear-model value is not worse than the start's; the improvement reported is exactly that difference.", "quantifier": "all gradients, starts in the box, radii", "why_tests_cant": "reals", "anchors": ["src/rbfopt/rbfopt_refinement.py:get_candidate_point"]}
{"id": "C58", "title": "Integer refinement candidate", "statement": "The rounded candidate has integer values floor/ceil of the candidate in integer variables, keeps the others, and the reported improvement plus the candidate's improvement equals the model difference between start and rounded point. Without categorical variables and from an integral start the point stays within the radius and is not worse than the start; with categorical variables both are false.", "quantifier": "all inputs and random draws", "why_tests_cant": "random draws", "anchors": ["src/rbfopt/rbfopt_refinement.py:get_integer_candidate", "src/rbfopt/rbfopt_algorithm.py:refinement_step"]}
{"id": "C59", "title": "Categorical rounding", "statement": "Rounding a point's categorical blocks leaves exactly one 1 in each block, chosen only among entries with positive weight (any entry if all are zero), and nothing else changes.", "quantifier": "all points with nonnegative blocks, random draws", "why_tests_cant": "random draws", "anchors": ["src/rbfopt/rbfopt_refinement.py:round_categorical"]}
{"id": "C60", "title": "Refinement radius", "statement": "The radius is halved, kept or doubled according to the ratio of real to predicted improvement, stays nonnegative, and the iterate moves exactly when the ratio reaches the move threshold.", "quantifier": "all ratios and thresholds", "why_tests_cant": "reals", "anchors": ["src/rbfopt/rbfopt_refinement.py:update_refinement_radius"]}
{"id": "C61", "title": "Refinement model set", "statement": "The refinement model set holds min(n+1,k) distinct valid node indices, the nearest to the centre, the first being the centre itself; updates keep its size and validity.", "quantifier": "all node sets", "why_tests_cant": "all node sets", "anchors": ["src/rbfopt/rbfopt_refinement.py:init_refinement", "src/rbfopt/rbfopt_algorithm.py:refinement_update"]}
{"id": "C62", "title": "Replacement index in model improvement", "statement": "The index returned for replacement designates, in the model set, the node that was found dependent. False: it is an index into the model set with the start point removed.", "quantifier": "all model sets", "why_tests_cant": "depends on position of the start point", "anchors": ["src/rbfopt/rbfopt_refinement.py:get_model_improving_point", "src/rbfopt/rbfopt_algorithm.py:refinement_update"]}
{"id": "C63", "title": "Genetic search invariants", "statement": "Throughout the genetic search the population size is constant, every individual is within bounds and integral, and the best score never gets worse from one generation to the next (for a fixed scoring).", "quantifier": "all random draws, generations, bounds", "why_tests_cant": "random draws", "anchors": ["src/rbfopt/rbfopt_aux_problems.py:ga_optimize", "src/rbfopt/rbfopt_aux_problems.py:ga_mate", "src/rbfopt/rbfopt_aux_problems.py:ga_mutate"]}
{"id": "C64", "title": "MSRSM score", "statement": "The score of a candidate is between 0 and the sum of the weights, infinite exactly when it is within min_dist of a node; a candidate that is both nearer to the nodes and worse in value never scores better.", "quantifier": "all candidate sets", "why_tests_cant": "reals", "anchors": ["src/rbfopt/rbfopt_aux_problems.py:MetricSRSMObj"]}
{"id": "C65", "title": "Bumpiness objectives", "statement": "The bumpiness objective at a point is -1/(mu (s-f*)^2), where mu is (up to sign) the weight of that point in the model that is 1 there and 0 at all nodes, and it vanishes at the nodes. The exploration objective, documented as -1/mu, differs from it by a constant for the multiquadric and Gaussian bases (sign of the constant term); the ranking is unaffected.", "quantifier": "all points and nodes", "why_tests_cant": "reals", "anchors": ["src/rbfopt/rbfopt_aux_problems.py:GutmannHkObj", "src/rbfopt/rbfopt_aux_problems.py:GutmannMukObj"]}
{"id": "C66", "title": "Symmetric quadratic form", "statement": "The triangular, doubled quadratic form used in the optimization models equals the full quadratic form for every symmetric matrix (and only for those).", "quantifier": "all matrices and vectors", "why_tests_cant": "reals", "anchors": ["src/rbfopt/rbfopt_degree1_models.py:create_max_one_over_mu_model", "src/rbfopt/rbfopt_degree0_models.py", "src/rbfopt/rbfopt_degreem1_models.py"]}
{"id": "C67", "title": "Global-step target and weights", "statement": "The target value is at most the model minimum, non-increasing distance emphasis over the cycle: the distance weight stays in (0,1] and decreases with the step; the scaling factor is in [0,1] and decreases.", "quantifier": "all steps and values", "why_tests_cant": "all steps", "anchors": ["src/rbfopt/rbfopt_algorithm.py:global_step"]}
{"id": "C68", "title": "Local search box", "statement": "The local search box is inside the search box, contains its centre and, after rounding for integer variables, stays inside when the search box is integral there.", "quantifier": "all boxes and centres", "why_tests_cant": "reals", "anchors": ["src/rbfopt/rbfopt_algorithm.py:local_step", "src/rbfopt/rbfopt_algorithm.py:global_step"]}
{"id": "C69", "title": "Restoration", "statement": "The restoration search returns a point far enough from the other nodes when one exists. False: the candidate is compared with a set that already contains it, so the search can never succeed and the program always falls back to changing the linear solve or restarting.", "quantifier": "all states and candidates", "why_tests_cant": "needs singular matrices", "anchors": ["src/rbfopt/rbfopt_algorithm.py:restoration_search"]}
{"id": "C70", "title": "Re-evaluation choice", "statement": "When local search decides to re-evaluate an existing noisy node, it is the one with the least bumpiness. False: the index is overwritten by the nearest node, so a different, possibly accurate, node is removed and re-evaluated.", "quantifier": "all node sets", "why_tests_cant": "two-phase only", "anchors": ["src/rbfopt/rbfopt_algorithm.py:local_step", "src/rbfopt/rbfopt_aux_problems.py:get_min_bump_node"]}
{"id": "C71", "title": "Least-bumpiness scan leaves data unchanged", "statement": "Scanning nodes for re-evaluation does not modify the stored error bounds. False: the bounds of scanned nodes are set to zero and not restored; without function scaling the optimizer's own table is modified.", "quantifier": "all node tables", "why_tests_cant": "aliasing", "anchors": ["src/rbfopt/rbfopt_aux_problems.py:get_min_bump_node", "src/rbfopt/rbfopt_utils.py:transform_function_values"]}
{"id": "C72", "title": "Parallel tables", "statement": "In parallel mode the lists of pending evaluations and of temporary nodes stay aligned (same length, same points in the same order) under every completion order, so a finished evaluation is always recorded for the point it was made at.", "quantifier": "all schedules of completion", "why_tests_cant": "schedules", "anchors": ["src/rbfopt/rbfopt_algorithm.py:optimize_parallel", "src/rbfopt/rbfopt_utils.py:get_one_ready_index"]}
{"id": "C73", "title": "Parallel conservation", "statement": "In parallel mode every submitted evaluation is, at every moment, either pending, recorded, superseded or rejected as too close; the counters equal the submissions; on exit nothing is pending.", "quantifier": "all schedules", "why_tests_cant": "schedules", "anchors": ["src/rbfopt/rbfopt_algorithm.py:optimize_parallel"]}
{"id": "C74", "title": "Parallel capacity", "statement": "The number of outstanding tasks never exceeds num_cpus once the initial sample is consumed. Left-over evaluations of initial points can exceed it.", "quantifier": "all schedules", "why_tests_cant": "schedules", "anchors": ["src/rbfopt/rbfopt_algorithm.py:optimize_parallel"]}
{"id": "C75", "title": "Parallel shutdown in noisy mode", "statement": "Evaluations still pending at shutdown are recorded with their value. True for accurate evaluations. False in noisy mode: if a noisy evaluation is pending when the loop ends, the call always raises an exception (unassigned error bounds, or comparison of the whole result triple with a number) and never returns.", "quantifier": "all schedules", "why_tests_cant": "schedule dependent", "anchors": ["src/rbfopt/rbfopt_algorithm.py:optimize_parallel"]}
{"id": "C76", "title": "Parallel initialization progress", "statement": "Parallel initialization always completes once all submitted evaluations are finished. False: whenever the sample has fewer points than the minimum awaited, the wait for it (at the start or at a restart) never ends, whatever happens; 'lower_corners' and 'rand_corners' with init_sample_fraction of at least 2 always lead there, and so does, with the default strategy, a problem whose only variable is categorical with three values on more than two CPUs. Otherwise, with init_sample_fraction at most 1, the sample is large enough and the wait ends when the evaluations do.", "quantifier": "all sample sizes", "why_tests_cant": "liveness", "anchors": ["src/rbfopt/rbfopt_algorithm.py:restart", "src/rbfopt/rbfopt_utils.py:get_lhd_maximin_points", "src/rbfopt/rbfopt_utils.py:get_min_num_init_samples_parallel"]}
{"id": "C77", "title": "Parallel initialization coordinates", "statement": "A left-over initial evaluation is recorded at the point where it was made. False with affine domain scaling: the point, already in original coordinates, is scaled back a second time.", "quantifier": "all points and bounds", "why_tests_cant": "schedule and scaling dependent", "anchors": ["src/rbfopt/rbfopt_algorithm.py:restart", "src/rbfopt/rbfopt_algorithm.py:optimize_parallel"]}
{"id": "C78", "title": "Discard window", "statement": "The window of recent outcomes never holds more than discarded_window_size*num_cpus entries, holds the most recent ones in order, and a restart for discards happens only at the first step of a cycle, with at least half a window, and when the discarded share reaches the threshold.", "quantifier": "all histories", "why_tests_cant": "histories", "anchors": ["src/rbfopt/rbfopt_algorithm.py:optimize_serial", "src/rbfopt/rbfopt_algorithm.py:restart"]}
{"id": "C79", "title": "Log and displayed gap", "statement": "A line is starred exactly when its gap improves on every starred gap before it and its value is the current best; the displayed best gap never increases.", "quantifier": "all logs", "why_tests_cant": "histories", "anchors": ["src/rbfopt/rbfopt_algorithm.py:update_log"]}
{"id": "C80", "title": "NaN values", "statement": "If the black box returns NaN once, optimize() keeps returning the best real value. False: the final minimum picks the NaN entry.", "quantifier": "all values", "why_tests_cant": "IEEE semantics", "anchors": ["src/rbfopt/rbfopt_algorithm.py:optimize", "src/rbfopt/rbfopt_algorithm.py:add_node"]}
{"id": "C81", "title": "Noisy test black box brackets the truth", "statement": "The error interval reported by the noisy test black box always contains the true value and its width respects the declared maximum errors.", "quantifier": "all noise draws", "why_tests_cant": "random draws", "anchors": ["src/rbfopt/rbfopt_test_functions.py:TestNoisyBlackBox"]}
{"id": "C82", "title": "Enlarged test black box keeps the optimum", "statement": "The enlarged function is evaluated inside the original bounds and its value at the documented optimum point equals the original optimum value.", "quantifier": "all permutations, couplings, weights", "why_tests_cant": "random draws", "anchors": ["src/rbfopt/rbfopt_test_functions.py:TestEnlargedBlackBox"]}
{"id": "C83", "title": "Noisy interpolation", "statement": "When noisy nodes exist, the refitted model values stay within each node's error interval and interpolate accurate nodes exactly; the true interpolant is always a feasible starting point.", "quantifier": "all node sets and error bounds", "why_tests_cant": "reals", "anchors": ["src/rbfopt/rbfopt_aux_problems.py:get_noisy_rbf_coefficients", "src/rbfopt/rbfopt_degree1_models.py:create_min_bump_model"]}
{"id": "C84", "title": "Command line settings", "statement": "The command line passes every recognized option to the settings and removes exactly the interface-only options; starting values are used exactly when the points file rows have one column more than the dimension. When a state is loaded, the settings given on the command line have no effect.", "quantifier": "all argument sets", "why_tests_cant": "all argument sets", "anchors": ["src/rbfopt/rbfopt_cl_interface.py"]}
{"id": "C85", "title": "Readiness queries", "statement": "results_ready is true exactly when some result is ready; the index returned is that of a ready result (the last one) whenever one exists, and the list length otherwise.", "quantifier": "all result lists", "why_tests_cant": "schedules", "anchors": ["src/rbfopt/rbfopt_utils.py:results_ready", "src/rbfopt/rbfopt_utils.py:get_one_ready_index"]}
{"id": "C86", "title": "Noisy restart with known sample", "statement": "A restart in noisy mode succeeds whatever sample is drawn. False: a serial restart in the course of a run, with a sample of at least two points, fails with IndexError exactly when the sample is to be evaluated noisily and each of its points was evaluated before (within eps_zero); otherwise it succeeds with one node per sample point, in particular always in accurate mode. A parallel restart with a fully known sample does not fail: it submits nothing and goes on.", "quantifier": "all histories and samples", "why_tests_cant": "needs a restart whose sample coincides with earlier points", "anchors": ["src/rbfopt/rbfopt_algorithm.py:restart", "src/rbfopt/rbfopt_algorithm.py:remove_existing_nodes"]}
{"id": "C87", "title": "At least two starting points", "statement": "After every successful (re)start there are at least two interpolation nodes; starting from a single point (one user point, no generated sample) is rejected by an assertion rather than reported.", "quantifier": "all settings, samples and user points", "why_tests_cant": "boundary case of the initialization", "anchors": ["src/rbfopt/rbfopt_algorithm.py:restart"]}
{"id": "C88", "title": "User starting points and fixed variables", "statement": "A user-supplied starting point is accepted exactly when it lists the free variables only (fixed ones omitted); the black box is then called at exactly that point completed with the fixed values. A point of the full dimension is rejected by an assertion as soon as some variable is fixed.", "quantifier": "all black boxes and starting points", "why_tests_cant": "all combinations of fixed, categorical and integer variables", "anchors": ["src/rbfopt/rbfopt_algorithm.py:__init__", "src/rbfopt/rbfopt_algorithm.py:objfun", "src/rbfopt/rbfopt_utils.py:round_integer_vars"]}
{"id": "C89", "title": "Maximin design", "statement": "The 'lhd_maximin' strategy returns one of the generated designs, and no generated design has a larger smallest pairwise distance.", "quantifier": "all sets of designs", "why_tests_cant": "random draws", "anchors": ["src/rbfopt/rbfopt_utils.py:get_lhd_maximin_points"]}
{"id": "C90", "title": "Most common model choice", "statement": "The most common element is a non-excluded element of the list that occurs at least as often as every other non-excluded one; None is returned only if all elements are excluded.", "quantifier": "all lists", "why_tests_cant": "all lists", "anchors": ["src/rbfopt/rbfopt_utils.py:get_most_common_element"]}
{"id": "C91", "title": "Scaled errors and later values", "statement": "Function scaling is consistent: without clipping, scaled value plus scaled error bound is the scaling of value plus error bound, and the scaling function returned for later values agrees with it and is strictly increasing. The last part is false for log scaling at values at or below minus the shift, where the value is returned unscaled.", "quantifier": "all node values, error bounds and settings", "why_tests_cant": "reals and logarithms", "anchors": ["src/rbfopt/rbfopt_utils.py:transform_function_values"]}
{"id": "C92", "title": "Model-improving point", "statement": "The point proposed to improve the linear model lies in the box, is whole in integer variables and keeps exactly one active value per categorical variable.", "quantifier": "all starts in an integral box, directions, radii, integer sets, categorical blocks and random choices", "why_tests_cant": "Needs every direction and rounding; a test tries a few.", "anchors": ["src/rbfopt/rbfopt_refinement.py:get_model_improving_point"]}
{"id": "C93", "title": "Refinement data along a run", "statement": "In a run in which the linear model can always be built, whenever a refinement is in progress the model set holds valid node indices and contains the iterate, and each refinement starts from the best node. False after a failure of the linear model in the middle of a refinement: the next refinement is not initialized and starts from the old iterate.", "quantifier": "all configurations, input histories and passes", "why_tests_cant": "Ranges over whole run histories with failures.", "anchors": ["src/rbfopt/rbfopt_algorithm.py:optimize_serial", "src/rbfopt/rbfopt_algorithm.py:refinement_update", "src/rbfopt/rbfopt_refinement.py:init_refinement"]}
{"id": "C94", "title": "Reported improvement of a model-improving point", "statement": "The improvement reported with a model-improving point is the model difference between start and point. False: it is the model value at the point, so a worse point can be reported as a large improvement.", "quantifier": "all linear models and points", "why_tests_cant": "A test would check one gradient; the claim is about every model.", "anchors": ["src/rbfopt/rbfopt_algorithm.py:refinement_step"]}
{"id": "C95", "title": "Bumpiness is non-negative", "statement": "The bumpiness compared when deciding between a new point and a re-evaluation is a non-negative measure of irregularity. False for the linear and multiquadric bases, where the sign factor is missing: it is negative for every non-constant interpolant, so the comparison is reversed.", "quantifier": "all sets of distinct nodes, values and error bounds", "why_tests_cant": "The sign depends on the basis; tests compare numbers for a few node sets.", "anchors": ["src/rbfopt/rbfopt_aux_problems.py:get_min_bump_node", "src/rbfopt/rbfopt_aux_problems.py:get_bump_new_node"]}
{"id": "C96", "title": "Re-evaluation candidates", "statement": "Every node considered for re-evaluation by the local step has an error interval of positive width that contains the target, and every such node is considered.", "quantifier": "all values, error bounds and proposals", "why_tests_cant": "The code checks the lower end twice and never the upper end; whether that matters depends on all targets.", "anchors": ["src/rbfopt/rbfopt_aux_problems.py:get_min_bump_node", "src/rbfopt/rbfopt_algorithm.py:local_step"]}
{"id": "C97", "title": "Local step aims below the best value", "statement": "The local step's target is strictly below the best value; an unadjusted proposal is the model minimum with at least the required relative decrease; an adjusted one comes from a search of the local box around the model minimum or the best node.", "quantifier": "all values and proposals", "why_tests_cant": "Case split over all real values.", "anchors": ["src/rbfopt/rbfopt_algorithm.py:local_step"]}
{"id": "C98", "title": "Genetic mutation size", "statement": "A mutation changes fewer coordinates than its maximum size (so at most one for up to 29 variables), each within its bounds; with a single variable it changes nothing, so the individual meant to be a mutation of the best is always a copy of the best.", "quantifier": "all individuals, bounds, mutation draws, generations", "why_tests_cant": "the size of the perturbation is random; the degenerate case shows no symptom", "anchors": ["src/rbfopt/rbfopt_aux_problems.py:ga_mutate", "src/rbfopt/rbfopt_aux_problems.py:ga_optimize"]}
{"id": "C99", "title": "Sampling searches choose the best sample", "statement": "The sampling searches return the first sample with the smallest score; a returned point is too close to a node only if all samples were, and then it is the first one; with the distance criterion no sample is farther from the nodes.", "quantifier": "all sample sets and scores", "why_tests_cant": "reals; infinite scores", "anchors": ["src/rbfopt/rbfopt_aux_problems.py:pure_global_search", "src/rbfopt/rbfopt_aux_problems.py:global_search", "src/rbfopt/rbfopt_aux_problems.py:MaximinDistanceObj"]}
{"id": "C100", "title": "Inverse matrix with categorical variables", "statement": "The matrix inverse undoes the interpolation matrix; with categorical variables it is zero in the dropped coordinates, undoes the matrix on vectors that do not use them, and the bumpiness objective keeps its meaning.", "quantifier": "all node sets and layouts", "why_tests_cant": "linear algebra for all sizes", "anchors": ["src/rbfopt/rbfopt_utils.py:get_matrix_inverse"]}
{"id": "C101", "title": "Objective handed to the solver is the surrogate", "statement": "The expression minimized by the external solver differs from the surrogate model by at most the sum of the weights times a per-kernel term that vanishes with the 1e-14 distance shift (and equals it for kernels without shift); the MSRSM expression never prefers a point that is closer to the nodes and worse in the model.", "quantifier": "all kernels, node sets, coefficients and points", "why_tests_cant": "continuum of points; numerical shift invisible to tests", "anchors": ["src/rbfopt/rbfopt_degree1_models.py:_min_rbf_obj_expression_cubic", "src/rbfopt/rbfopt_degree0_models.py:create_min_rbf_model", "src/rbfopt/rbfopt_degreem1_models.py:create_min_rbf_model", "src/rbfopt/rbfopt_degree1_models.py:_min_msrsm_obj_expression_cubic"]}
{"id": "C102", "title": "Feasible set of the auxiliary problems", "statement": "The feasible points of each auxiliary problem are exactly the valid points: within bounds, integral where required, one active coordinate in each categorical block. (This fails for the maximization of h_k with the degree 1 models, which lack the categorical constraints.)", "quantifier": "all problems, bounds, integer sets, categorical layouts and points", "why_tests_cant": "quantifies over all points of a mixed-integer set", "anchors": ["src/rbfopt/rbfopt_degree1_models.py:add_integrality_constraints", "src/rbfopt/rbfopt_degree1_models.py:add_categorical_constraints", "src/rbfopt/rbfopt_degree1_models.py:create_max_h_k_model"]}
{"id": "C103", "title": "Distance problems", "statement": "In the two problems with a distance variable, some value of that variable is feasible exactly for the valid points whose squared distance to every node is at least the minimum distance; the optimum of the maximin problem is at least as far from its nearest node as any admissible point. (That every point at least the minimum distance away is admissible is false: the bound is on the squared distance.)", "quantifier": "all node sets, bounds and minimum distances", "why_tests_cant": "optimality over a continuum", "anchors": ["src/rbfopt/rbfopt_degree1_models.py:create_maximin_dist_model", "src/rbfopt/rbfopt_degree1_models.py:create_min_msrsm_model", "src/rbfopt/rbfopt_degree1_models.py:_mdistdef_constraint_rule"]}
{"id": "C104", "title": "Solver objectives of Gutmann's method", "statement": "Without the 1e-14 shift, the expression maximized for the inf step is 1/mu(x), and for the global search 1/(mu(x) (s(x)-target)^2), where mu(x) is the weight of x in the cardinal model; this needs and uses that the inverse of the interpolation matrix is symmetric.", "quantifier": "all kernels, node sets, targets and points", "why_tests_cant": "identity between real-valued expressions over all matrices", "anchors": ["src/rbfopt/rbfopt_degree1_models.py:create_max_one_over_mu_model", "src/rbfopt/rbfopt_degree1_models.py:create_max_h_k_model", "src/rbfopt/rbfopt_degree0_models.py:create_max_h_k_model", "src/rbfopt/rbfopt_degreem1_models.py:create_max_h_k_model"]}
{"id": "C105", "title": "Failed save", "statement": "If saving the state raises (file cannot be opened, object cannot be serialized, disk full), the optimizer object stays usable. False: the output stream has been erased and is not restored, so every later optimize() call raises until a stream is set again; and if the file had been opened, the previous checkpoint is lost as well.", "quantifier": "all objects, failure points and contents", "why_tests_cant": "fault injection at every point", "anchors": ["src/rbfopt/rbfopt_algorithm.py:save_to_file", "src/rbfopt/rbfopt_algorithm.py:set_output_stream", "src/rbfopt/rbfopt_algorithm.py:print_init_line"]}
{"id": "C106", "title": "Wall clock limit", "statement": "One optimize() call exceeds max_clock_time by at most its last pass; but the limit is per call: a paused or resumed optimization gets a fresh budget every time, so the total time of k calls can be k times the limit.", "quantifier": "all limits, pass durations and call sequences", "why_tests_cant": "unbounded numbers of calls", "anchors": ["src/rbfopt/rbfopt_algorithm.py:optimize_serial", "src/rbfopt/rbfopt_algorithm.py:optimize_parallel"]}
{"id": "C107", "title": "Parallel evaluation budget", "statement": "In parallel mode the number of accurate evaluations never exceeds max_evaluations by more than the tasks in flight plus (twice) an initial sample with the user's points; max_evaluations itself can be exceeded.", "quantifier": "all schedules, all calls", "why_tests_cant": "schedules", "anchors": ["src/rbfopt/rbfopt_algorithm.py:optimize_parallel"]}
{"id": "C108", "title": "Parallel iterations and pause", "statement": "In parallel mode a call makes at most as many iterations as the smaller of max_iterations and the pause limit, plus an overshoot bounded by the tasks in flight. An exact pause is not guaranteed: a call asked to pause after one iteration can make three.", "quantifier": "all schedules, all calls", "why_tests_cant": "schedules", "anchors": ["src/rbfopt/rbfopt_algorithm.py:optimize_parallel"]}
{"id": "C109", "title": "Parallel refinement resumes", "statement": "In parallel mode refinement steps continue to be made during the whole call. False: when the refinement search proposes a point evaluated before the last restart, its old value is reused and the in-progress flag is never cleared, so no refinement step is made in the rest of the call.", "quantifier": "all schedules", "why_tests_cant": "histories and schedules", "anchors": ["src/rbfopt/rbfopt_algorithm.py:optimize_parallel"]}
{"id": "C110", "title": "Parallel superseded evaluations", "statement": "A noisy result that arrives after its point was chosen for an accurate evaluation is dropped only if that accurate evaluation is made. False: the accurate evaluation can be discarded as too close to the pending noisy one, and then both are lost.", "quantifier": "all schedules", "why_tests_cant": "schedules", "anchors": ["src/rbfopt/rbfopt_algorithm.py:optimize_parallel"]}
{"id": "C111", "title": "Parallel failure of linear algebra without model selection", "statement": "A failed linear system leads to restoration or restart. False in parallel mode when the surrogate type is fixed by the user: the second failure (or a failure with few nodes) always raises IndexError. Exactly, for every state: the first failure with enough points makes the next pass use the other solve and changes nothing else; any other failure raises IndexError unless a cross validation of the model was made, and after one the run waits until nobody is working and then restarts (or raises RuntimeError when no restart sample can be drawn).", "quantifier": "all reachable states", "why_tests_cant": "needs singular matrices", "anchors": ["src/rbfopt/rbfopt_algorithm.py:optimize_parallel"]}
{"id": "C112", "title": "Parallel leftovers and linear algebra", "statement": "A failed linear system is handled by the optimizer. False in parallel mode right after initialization with evaluations still pending: the exception escapes from the call.", "quantifier": "all states", "why_tests_cant": "needs singular matrices and a schedule", "anchors": ["src/rbfopt/rbfopt_algorithm.py:optimize_parallel"]}
{"id": "C113", "title": "Parallel node tables and incumbents", "statement": "In parallel mode, outside initialization, the tables of nodes are aligned with the tail of the full history under every completion order; in single-phase runs the incumbents are the first minimum and the maximum of the tables.", "quantifier": "all schedules", "why_tests_cant": "schedules", "anchors": ["src/rbfopt/rbfopt_algorithm.py:optimize_parallel", "src/rbfopt/rbfopt_algorithm.py:add_node", "src/rbfopt/rbfopt_algorithm.py:remove_node"]}
{"id": "C114", "title": "Parallel evaluation points", "statement": "In parallel mode every evaluation is requested inside the user's bounds and with integral integer variables. False with affine scaling and a noisy oracle: a left-over initial point that is re-evaluated is scaled twice and can leave the box.", "quantifier": "all schedules and boxes", "why_tests_cant": "schedules", "anchors": ["src/rbfopt/rbfopt_algorithm.py:optimize_parallel"]}
{"id": "C115", "title": "Parallel results are not wasted", "statement": "In parallel mode the result of an accurate evaluation requested by a search step is always recorded at its point once it arrives; only results of initial points are rejected as too close, and only noisy ones are superseded.", "quantifier": "all schedules", "why_tests_cant": "schedules", "anchors": ["src/rbfopt/rbfopt_algorithm.py:optimize_parallel"]}
{"id": "C116", "title": "Points returned for solver answers", "statement": "When the external solver reports an optimal point inside a box whose integer variables have whole bounds, the returned point is in the box, whole on the integer variables and unchanged elsewhere; a point within 1/2 of a whole point is returned as that point; without an optimal answer nothing is returned. A continuous coordinate outside its bound by the solver tolerance is not clipped.", "quantifier": "all solver answers, boxes and integer variables", "why_tests_cant": "answers of solvers cannot be enumerated", "anchors": ["src/rbfopt/rbfopt_aux_problems.py:pure_global_search", "src/rbfopt/rbfopt_aux_problems.py:minimize_rbf", "src/rbfopt/rbfopt_aux_problems.py:global_search", "src/rbfopt/rbfopt_utils.py:round_integer_vars"]}
{"id": "C117", "title": "Linear model of the refinement step", "statement": "The linear model has the smallest sum of squared errors of all linear functions; it agrees with the data whenever some linear function does, and whenever the flag is not raised; with n+1 points the flag is raised exactly when the points do not determine a linear function. Contrary to the documentation the flag does not report underdetermined models: with at most n points the model is always underdetermined and the flag can be down.", "quantifier": "all nodes, values, model sets and correct least-squares routines", "why_tests_cant": "real-valued inputs", "anchors": ["src/rbfopt/rbfopt_refinement.py:get_linear_model"]}
{"id": "C118", "title": "Interpolation with few nodes", "statement": "The least-squares route taken with fewer than n+1 nodes (or when forced) yields a model that takes the node values and satisfies the side conditions, for distinct nodes, any number of them and any basis function; both routes give the same weights.", "quantifier": "all distinct node sets", "why_tests_cant": "real-valued inputs", "anchors": ["src/rbfopt/rbfopt_utils.py:get_rbf_coefficients_underdet", "src/rbfopt/rbfopt_utils.py:get_rbf_coefficients", "src/rbfopt/rbfopt_algorithm.py:optimize_serial"]}
{"id": "C119", "title": "Starting point of the external solver", "statement": "A given start is used unchanged; a random start is in the box; the distance variable starts at the largest value allowed by the distance constraints. The start is documented to be feasible: it is not with integer variables, nor when the random point is close to a node.", "quantifier": "all boxes, nodes and random numbers", "why_tests_cant": "random numbers", "anchors": ["src/rbfopt/rbfopt_aux_problems.py:initialize_instance_variables", "src/rbfopt/rbfopt_aux_problems.py:initialize_msrsm_aux_variables"]}
{"id": "C120", "title": "Estimates for pending evaluations", "statement": "Estimated values of points under evaluation lie between the smallest and the largest known value, one per point; without scaling, the estimate at a node is its value. With affine scaling and all values at least 1, the estimate at every node is the smallest value, whatever the node's value: scaled estimates are clipped to the unscaled range.", "quantifier": "all points, nodes and values", "why_tests_cant": "real-valued inputs", "anchors": ["src/rbfopt/rbfopt_utils.py:bulk_compute_and_evaluate_rbf", "src/rbfopt/rbfopt_algorithm.py:optimize_parallel"]}
{"id": "C121", "title": "Interpolation is well posed", "statement": "On distinct nodes (positive shape parameter for the Gaussian) the interpolation problem has at most one weight vector, and exactly one solution when no linear function vanishes at all nodes (cubic, thin plate spline; always for the others); a solver that handles nonsingular matrices never fails on the system of the code, with or without categorical variables. It fails with repeated nodes of different value; with nodes on a hyperplane the polynomial part is not unique.", "quantifier": "all distinct node sets, dimensions, values, shape parameters", "why_tests_cant": "positive definiteness ranges over all node sets", "anchors": ["src/rbfopt/rbfopt_utils.py:get_rbf_matrix", "src/rbfopt/rbfopt_utils.py:get_rbf_coefficients"]}
{"id": "C122", "title": "Gutmann's measure is positive", "statement": "At every point that is not a node, the measure mu of Gutmann exists, is unique and positive; the global search objective is 0 at the nodes and negative everywhere else, so no node is ever preferred to a new point.", "quantifier": "all node sets and points", "why_tests_cant": "positive definiteness ranges over all node sets", "anchors": ["src/rbfopt/rbfopt_aux_problems.py:GutmannHkObj", "src/rbfopt/rbfopt_aux_problems.py:global_search"]}
{"id": "C123", "title": "Refitting with noisy nodes is convex", "statement": "The bumpiness of every admissible refit is nonnegative and 0 only for polynomials; two optimal refits have the same weights; when a polynomial fits the error bars, the refit is a polynomial.", "quantifier": "all node sets, values and error intervals", "why_tests_cant": "positive definiteness ranges over all node sets", "anchors": ["src/rbfopt/rbfopt_aux_problems.py:get_noisy_rbf_coefficients", "src/rbfopt/rbfopt_degree1_models.py:create_min_bump_model", "src/rbfopt/rbfopt_degree0_models.py:create_min_bump_model", "src/rbfopt/rbfopt_degreem1_models.py:create_min_bump_model"]}
{"id": "C124", "title": "Leave-one-out never divides by zero", "statement": "On distinct nodes that determine the polynomial part, the leave-one-out estimate never divides by 0 (the weight of the left-out node in the base solution is then 0, which is treated separately) and equals the prediction of the model without the node.", "quantifier": "all node sets and values", "why_tests_cant": "positive definiteness ranges over all node sets", "anchors": ["src/rbfopt/rbfopt_utils.py:get_model_quality_estimate"]}
{"id": "C125", "title": "From declared problem to black box calls", "statement": "For every black box with ordered bounds, every accepted settings and starting points taken from the declared problem, the serial optimizer calls the black box only at points of the declared problem: all coordinates present, fixed variables at their value, reals between their bounds, integers integral, categorical variables at one of their categories; and the returned point is an allowed choice of the free variables whose value is the one returned. Starting points supplied by the user are not checked: one outside the bounds is evaluated.", "quantifier": "all black boxes, settings, random draws and histories", "why_tests_cant": "the whole pipeline for all inputs", "anchors": ["src/rbfopt/rbfopt_algorithm.py:__init__", "src/rbfopt/rbfopt_algorithm.py:optimize_serial", "src/rbfopt/rbfopt_algorithm.py:optimize", "src/rbfopt/rbfopt_utils.py:expand_categorical_vars", "src/rbfopt/rbfopt_aux_problems.py:global_search"]}
{"id": "C126", "title": "From declared problem to parallel calls", "statement": "In parallel mode, for every order of completions, every evaluation requested is at a point of the declared problem.", "quantifier": "all black boxes, settings and schedules", "why_tests_cant": "schedules", "anchors": ["src/rbfopt/rbfopt_algorithm.py:optimize_parallel", "src/rbfopt/rbfopt_algorithm.py:__init__"]}
{"id": "C127", "title": "The constructor", "statement": "The optimizer's constructor accepts its arguments exactly when shapes agree, there is a variable, values match points, there are enough starting points if no sample is generated, every point has one coordinate per free variable, and not all variables are fixed under automatic scaling; every limit, tolerance and switch is then the user's setting of that name. The test for enough points ignores the automatic sample fraction: by default one point passes and the first optimize call fails.", "quantifier": "all settings and black boxes", "why_tests_cant": "all argument combinations", "anchors": ["src/rbfopt/rbfopt_algorithm.py:__init__", "src/rbfopt/rbfopt_settings.py:set_auto_parameters"]}
{"id": "C128", "title": "All variables fixed", "statement": "With all variables fixed, the constructor raises IndexError by default (automatic domain scaling); otherwise every call of optimize evaluates the one point once, ignoring the limits, and returns the least value so far, an empty point, no iterations and the number of calls as evaluation count.", "quantifier": "all black boxes and sequences of calls", "why_tests_cant": "all black boxes", "anchors": ["src/rbfopt/rbfopt_algorithm.py:optimize", "src/rbfopt/rbfopt_algorithm.py:__init__", "src/rbfopt/rbfopt_settings.py:set_auto_parameters"]}
{"id": "C129", "title": "Black boxes built from functions", "statement": "A black box built from dimension, bounds, types and functions is only called with points of its dimension, and its noisy method only when the user provided one: neither its assertion nor NotImplementedError is ever raised during optimization.", "quantifier": "all user functions and histories", "why_tests_cant": "all histories", "anchors": ["src/rbfopt/rbfopt_user_black_box.py:RbfoptUserBlackBox", "src/rbfopt/rbfopt_algorithm.py:optimize_serial"]}
{"id": "C130", "title": "Parallel refinement", "statement": "In parallel mode a refinement is planned exactly when none is under way and at most one was done per refinement_frequency iterations; it starts anew around the best node when there is no current one or the best value improved on the iterate, otherwise continues unchanged. Each recorded result updates radius, iterate and model set as in the serial rule; a search without usable point ends the refinement. The documented limit max_consecutive_refinement is not enforced in parallel.", "quantifier": "all states, schedules and answers", "why_tests_cant": "schedules", "anchors": ["src/rbfopt/rbfopt_algorithm.py:optimize_parallel", "src/rbfopt/rbfopt_algorithm.py:refinement_update_parallel", "src/rbfopt/rbfopt_settings.py:max_consecutive_refinement"]}
{"id": "C131", "title": "Automatic choice of the RBF type in parallel", "statement": "In parallel mode the RBF type is selected by cross validation exactly at the beginning of a cycle with rbf 'auto', more than n+2 nodes (finished and pending) and fewer than max_cross_validations selections so far; at most max_cross_validations over all calls, none when the type is fixed.", "quantifier": "all schedules and sequences of calls", "why_tests_cant": "schedules", "anchors": ["src/rbfopt/rbfopt_algorithm.py:optimize_parallel", "src/rbfopt/rbfopt_settings.py:max_cross_validations"]}
{"id": "C132", "title": "Noisy-evaluation budget", "statement": "Over all calls together, the number of noisy evaluations is at most max_noisy_evaluations, exceeded by at most S-n-1 when an initial sample has S>n+1 points. The limit is exceeded at the very start by a larger sample, and the limit on restarts in the noisy phase does not end the phase when linear algebra keeps failing.", "quantifier": "all settings, oracles, random draws and sequences of calls", "why_tests_cant": "unbounded histories of calls and restarts", "anchors": ["src/rbfopt/rbfopt_algorithm.py:optimize_serial", "src/rbfopt/rbfopt_algorithm.py:update_log", "src/rbfopt/rbfopt_settings.py:max_noisy_evaluations"]}
{"id": "C133", "title": "Parallel reuse of evaluations", "statement": "In parallel mode a search that proposes a point evaluated before the last restart reuses the old value with its error bounds. False: the call raises NameError unless the result of another evaluation was handled earlier in the same call, and a reused noisy value is recorded with the error bounds of the last noisy result received.", "quantifier": "all schedules and calls", "why_tests_cant": "histories with restarts and schedules", "anchors": ["src/rbfopt/rbfopt_algorithm.py:optimize_parallel"]}
{"id": "C134", "title": "Finite search spaces", "statement": "When every free variable is integer (none categorical), the size in the stopping test is the number of allowed points; no iteration starts once that many evaluations were made; for starting samples without repetition and evaluations without noise there are never more evaluations than points, and when there are as many, every point has been evaluated and the value returned is the minimum. With a categorical variable the size counts the vectors of the encoding and is never reached: an exhausted problem is not recognised. The program's own Latin hypercube sample can contain a point twice.", "quantifier": "all integer problems, settings, oracles and histories", "why_tests_cant": "all black boxes and histories", "anchors": ["src/rbfopt/rbfopt_algorithm.py:__init__", "src/rbfopt/rbfopt_algorithm.py:optimize_serial", "src/rbfopt/rbfopt_algorithm.py:restart", "src/rbfopt/rbfopt_utils.py:initialize_nodes"]}
{"id": "C135", "title": "Choice of the surrogate model over a run", "statement": "With rbf 'auto', cross validation is performed in exactly the first max_cross_validations iterations, over all calls together, that begin a cycle with more than n+2 nodes; with a model chosen by the user never, and that model is used always. The model in use is the initial one before the first cross validation; then the latest choice (the local one from the step before the local search on, the global one otherwise); from the last cross validation on it is fixed for ever: a choice that had not failed by then, chosen most often. No other model is ever used: the built-in replacement (cubic) is dead code. Not true: a failing model is dropped (after the last cross validation it never is); a cross validation that can rate no model leaves the model unchanged.", "quantifier": "all sequences of iterations, cross validation results and failures", "why_tests_cant": "unbounded histories", "anchors": ["src/rbfopt/rbfopt_algorithm.py:optimize_serial", "src/rbfopt/rbfopt_utils.py:get_best_rbf_model", "src/rbfopt/rbfopt_utils.py:get_most_common_element", "src/rbfopt/rbfopt_settings.py:max_cross_validations"]}
{"id": "C136", "title": "Model failures in parallel mode", "statement": "The parallel optimizer keeps exactly the model choices of the serial one, except that a linear system that cannot be solved before any cross validation took place raises IndexError instead of starting the restoration; with a model chosen by the user every such failure does.", "quantifier": "all sequences of iterations, cross validation results and failures", "why_tests_cant": "unbounded histories", "anchors": ["src/rbfopt/rbfopt_algorithm.py:optimize_parallel", "src/rbfopt/rbfopt_utils.py:get_best_rbf_model"]}
{"id": "C137", "title": "Automatic function scaling over a run", "statement": "With function_scaling 'auto' the values are unscaled until the first beginning of a cycle; afterwards the logarithm is used exactly when at the latest beginning of a cycle at least half of the values exceeded the smallest by more than log_scaling_threshold. A scaling chosen by the user is never changed. Gutmann's method is used exactly when requested and there are more nodes than variables.", "quantifier": "all sequences of node values and steps", "why_tests_cant": "unbounded histories and all real values", "anchors": ["src/rbfopt/rbfopt_algorithm.py:optimize_serial", "src/rbfopt/rbfopt_settings.py:set_auto_parameters", "src/rbfopt/rbfopt_settings.py:log_scaling_threshold"]}
{"id": "C138", "title": "Benchmark functions: declarations and domain", "statement": "For each of the 54 benchmark functions shipped with the package, dimension, bounds, variable types and optimum point agree (one bound pair and type per variable, lower below upper, whole bounds for integer and categorical variables, the optimum point in the declared space), the names are distinct, and evaluate has a value at every point of the declared space (no division by zero, logarithm or root of a negative number, missing category or table row) and rejects every argument of another length.", "quantifier": "all 54 functions and all real points of their spaces", "why_tests_cant": "uncountably many points", "anchors": ["src/rbfopt/rbfopt_test_functions.py:evaluate"]}
{"id": "C139", "title": "Benchmark functions: declared optima that are right", "statement": "For 33 of the functions the declared optimum value is exactly the global minimum over the declared (mixed-integer) space and the declared optimum point attains it; for 8 more (branin, branin_cat, camel, ex8_1_1, gear4, gear4_cat, nvs02, nvs09) it is so to within 1e-7. In exact arithmetic on the decimal literals.", "quantifier": "all real points of the spaces", "why_tests_cant": "a minimum over uncountably many points", "anchors": ["src/rbfopt/rbfopt_test_functions.py:evaluate", "src/rbfopt/rbfopt_test_functions.py:optimum_value", "src/rbfopt/rbfopt_test_functions.py:optimum_point"]}
{"id": "C140", "title": "Benchmark functions: declared optima that are beaten", "statement": "The optimum_value of a benchmark function, which the test interface uses as target, is its global minimum. False: for nvs09_cat (by more than 2), ex4_1_2, hartman3, shekel5, shekel7, shekel10, hartman3_cat, hartman6_cat, ex8_1_1_cat and ex4_1_1 there are points with a value below the declared optimum; for gear the declared value 0 is attained nowhere and the declared point is not the best.", "quantifier": "points of the declared spaces", "why_tests_cant": "needs exact bounds on exponentials and cosines", "anchors": ["src/rbfopt/rbfopt_test_functions.py:evaluate", "src/rbfopt/rbfopt_test_functions.py:optimum_value", "src/rbfopt/rbfopt_test_interface.py:main"]}
{"id": "C141", "title": "What cross validation measures", "statement": "With distinct nodes that determine the model, and exact arithmetic, the quality estimate of a surrogate model never fails: it is the sum over the best m nodes (by value) of the distance between the rank of the node and the rank, among all values, of the value predicted at it by the model built on the other nodes only (a node whose weight is at most eps_zero in magnitude counts as predicted exactly). The predictions are determined by the data. The selection returns a candidate with the smallest estimate and restores the settings.", "quantifier": "all node sets, values, orders of ties, numbers of checked nodes and factorizations", "why_tests_cant": "all real inputs", "anchors": ["src/rbfopt/rbfopt_utils.py:get_model_quality_estimate", "src/rbfopt/rbfopt_utils.py:get_best_rbf_model"]}
{"id": "C142", "title": "Cross validation with categorical variables", "statement": "The linear systems set up without the categorical variables (cross validation, and the two bumpiness computations of the accurate phase of noisy optimization) are solvable whenever the system of the current model is. False: with a categorical variable and a cubic or thin plate spline model they are always singular, so that a solver that reports singular matrices fails on them; cross validation then always returns the model in use and leaves the settings at cubic with shape 0.1, and over a whole run with rbf 'auto' only the initial model and the cubic one are ever used (in exact arithmetic).", "quantifier": "all node sets, values, categorical layouts and sequences of iterations", "why_tests_cant": "all real inputs and unbounded histories", "anchors": ["src/rbfopt/rbfopt_utils.py:get_model_quality_estimate", "src/rbfopt/rbfopt_utils.py:get_best_rbf_model", "src/rbfopt/rbfopt_utils.py:get_rbf_coefficients", "src/rbfopt/rbfopt_aux_problems.py:get_min_bump_node", "src/rbfopt/rbfopt_aux_problems.py:get_bump_new_node"]}
{"id": "C143", "title": "Benchmark functions: families", "statement": "A benchmark function with categorical variables, restricted to a suitable category, is the plain function of the same name, as a partial function on all argument vectors, and its space contains the plain space: branin_cat, hartman3_cat, hartman6_cat, ex8_1_1_cat, nvs07_cat, nvs09_cat, st_miqp1_cat, schoen_10_1_cat, schoen_10_2_cat. The categorical variable of gear4_cat has no influence on its value at all.", "quantifier": "all real vectors", "why_tests_cant": "uncountably many points", "anchors": ["src/rbfopt/rbfopt_test_functions.py:evaluate"]}
{"id": "C144", "title": "The benchmark interface", "statement": "The benchmark interface optimizes the function named on the command line (letter case ignored), with noise exactly when a positive error is given and enlarged exactly when the dimension multiplier exceeds one; its target is the declared optimum value, whatever --target_objval says, and all other parameters are as requested. It fails exactly for an unknown name, for a negative error combined with a positive one, and for invalid settings; two non-positive errors and multipliers below two are silently ignored.", "quantifier": "all command lines, names, multipliers and error sizes", "why_tests_cant": "unbounded inputs", "anchors": ["src/rbfopt/rbfopt_test_interface.py:main", "src/rbfopt/rbfopt_test_interface.py:rbfopt_test_interface", "src/rbfopt/rbfopt_test_interface.py:register_options"]}
{"id": "C145", "title": "Noisy evaluation budget in parallel mode", "statement": "In parallel mode, over all calls together and for every schedule of the workers, the number of noisy evaluations submitted exceeds max_noisy_evaluations by at most what an initial sample adds and what can be in flight (with samples of at most n+1 points and at least n+2 CPUs: less than the limit plus num_cpus); the limit itself can be exceeded. The phase ends with the first recorded result after which a limit (noisy restarts, noisy iterations, noisy evaluations) is reached, it never begins again, and after its end at most one noisy evaluation per noisy search still running is submitted.", "quantifier": "all schedules, oracles, settings and sequences of calls", "why_tests_cant": "unbounded schedules", "anchors": ["src/rbfopt/rbfopt_algorithm.py:optimize_parallel", "src/rbfopt/rbfopt_algorithm.py:phase_update", "src/rbfopt/rbfopt_algorithm.py:restart", "src/rbfopt/rbfopt_settings.py:max_noisy_evaluations"]}
{"id": "C146", "title": "Why optimize stops", "statement": "A call of optimize ends exactly when a limit is reached (iterations of the call, iterations, evaluations, size of the space, cycles, clock) or the optimality gap last computed is at most eps_opt. Without noise, a call that ends before any limit returns a value within the target (relative tolerance, absolute for a zero target); conversely an evaluation that brings the result within the target is the last one of the serial run (in parallel mode nothing more is submitted), and later calls return at once. With error bounds the whole interval of the incumbent is within the target. Not so for a restart whose sample meets the target: the run goes on. The same in parallel mode: a restart during a call never updates the gap of the stopping test.", "quantifier": "all inputs, schedules, oracles and sequences of calls", "why_tests_cant": "unbounded histories", "anchors": ["src/rbfopt/rbfopt_algorithm.py:optimize_serial", "src/rbfopt/rbfopt_algorithm.py:optimize", "src/rbfopt/rbfopt_utils.py:compute_gap", "src/rbfopt/rbfopt_algorithm.py:optimize_parallel"]}
{"id": "C147", "title": "When exactly the optimizer restarts", "statement": "In serial mode a pass at an enabled step restarts whenever a restart is due (at the beginning of a cycle: too many recent discards, or stalled with enough budget and cycles left), and, when the linear algebra succeeds, only then; a disabled step never restarts. In parallel mode, while a restart is due, no new task is submitted until all outstanding ones have been handled, then it restarts; the only other restart inside a call follows a failed linear solve.", "quantifier": "all states, settings, schedules and inputs", "why_tests_cant": "unbounded histories", "anchors": ["src/rbfopt/rbfopt_algorithm.py:optimize_serial", "src/rbfopt/rbfopt_algorithm.py:restart", "src/rbfopt/rbfopt_settings.py:max_stalled_iterations", "src/rbfopt/rbfopt_settings.py:discarded_window_size", "src/rbfopt/rbfopt_algorithm.py:optimize_parallel"]}
{"id": "C148", "title": "Which record a re-evaluation removes", "statement": "In parallel mode, when a local search asks for node number ind at point p to be evaluated again, the row removed from the records is row ind if it holds p, otherwise the first row that holds p, and no row if none does; no other step of the program removes a row.", "quantifier": "all schedules, states and answers", "why_tests_cant": "unbounded schedules; the index can be out of date", "anchors": ["src/rbfopt/rbfopt_algorithm.py:optimize_parallel"]}
{"id": "C149", "title": "Parallel evaluations are not repeated or wasted", "statement": "In parallel mode, without noise and without scaling (and with eps_zero at most min_dist), no point proposed by a search, and no point of a restart sample, is sent for evaluation when a point within eps_zero of it was sent before, pending or finished, also before an earlier restart; the only exception are starting points whose result was thrown away because it came back too close to another node. If the starting points are separated by min_dist plus twice eps_zero, and by min_dist from the points given by the user, no result is ever thrown away, and the nodes and the pending points are always pairwise more than min_dist apart.", "quantifier": "all schedules, oracles, settings and sequences of calls", "why_tests_cant": "unbounded schedules", "anchors": ["src/rbfopt/rbfopt_algorithm.py:optimize_parallel", "src/rbfopt/rbfopt_utils.py:get_min_distance", "src/rbfopt/rbfopt_algorithm.py:restart"]}
{"id": "C150", "title": "Parallel termination", "statement": "A call of optimize in parallel mode ends: with initial samples of at most S points and at least as many as the restart waits for, it has returned or failed after B steps plus five for each time the loop found tasks outstanding and none of them ready, whatever the black box, the searches, the linear algebra and the clock do; B is an explicit expression in max_cycles, max_iterations, num_global_searches, num_cpus, S and the counters at the beginning of the call. Waiting itself is not bounded: with workers that never answer the call never ends.", "quantifier": "all schedules, oracles, settings and sequences of calls", "why_tests_cant": "unbounded schedules", "anchors": ["src/rbfopt/rbfopt_algorithm.py:optimize_parallel", "src/rbfopt/rbfopt_settings.py:max_cycles", "src/rbfopt/rbfopt_settings.py:max_iterations"]}
{"id": "C151", "title": "Random streams", "statement": "The workers of a parallel call use independent random numbers. False: every worker is seeded with rand_seed, so of any two workers the numbers used by one are the first numbers used by the other, the same work given to two workers gives the same results, and every call of optimize starts the workers' numbers anew. In the main process, what is drawn after an optimizer has been created is determined by its seed and what is executed since, whatever happened before; but the generator is shared, so that creating another optimizer changes (with equal seeds: repeats) the numbers of the first one.", "quantifier": "all seeds, generators, tasks, assignments of tasks to workers and programs", "why_tests_cant": "unbounded histories", "anchors": ["src/rbfopt/rbfopt_utils.py:init_environment", "src/rbfopt/rbfopt_algorithm.py:__init__", "src/rbfopt/rbfopt_algorithm.py:optimize_parallel"]}
{"id": "C152", "title": "The summary line", "statement": "The line printed at the end of optimize shows the returned value, its distance from the target, whether it is noisy, and the returned counters. Without noise, serial and parallel, this is so. With two-phase evaluation the value shown can be smaller than the returned one (it was really obtained, but its record was removed when the point was evaluated again); it is never larger, and mark and error bound are always those of the returned record.", "quantifier": "all inputs, oracles, schedules and sequences of calls", "why_tests_cant": "unbounded histories", "anchors": ["src/rbfopt/rbfopt_algorithm.py:optimize", "src/rbfopt/rbfopt_algorithm.py:print_summary_line"]}
{"id": "C153", "title": "All optima of branin", "statement": "The declared optima of a benchmark function (optimum_point and additional_optima) are, to 1e-7, all its global minimizers: branin has exactly three, the declared ones. False for branin_cat: it has five, and the two with category 1 are not declared.", "quantifier": "all points of the space", "why_tests_cant": "uncountably many points", "anchors": ["src/rbfopt/rbfopt_test_functions.py:branin", "src/rbfopt/rbfopt_test_functions.py:branin_cat"]}
{"id": "C154", "title": "When refinement steps are made", "statement": "In serial mode a refinement phase begins exactly after an evaluated (not discarded) last search step of a cycle (with a solvable interpolation system) when refinement_frequency times the number of global search steps of a cycle (infinity step included) of iterations have passed since the last refinement, or a threshold of the budget or of the stalled iterations is passed. Inside a phase at most max_consecutive_refinement refinement steps are made unless such a threshold is passed; as long as the linear models can be built a phase goes on exactly while its points are evaluated, the radius is at least ref_min_radius and the limit is neither reached nor lifted; a discarded point or a failed linear model ends it. The documented condition (that many full cycles, and a better solution found in the meantime) is not the one applied.", "quantifier": "all states, settings, inputs and sequences of calls", "why_tests_cant": "unbounded histories", "anchors": ["src/rbfopt/rbfopt_algorithm.py:optimize_serial", "src/rbfopt/rbfopt_algorithm.py:refinement_update", "src/rbfopt/rbfopt_algorithm.py:unlimited_refinement_active", "src/rbfopt/rbfopt_settings.py:refinement_frequency", "src/rbfopt/rbfopt_settings.py:max_consecutive_refinement"]}
{"id": "C155", "title": "Symmetries of the surrogate", "statement": "The surrogate does not depend on the order in which the points were evaluated, and is unchanged when the whole problem is moved or its variables are listed in another order. It depends linearly on the values: multiplying all values by a factor multiplies it, the surrogate of a sum is the sum of the surrogates and, except for the Gaussian, adding a constant to all values adds it to the surrogate. Cubic and thin plate splines reproduce every affine objective exactly at every point, all basis functions but the Gaussian every constant one. In another unit of length nothing changes for the cubic, thin plate and linear basis functions, so for a box with sides of one length domain scaling has no effect on the surrogate; for the Gaussian it changes.", "quantifier": "all basis functions, dimensions, finite sets of distinct points with no number of the system below the zero threshold (not on a hyperplane for cubic and thin plate splines), all values and positions, and every linear solver that answers regular systems correctly", "why_tests_cant": "an equality of functions for all data sets of every size", "anchors": ["src/rbfopt/rbfopt_utils.py:get_rbf_matrix", "src/rbfopt/rbfopt_utils.py:get_rbf_coefficients", "src/rbfopt/rbfopt_utils.py:evaluate_rbf", "src/rbfopt/rbfopt_utils.py:get_rbf_function", "src/rbfopt/rbfopt_utils.py:transform_domain"]}
{"id": "C156", "title": "Runs of the external solvers", "statement": "Whichever function runs Bonmin, and whatever options its installation has, the run is limited to 45 seconds in all, 20 seconds and 1000 iterations for a nonlinear problem, may not relax the bounds and gets a seed in [0, 2^31-2); Ipopt runs have the same limits; all other options of the installation stay. A missing solver raises RuntimeError and nothing else does; a solver that raises an exception or ends with another status never stops the call. The genetic and the sampling search need no solver, minimizing the surrogate always does, whatever global_search_method is. Starting values are the given point or a random point of the box. The random numbers used (one per variable and one for the seed; one; none) do not depend on what the solver answers.", "quantifier": "all installations, solver behaviours, random sequences, settings, boxes and points", "why_tests_cant": "arbitrary external programs", "anchors": ["src/rbfopt/rbfopt_aux_problems.py:set_minlp_solver_options", "src/rbfopt/rbfopt_aux_problems.py:set_nlp_solver_options", "src/rbfopt/rbfopt_aux_problems.py:pure_global_search", "src/rbfopt/rbfopt_aux_problems.py:minimize_rbf", "src/rbfopt/rbfopt_aux_problems.py:global_search", "src/rbfopt/rbfopt_aux_problems.py:get_noisy_rbf_coefficients", "src/rbfopt/rbfopt_aux_problems.py:initialize_instance_variables"]}
{"id": "C157", "title": "Finite search spaces in parallel mode", "statement": "When every free variable is an integer, a parallel run (one that starts from distinct sample points not among the user's) never sends the same point to a worker twice, whatever the order in which the workers answer, so it never makes more evaluations than there are points. The run stops at the head of the loop once that many evaluations have been sent; when a call has ended with that many, every allowed point has been evaluated, answered and recorded, and the value returned is the minimum over the whole space. With a categorical variable the size counts the 0/1 vectors of the encoding and is never reached.", "quantifier": "all settings with eps_zero <= min_dist and min_dist + 2 eps_zero < 1, all integer problems, schedules of workers, proposals and sequences of calls", "why_tests_cant": "unbounded schedules; needs an invariant over all points ever sent", "anchors": ["src/rbfopt/rbfopt_algorithm.py:RbfoptAlgorithm.__init__", "src/rbfopt/rbfopt_algorithm.py:optimize_parallel", "src/rbfopt/rbfopt_algorithm.py:restart"]}
{"id": "C158", "title": "The stopping test in doubles", "statement": "Computed in double arithmetic, the optimality gap is monotone in the best value (if a run stops at a value it stops at every better one); another iteration is made only when the target is finite and the best value strictly worse than it (so rounding never hides that the target was reached, and a NaN value ends the loop); and the test agrees with the documented relative distance from the target up to two roundings. Not so for a user who asks for no target with -inf: the gap is NaN and no iteration is made, whatever the best value.", "quantifier": "all doubles", "why_tests_cant": "all pairs of doubles, including infinities, NaN, underflow and overflow", "anchors": ["src/rbfopt/rbfopt_utils.py:compute_gap", "src/rbfopt/rbfopt_algorithm.py:optimize_serial", "src/rbfopt/rbfopt_algorithm.py:optimize_parallel"]}
{"id": "C159", "title": "Proposed points in doubles", "statement": "In double arithmetic, clipping puts every coordinate of a proposed point inside the bounds and moves none that is inside; rounding integer coordinates gives whole numbers at most one half away, inside whole bounds; computed distances are never negative or NaN, symmetric, and zero for equal points, so a proposal equal to an interpolation point is always discarded, whatever the order of summation; distances and the test against min_dist are the exact ones up to an explicit rounding error. Not so: distance zero does not mean equal points (underflow), and a proposal with a NaN coordinate is neither clipped nor discarded but evaluated.", "quantifier": "all doubles, dimensions, sets of points, orders of summation", "why_tests_cant": "all doubles and all orders of summation", "anchors": ["src/rbfopt/rbfopt_utils.py:get_min_distance", "src/rbfopt/rbfopt_utils.py:distance", "src/rbfopt/rbfopt_utils.py:round_integer_vars", "src/rbfopt/rbfopt_utils.py:round_integer_bounds", "src/rbfopt/rbfopt_algorithm.py:optimize_serial", "src/rbfopt/rbfopt_algorithm.py:optimize_parallel"]}
{"id": "C160", "title": "Value rescaling in doubles", "statement": "In double arithmetic, for every clipping mode, with function_scaling off or affine: large values are cut off exactly under the documented condition (up to one rounding), at a median or at threshold times the minimum; unscaled values below the cutoff are used unchanged; affine values are the exact relative positions up to rounding. No transformed value is NaN or infinite, all lie between the transformed minimum and maximum (up to eps_zero for flat values), the order is kept and the best value stays best. Not so: affine scaling can make different values equal, and values near the largest double (1e308) become NaN.", "quantifier": "all lists of doubles up to 2^1000, all thresholds between 1 and 2^20, all eps_zero in (0,1], all modes", "why_tests_cant": "all lists of doubles", "anchors": ["src/rbfopt/rbfopt_utils.py:transform_function_values", "src/rbfopt/rbfopt_settings.py:dynamism_clipping", "src/rbfopt/rbfopt_settings.py:dynamism_threshold", "src/rbfopt/rbfopt_settings.py:function_scaling"]}
{"id": "C161", "title": "Single categorical variable", "statement": "A problem whose only variable is categorical can be started with the default sampling strategy. False: with four or more values the sample of a Latin hypercube strategy consists of the first, the last and the middle value, the row of the last value is zero in the matrix of the rank test, and initialization raises RuntimeError, whatever is drawn.", "quantifier": "all first values and numbers of values from four, all draws, every rank test that rejects matrices with a zero row and no more rows than columns", "why_tests_cant": "numbers of values are unbounded, the failure is independent of the random draws", "anchors": ["src/rbfopt/rbfopt_utils.py:initialize_nodes", "src/rbfopt/rbfopt_utils.py:get_lhd_maximin_points", "src/rbfopt/rbfopt_utils.py:get_lhd_corr_points", "src/rbfopt/rbfopt_utils.py:compress_categorical_bounds", "src/rbfopt/rbfopt_utils.py:expand_categorical_vars", "src/rbfopt/rbfopt_algorithm.py:__init__"]}
