(** * Specification vocabulary for the settings (C37 - C40).

    Written from the documentation of the class (rbfopt_settings.py 30-345), not from its
    code: parameter names with their documented defaults, documented choices of the
    enumerated options, and the parameters documented as possibly negative. *)
From Verif Require Export ModelSettings.
Open Scope string_scope.
Open Scope Q_scope.

Definition documented_defaults : dict :=
  [
   ("max_iterations", PNum (inject_Z (1000)));
   ("max_evaluations", PNum (inject_Z (300)));
   ("max_noisy_evaluations", PNum (inject_Z (200)));
   ("max_cycles", PNum (inject_Z (1000)));
   ("max_clock_time", PNum (inject_Z ((10 ^ 30))));
   ("algorithm", PStr "MSRSM");
   ("num_cpus", PNum (inject_Z (1)));
   ("parallel_wakeup_time", PNum (1 # 10));
   ("rbf", PStr "auto");
   ("rbf_shape_parameter", PNum (1 # 10));
   ("target_objval", PNum (inject_Z (- (10 ^ 10))));
   ("eps_opt", PNum (1 # 100));
   ("eps_zero", PNum (1 # 1000000000000000));
   ("eps_impr", PNum (1 # 10000));
   ("eps_linear_dependence", PNum (1 # 1000000));
   ("min_dist", PNum (1 # 100000));
   ("do_infstep", PBool false);
   ("do_local_search", PBool true);
   ("num_global_searches", PNum (inject_Z (5)));
   ("init_strategy", PStr "lhd_maximin");
   ("init_include_midpoint", PBool true);
   ("init_sample_fraction", PNum (inject_Z (-1)));
   ("init_sample_increase_parallel", PNum (1 # 20));
   ("max_random_init", PNum (inject_Z (50)));
   ("function_scaling", PStr "auto");
   ("log_scaling_threshold", PNum (inject_Z (1000000)));
   ("domain_scaling", PStr "auto");
   ("dynamism_clipping", PStr "auto");
   ("dynamism_threshold", PNum (inject_Z (1000)));
   ("local_search_threshold", PNum (1 # 4));
   ("local_search_box_scaling", PNum (1 # 2));
   ("max_stalled_iterations", PNum (inject_Z (100)));
   ("discarded_window_size", PNum (inject_Z (30)));
   ("max_fraction_discarded", PNum (1 # 2));
   ("max_consecutive_restoration", PNum (inject_Z (15)));
   ("max_cross_validations", PNum (inject_Z (50)));
   ("max_noisy_restarts", PNum (inject_Z (2)));
   ("max_noisy_iterations", PNum (inject_Z (200)));
   ("targetval_clipping", PBool true);
   ("global_search_method", PStr "genetic");
   ("ga_base_population_size", PNum (inject_Z (400)));
   ("ga_num_generations", PNum (inject_Z (20)));
   ("num_samples_aux_problems", PNum (inject_Z (1000)));
   ("modified_msrsm_score", PBool true);
   ("max_consecutive_refinement", PNum (inject_Z (5)));
   ("thresh_unlimited_refinement", PNum (9 # 10));
   ("thresh_unlimited_refinement_stalled", PNum (9 # 10));
   ("refinement_frequency", PNum (inject_Z (3)));
   ("ref_num_integer_candidates", PNum (inject_Z (10)));
   ("ref_acceptable_decrease_shrink", PNum (1 # 5));
   ("ref_acceptable_decrease_enlarge", PNum (3 # 5));
   ("ref_acceptable_decrease_move", PNum (1 # 10));
   ("ref_min_radius", PNum (1 # 1000));
   ("ref_init_radius_multiplier", PNum (inject_Z (2)));
   ("ref_min_grad_norm", PNum (1 # 100));
   ("save_state_interval", PNum (inject_Z (100000)));
   ("save_state_file", PStr "rbfopt_algorithm_state.dat");
   ("print_solver_output", PBool false);
   ("minlp_solver_path", PStr "bonmin");
   ("nlp_solver_path", PStr "ipopt");
   ("debug", PBool false);
   ("rand_seed", PNum (inject_Z (937627691)))].
Definition parameter (k : string) : Prop := In k (map fst documented_defaults).

(** Documented choices. *)
Definition choice (option value : string) : Prop :=
  (option = "algorithm" /\ (value = "Gutmann" \/ value = "MSRSM")) \/
  (option = "rbf" /\ (value = "cubic" \/ value = "thin_plate_spline" \/ value = "linear" \/
                      value = "multiquadric" \/ value = "gaussian" \/ value = "auto")) \/
  (option = "init_strategy" /\ (value = "all_corners" \/ value = "lower_corners" \/
                      value = "rand_corners" \/ value = "lhd_maximin" \/ value = "lhd_corr")) \/
  (option = "function_scaling" /\ (value = "off" \/ value = "affine" \/ value = "log" \/ value = "auto")) \/
  (option = "domain_scaling" /\ (value = "off" \/ value = "affine" \/ value = "auto")) \/
  (option = "dynamism_clipping" /\ (value = "off" \/ value = "median" \/
                      value = "clip_at_dyn" \/ value = "auto")) \/
  (option = "global_search_method" /\ (value = "genetic" \/ value = "sampling" \/ value = "solver")).
Definition enumerated (option : string) : Prop := exists v, choice option v.

(** Numeric parameters that may be negative (a target, a shape, a seed, the automatic sample
    fraction) or are not checked (the number of processors); all other numeric ones must be
    nonnegative. *)
Definition unchecked_numbers : list string :=
  ["target_objval"; "rbf_shape_parameter"; "rand_seed"; "init_sample_fraction"; "num_cpus"].
Definition must_be_nonnegative (k : string) : Prop :=
  (exists q, In (k, PNum q) documented_defaults) /\ ~ In k unchecked_numbers.

(** The value of parameter [k] when settings are built with arguments [args]. *)
Definition effective (args : dict) (k : string) (v : pyval) : Prop :=
  lookup k args = Some v \/ (lookup k args = None /\ In (k, v) documented_defaults).
(** A boolean counts as a number in Python. *)
Definition nonnegative (v : pyval) : Prop :=
  match v with PNum q => 0 <= q | PBool _ => True | PStr _ => False end.

(** What it means for arguments to be valid. *)
Definition valid_args (args : dict) : Prop :=
  (forall k v, In (k, v) args -> parameter k) /\
  (forall o, enumerated o -> exists s, effective args o (PStr s) /\ choice o s) /\
  (forall k, must_be_nonnegative k -> exists v, effective args k v /\ nonnegative v).

(** Width of the range of variable [j]. *)
Definition range (lo up : point) (j : nat) : Q := nth j up 0 - nth j lo 0.
(** Value [k] is to be chosen by the program. *)
Definition left_to_program (d : dict) (k : string) : Prop :=
  lookup k d = Some (PStr "auto") \/
  (k = "init_sample_fraction" /\ exists f, lookup k d = Some (PNum f) /\ f < 0).
