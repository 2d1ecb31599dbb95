(** * Settings: construction, validation, dictionary constructor, automatic values.

    Models rbfopt_settings.py 370-690.  Definitions only.

    A settings object is modelled by its attribute dictionary ([vars(self)]): an
    association list.  Values are numbers, strings or booleans (simplification: Python
    integers and floats are both exact rationals; other value types are not modelled). *)
From Coq Require Export String.
From Verif Require Export ModelAlg.
Open Scope string_scope.
Open Scope Q_scope.

Inductive pyval := PNum (q : Q) | PStr (s : string) | PBool (b : bool).
Definition dict := list (string * pyval).

(** [d.get(k)] *)
Fixpoint lookup (k : string) (d : dict) : option pyval :=
  match d with
  | [] => None
  | (k', v) :: r => if String.eqb k k' then Some v else lookup k r
  end.
(** [d[k] = v] on an attribute dictionary that has the key. *)
Fixpoint update (k : string) (v : pyval) (d : dict) : dict :=
  match d with
  | [] => []
  | (k', w) :: r => if String.eqb k k' then (k', v) :: r else (k', w) :: update k v r
  end.
Definition keys (d : dict) : list string := map fst d.
Definition mem (k : string) (l : list string) : bool := existsb (String.eqb k) l.

(** Exceptions of the settings code. *)
Inductive serr := SValue | SType | SIndex | SAssert.
Inductive sres (A : Type) := SOk (a : A) | SFail (e : serr).
Arguments SOk {A} a.
Arguments SFail {A} e.

(** Keyword parameters of [__init__] with their default values, lines 423-485. *)
Definition defaults : dict :=
  [
   ("max_iterations", PNum (1000));
   ("max_evaluations", PNum (300));
   ("max_noisy_evaluations", PNum (200));
   ("max_cycles", PNum (1000));
   ("max_clock_time", PNum (inject_Z (10 ^ 30)));
   ("num_cpus", PNum (1));
   ("parallel_wakeup_time", PNum (1 # 10));
   ("algorithm", PStr "MSRSM");
   ("rbf", PStr "auto");
   ("rbf_shape_parameter", PNum (1 # 10));
   ("target_objval", PNum (inject_Z (- (10 ^ 10))));
   ("eps_opt", PNum (1 # 100));
   ("eps_zero", PNum (1 # (10 ^ 15)));
   ("eps_impr", PNum (1 # 10000));
   ("eps_linear_dependence", PNum (1 # 1000000));
   ("min_dist", PNum (1 # 100000));
   ("do_infstep", PBool false);
   ("do_local_search", PBool true);
   ("num_global_searches", PNum (5));
   ("init_strategy", PStr "lhd_maximin");
   ("init_include_midpoint", PBool true);
   ("init_sample_fraction", PNum (-1));
   ("init_sample_increase_parallel", PNum (1 # 20));
   ("max_random_init", PNum (50));
   ("function_scaling", PStr "auto");
   ("log_scaling_threshold", PNum (1000000));
   ("domain_scaling", PStr "auto");
   ("dynamism_clipping", PStr "auto");
   ("dynamism_threshold", PNum (1000));
   ("local_search_threshold", PNum (1 # 4));
   ("local_search_box_scaling", PNum (1 # 2));
   ("max_stalled_iterations", PNum (100));
   ("discarded_window_size", PNum (30));
   ("max_fraction_discarded", PNum (1 # 2));
   ("max_consecutive_restoration", PNum (15));
   ("max_cross_validations", PNum (50));
   ("max_noisy_restarts", PNum (2));
   ("max_noisy_iterations", PNum (200));
   ("targetval_clipping", PBool true);
   ("global_search_method", PStr "genetic");
   ("ga_base_population_size", PNum (400));
   ("ga_num_generations", PNum (20));
   ("num_samples_aux_problems", PNum (1000));
   ("modified_msrsm_score", PBool true);
   ("max_consecutive_refinement", PNum (5));
   ("thresh_unlimited_refinement", PNum (9 # 10));
   ("thresh_unlimited_refinement_stalled", PNum (9 # 10));
   ("refinement_frequency", PNum (3));
   ("ref_num_integer_candidates", PNum (10));
   ("ref_acceptable_decrease_shrink", PNum (1 # 5));
   ("ref_acceptable_decrease_enlarge", PNum (3 # 5));
   ("ref_acceptable_decrease_move", PNum (1 # 10));
   ("ref_min_radius", PNum (1 # 1000));
   ("ref_init_radius_multiplier", PNum (2));
   ("ref_min_grad_norm", PNum (1 # 100));
   ("print_solver_output", PBool false);
   ("save_state_interval", PNum (100000));
   ("save_state_file", PStr "rbfopt_algorithm_state.dat");
   ("minlp_solver_path", PStr "bonmin");
   ("nlp_solver_path", PStr "ipopt");
   ("debug", PBool false);
   ("rand_seed", PNum (inject_Z (937627691)))].

(** Lines 370-378: allowed values of the enumerated options, in the order in which they are
    tested (551-575). *)
Definition allowed : list (string * list string) :=
  [("rbf", ["auto"; "cubic"; "thin_plate_spline"; "linear"; "multiquadric"; "gaussian"]);
   ("init_strategy", ["all_corners"; "lower_corners"; "rand_corners"; "lhd_maximin"; "lhd_corr"]);
   ("function_scaling", ["off"; "affine"; "log"; "auto"]);
   ("domain_scaling", ["off"; "affine"; "auto"]);
   ("dynamism_clipping", ["off"; "median"; "clip_at_dyn"; "auto"]);
   ("algorithm", ["Gutmann"; "MSRSM"]);
   ("global_search_method", ["genetic"; "sampling"; "solver"])].

(** Lines 380-421. *)
Definition nonnegative_parameters : list string :=
  ["max_iterations"; "max_evaluations"; "max_noisy_evaluations";
   "max_cycles"; "max_clock_time"; "parallel_wakeup_time";
   "eps_opt"; "eps_zero"; "eps_impr";
   "eps_linear_dependence"; "min_dist"; "num_global_searches";
   "init_sample_increase_parallel"; "max_random_init"; "log_scaling_threshold";
   "dynamism_threshold"; "local_search_threshold"; "local_search_box_scaling";
   "max_stalled_iterations"; "discarded_window_size"; "max_fraction_discarded";
   "max_consecutive_restoration"; "max_cross_validations"; "max_noisy_restarts";
   "max_noisy_iterations"; "ga_base_population_size"; "ga_num_generations";
   "num_samples_aux_problems"; "max_consecutive_refinement"; "thresh_unlimited_refinement";
   "thresh_unlimited_refinement_stalled"; "refinement_frequency"; "ref_num_integer_candidates";
   "ref_acceptable_decrease_shrink"; "ref_acceptable_decrease_enlarge"; "ref_acceptable_decrease_move";
   "ref_min_radius"; "ref_init_radius_multiplier"; "ref_min_grad_norm";
   "save_state_interval"].

(** [self.x not in RbfoptSettings._allowed_x] 551-575. *)
Definition option_ok (d : dict) (o : string * list string) : bool :=
  match lookup (fst o) d with
  | Some (PStr s) => mem s (snd o)
  | _ => false
  end.
(** [attrs[param] < 0] 576-580: a string raises TypeError. *)
Fixpoint check_nonnegative (d : dict) (ps : list string) : sres dict :=
  match ps with
  | [] => SOk d
  | p :: r => match lookup p d with
              | Some (PNum q) => if Qltb q 0 then SFail SValue else check_nonnegative d r
              | Some (PBool _) => check_nonnegative d r
              | Some (PStr _) => SFail SType
              | None => SFail SValue       (* KeyError: does not occur *)
              end
  end.
Definition validate (d : dict) : sres dict :=
  if forallb (option_ok d) allowed then check_nonnegative d nonnegative_parameters
  else SFail SValue.

(** [RbfoptSettings( **args )] 423-580: Python rejects unknown keywords with TypeError. *)
Definition assign (args : dict) : dict :=
  map (fun kd => (fst kd, match lookup (fst kd) args with Some v => v | None => snd kd end)) defaults.
Definition construct (args : dict) : sres dict :=
  if forallb (fun k => mem k (keys defaults)) (keys args) then validate (assign args)
  else SFail SType.

(** [from_dictionary] 584-616: the valid names are the attributes of a default object. *)
Definition from_dictionary (args : dict) : sres dict :=
  match construct [] with
  | SFail e => SFail e
  | SOk valid => if forallb (fun k => mem k (keys valid)) (keys args) then construct args
                 else SFail SValue
  end.

(** [set_auto_parameters] 618-691.  The copy is the value returned; [d] is unchanged. *)
Definition is_str (k s : string) (d : dict) : bool :=
  match lookup k d with Some (PStr v) => String.eqb v s | _ => false end.
Definition if_auto (k v : string) (d : dict) : dict :=
  if is_str k "auto" d then update k (PStr v) d else d.
Definition Qlist_min (l : list Q) : Q := nth (argmin l) l 0.
(** Lines 661-675; [size] sorted: last is the largest, first the smallest. *)
Definition auto_domain (lo up : point) (ints : list nat) (d : dict) : sres dict :=
  if is_str "domain_scaling" "auto" d then
    match ints with
    | _ :: _ => SOk (update "domain_scaling" (PStr "off") d)
    | [] => let size := map2 Qminus up lo in
            match size with
            | [] => SFail SIndex
            | _ => SOk (update "domain_scaling"
                         (PStr (if Qle_bool (5 * Qlist_min size) (Qlist_max size)
                                then "affine" else "off")) d)
            end
    end
  else SOk d.
(** Lines 677-688. *)
Definition auto_fraction (dimension : nat) (d : dict) : dict :=
  match lookup "init_sample_fraction" d, lookup "num_cpus" d with
  | Some (PNum f), Some (PNum cpus) =>
      if Qltb f 0 then
        update "init_sample_fraction"
          (PNum (if Qle_bool cpus 2 then (if (dimension <=? 20)%nat then 1#2 else 2#5)
                 else if (dimension <=? 20)%nat then 1
                 else if (dimension <=? 50)%nat then 3#4 else 1#2)) d
      else d
  | _, _ => d      (* non-numeric values: not modelled *)
  end.
Definition set_auto_parameters (dimension : nat) (lo up : point) (ints : list nat) (d : dict)
  : sres dict :=
  if (dimension =? length lo)%nat && (dimension =? length up)%nat &&
     forallb (fun j => (j <? dimension)%nat) ints
  then match auto_domain lo up ints
               (if_auto "dynamism_clipping" "median"
               (if_auto "function_scaling" "off"
               (if_auto "rbf" "thin_plate_spline" d))) with
       | SOk d' => SOk (auto_fraction dimension d')
       | SFail e => SFail e
       end
  else SFail SAssert.

(** The same on a heap of settings objects (object = position): [copy.deepcopy(self)] (656)
    allocates a new object and all assignments go to it. *)
Definition auto_on_heap (dimension : nat) (lo up : point) (ints : list nat)
  (heap : list dict) (self : nat) : sres (list dict * nat) :=
  match nth_error heap self with
  | None => SFail SAssert
  | Some d => match set_auto_parameters dimension lo up ints d with
              | SOk d' => SOk ((heap ++ [d'])%list, List.length heap)
              | SFail e => SFail e
              end
  end.
