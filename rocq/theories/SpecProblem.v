(** * Specification vocabulary for the optimizer as a whole (C125 - C129). *)
From Verif Require Export ModelProblem SpecCategorical SpecInit SpecSettings SpecGA SpecParallel SpecAlg.
Open Scope string_scope.
Open Scope Q_scope.

(** [v] is a value the user allows for the free variable [i]: a real between the bounds; an
    integer between the bounds rounded outwards (for an integer variable, and for a categorical one
    with bounds one apart); one of the categories lower, lower + 1, ... up to upper. *)
Definition integer_value (b : bbox) (i : nat) (v : Q) : Prop :=
  integral v /\ inject_Z (Qfloor (lower b i)) <= v <= inject_Z (Qceiling (upper b i)).
Definition allowed_value (b : bbox) (i : nat) (v : Q) : Prop :=
  match vtype_of b i with
  | VReal => lower b i <= v <= upper b i
  | VInt => integer_value b i v
  | VCat => if Qeq_bool (upper b i - lower b i) 1 then integer_value b i v
            else category (lower b i) (upper b i) v
  end.
(** [x] is a point of the user's problem: one coordinate per variable of the black box, the
    fixed variables at their value, every other variable at an allowed value. *)
Definition declared (eps : Q) (b : bbox) (x : point) : Prop :=
  length x = bb_dim b /\
  forall i, (i < bb_dim b)%nat ->
    if fixedb eps b i then nth i x 0 = lower b i else allowed_value b i (nth i x 0).
(** The same for a point given by its free coordinates only. *)
Definition declared_free (eps : Q) (b : bbox) (x : point) : Prop :=
  length x = length (free_vars eps b) /\
  forall k, (k < length (free_vars eps b))%nat -> allowed_value b (nth k (free_vars eps b) 0%nat) (nth k x 0).

(** A point of the space in which the optimizer searches that encodes a choice of categories: exactly one
    1 in each block, 0 elsewhere in the block; integers where the variable is not real. Bounds are not required. *)
Definition encodes (eps : Q) (b : bbox) (q : point) : Prop :=
  length q = encoded_dim eps b /\
  (forall k, (k < length (plain_vars eps b))%nat -> vtype_of b (nth k (plain_vars eps b) 0%nat) <> VReal ->
     integral (nth k q 0)) /\
  (forall k, (k < length (cat_vars eps b))%nat ->
    exists j, (j < num_values b (nth k (cat_vars eps b) 0%nat))%nat /\
      nth (block_start eps b k + j) q 0 == 1 /\
      forall j', (j' < num_values b (nth k (cat_vars eps b) 0%nat))%nat -> j' <> j ->
        nth (block_start eps b k + j') q 0 == 0).

(** Numeric value of a setting. *)
Definition setting (d : dict) (k : string) (v : Q) : Prop :=
  lookup k d = Some (PNum v) \/ exists b, lookup k d = Some (PBool b) /\ v = if b then 1 else 0.
(** Scaling of the domain cannot meet integer variables: it is chosen by the program, switched
    off, or every free variable is real. *)
Definition scaling_safe (d : dict) (eps : Q) (b : bbox) : Prop :=
  lookup "domain_scaling" d = Some (PStr "auto") \/ lookup "domain_scaling" d = Some (PStr "off") \/
  (forall i, In i (free_vars eps b) -> vtype_of b i = VReal).

(** The environment of a run: starting samples are feasible encoded points; search steps propose
    encoded points, possibly outside the bounds. *)
Definition sound_inputs (eps : Q) (b : bbox) (i : inp) : Prop :=
  let s := construct_problem eps b in
  (forall pts q, i_samples i = Some pts -> In q pts ->
     encodes eps b q /\ feasible (box_lower s) (box_upper s) (s_ints s) q) /\
  (forall q, i_prop i = Some q -> encodes eps b q).

(** The same for parallel mode: samples, and answers of the search workers. *)
Definition sound_pins (eps : Q) (b : bbox) (q : pin) : Prop :=
  let s := construct_problem eps b in
  (forall pts x, i_samples (q_inp q) = Some pts -> In x pts ->
     encodes eps b x /\ feasible (box_lower s) (box_upper s) (s_ints s) x) /\
  (forall x, proposes q x -> encodes eps b x).

(** A starting sample computed by the program's Latin hypercube strategies (any strategy when no
    variable is categorical), from proper random draws. *)
Definition computed_sample (eps : Q) (b : bbox) (pts : list point) : Prop :=
  let s := construct_problem eps b in
  exists ic attempts, (is_lhd (i_strategy ic) = true \/ cat_vars eps b = []) /\
    (forall a, In a attempts -> good_attempt (requested ic s) (sampled_dim ic s) a) /\
    initial_sample ic s attempts = InitOk pts.
(** A point computed by the program's genetic search inside the user's box, from proper random draws,
    for any scoring. *)
Definition computed_search (eps : Q) (b : bbox) (q : point) : Prop :=
  let s := construct_problem eps b in
  exists lo up base N objfun rows gens final,
    let sp := search_space s lo up (s_ints s) in
    search_box eps b lo up /\ (forall m, List.length (objfun m) = List.length m) /\
    uniform_rows (population_size base (s_dim s)) (sp_dim sp) rows /\
    run_ok sp base (s_dim s) N 0 objfun (generate_sample_points sp rows) gens /\
    sorts (objfun (ga_population sp base (s_dim s) rows gens)) final /\
    q = ga_optimize sp base (s_dim s) rows gens final.
Definition computed_inputs (eps : Q) (b : bbox) (i : inp) : Prop :=
  (forall pts, i_samples i = Some pts -> computed_sample eps b pts) /\
  (forall q, i_prop i = Some q -> computed_search eps b q).

(** Settings that must be whole numbers / numbers / truth values for the constructor to be in the
    scope of the model. *)
Definition count_settings : list string :=
  ["max_iterations"; "max_evaluations"; "max_cycles"; "max_noisy_evaluations"; "max_noisy_restarts"; "max_noisy_iterations";
   "num_global_searches"; "discarded_window_size"; "num_cpus"; "max_stalled_iterations"; "refinement_frequency";
   "max_consecutive_refinement"; "max_consecutive_restoration"; "save_state_interval"].
Definition number_settings : list string :=
  ["eps_opt"; "eps_zero"; "eps_impr"; "min_dist"; "target_objval"; "max_fraction_discarded"; "thresh_unlimited_refinement";
   "thresh_unlimited_refinement_stalled"; "ref_min_radius"; "ref_acceptable_decrease_shrink"; "ref_acceptable_decrease_enlarge";
   "ref_acceptable_decrease_move"; "init_sample_fraction"].
Definition truth_settings : list string := ["do_infstep"; "do_local_search"].
Definition proper_settings (d : dict) : Prop :=
  (forall k, In k count_settings -> exists v z, setting d k v /\ v == inject_Z z) /\
  (forall k, In k number_settings -> exists v, setting d k v) /\
  (forall k, In k truth_settings -> exists v, setting d k v).

(** What the constructor requires of its arguments. *)
Definition consistent_arguments (d : dict) (eps frac : Q) (b : bbox) (u : user_data) : Prop :=
  (1 <= bb_dim b)%nat /\ List.length (bb_upper b) = bb_dim b /\ List.length (bb_type b) = bb_dim b /\
  (forall ps vs, u_pos u = Some ps -> u_val u = Some vs -> List.length ps = List.length vs) /\
  (u_init u = true \/ exists ps, u_pos u = Some ps /\
     (round_half_even (inject_Z (Z.of_nat (s_dim (construct_problem eps b)) + 1) * frac) <= Z.of_nat (List.length ps))%Z) /\
  (forall ps, u_pos u = Some ps -> (forall x, In x ps -> List.length x = List.length (free_vars eps b)) /\
     (ps = [] -> free_vars eps b = [])) /\
  ~ (free_vars eps b = [] /\ lookup "domain_scaling" d = Some (PStr "auto")).

(** The optimizer's limits, tolerances and switches, by the name of the user's setting. The settings that
    the program may fill in by itself are absent ([init_sample_fraction]). *)
Definition count_fields (c : cfg) : list (string * Z) :=
  [("max_iterations", max_iterations c); ("max_evaluations", max_evaluations c); ("max_cycles", max_cycles c);
   ("max_noisy_evaluations", max_noisy_evaluations c); ("max_noisy_restarts", max_noisy_restarts c);
   ("max_noisy_iterations", max_noisy_iterations c); ("num_global_searches", num_global_searches c);
   ("discarded_window_size", discarded_window_size c); ("num_cpus", num_cpus c);
   ("max_stalled_iterations", max_stalled_iterations c); ("refinement_frequency", refinement_frequency c);
   ("max_consecutive_refinement", max_consecutive_refinement c); ("max_consecutive_restoration", max_consecutive_restoration c);
   ("save_state_interval", save_state_interval c)].
Definition number_fields (c : cfg) : list (string * Q) :=
  [("eps_opt", eps_opt c); ("eps_zero", eps_zero c); ("eps_impr", eps_impr c); ("min_dist", min_dist c);
   ("target_objval", target_objval c); ("max_fraction_discarded", max_fraction_discarded c);
   ("thresh_unlimited_refinement", thresh_unlimited_refinement c);
   ("thresh_unlimited_refinement_stalled", thresh_unlimited_refinement_stalled c); ("ref_min_radius", ref_min_radius c);
   ("ref_acceptable_decrease_shrink", ref_shrink c); ("ref_acceptable_decrease_enlarge", ref_enlarge c);
   ("ref_acceptable_decrease_move", ref_movethr c)].
Definition truth_fields (c : cfg) : list (string * bool) :=
  [("do_infstep", do_infstep c); ("do_local_search", do_local_search c)].
