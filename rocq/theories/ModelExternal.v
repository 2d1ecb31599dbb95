(** * Runs of the external solvers: rbfopt_aux_problems.py [pure_global_search] 54-192 (dispatch),
    [minimize_rbf] 195-318, [global_search] 321-530 (dispatch), [initialize_instance_variables] 533-562,
    [get_noisy_rbf_coefficients] 587-713 (solver run), [set_minlp_solver_options] 881-908 and
    [set_nlp_solver_options] 911-935.

    Definitions only.  The optimization problem itself is ModelPyomo; the genetic and the sampling
    search are ModelGA and ModelAux: here their result is an argument.  What a solver answers may
    depend on its options and on the starting values.  The random numbers are a sequence: a position
    in it is the state of the generator, [uni i] the i-th number as a uniform number of [0, 1),
    [rint i m] the i-th as [np.random.randint(m)].  Every call uses one number of the sequence. *)
From Verif Require Export ModelLinear.
From Coq Require Import String ZArith List.
Import ListNotations.
Open Scope R_scope.

Inductive option_value := OInt (z : Z) | OReal (r : R) | OText (s : string).
(** [solver.options]: a dictionary. *)
Definition options := list (string * option_value).
Fixpoint set_option (d : options) (k : string) (v : option_value) : options :=
  match d with
  | [] => [(k, v)]
  | (k', v') :: r => if String.eqb k' k then (k, v) :: r else (k', v') :: set_option r k v
  end.
Definition set_list (d : options) (l : options) : options := fold_left (fun d kv => set_option d (fst kv) (snd kv)) l d.

(** 890-898. *)
Definition minlp_solver_options : options :=
  [("bonmin.num_resolve_at_root", OInt 10);
   ("bonmin.num_retry_unsolved_random_point", OInt 5);
   ("bonmin.num_resolve_at_infeasibles", OInt 5);
   ("bonmin.algorithm", OText "B-BB");
   ("bonmin.time_limit", OInt 45);
   ("acceptable_tol", OReal (1 / 1000));
   ("max_cpu_time", OInt 20);
   ("max_iter", OInt 1000);
   ("bound_relax_factor", OReal 0)]%string.
(** 921-925. *)
Definition nlp_solver_options : options :=
  [("acceptable_tol", OReal (1 / 1000));
   ("honor_original_bounds", OText "yes");
   ("max_cpu_time", OInt 20);
   ("max_iter", OInt 1000);
   ("bound_relax_factor", OReal 0)]%string.
(** 900. *)
Definition minlp_solver_max_seed : Z := 2 ^ 31 - 2.

Record randoms := mkRandoms { uni : nat -> R; rint : nat -> Z -> Z }.

(** [set_minlp_solver_options] 902-905; [pos]: state of the generator. *)
Definition set_minlp_solver_options (g : randoms) (d : options) (pos : nat) : options * nat :=
  (set_option (set_list d minlp_solver_options) "bonmin.random_generator_seed" (OInt (rint g pos minlp_solver_max_seed)), S pos).
(** [set_nlp_solver_options] 929-932: [nlp_solver_rand_seed_option] is None. *)
Definition set_nlp_solver_options (d : options) (pos : nat) : options * nat := (set_list d nlp_solver_options, pos).

(** [initialize_instance_variables] 551-560. *)
Definition initialize_instance_variables (g : randoms) (lo up : rpoint) (start : option rpoint) (pos : nat) : rpoint * nat :=
  match start with
  | Some p => (p, pos)
  | None => (start_values lo up None (map (uni g) (seq pos (length lo))), (pos + length lo)%nat)
  end.

(** One call of one of the functions below: what comes back ([ValueError], [RuntimeError] or a value),
    the options and starting values handed to the solver if it was started, the state of the generator. *)
Inductive outcome (A : Type) := EValueError | ERuntimeError | EValue (a : A).
Arguments EValueError {A}. Arguments ERuntimeError {A}. Arguments EValue {A} a.
Record called (A : Type) := mkCalled { result : outcome A; started : option (options * rpoint); position : nat }.
Arguments mkCalled {A}. Arguments result {A}. Arguments started {A}. Arguments position {A}.

(** A solver as Pyomo sees it: whether the executable is there ([opt.available()]), the options it
    starts with ([SolverFactory]), what [opt.solve] does with given options and starting values. *)
Record solver (A : Type) := mkSolver { available : bool; factory_options : options; answers : options -> rpoint -> A }.
Arguments mkSolver {A}. Arguments available {A}. Arguments factory_options {A}. Arguments answers {A}.

(** 166-187, 295-316, 497-519: [x0] starting values, after them the options are set. *)
Definition run_minlp (g : randoms) (s : solver solver_answer) (ints : list nat) (x0 : rpoint) (pos : nat) : called (option rpoint) :=
  if available s then
    let '(d, pos') := set_minlp_solver_options g (factory_options s) pos in
    mkCalled (EValue (solver_point ints (answers s d x0))) (Some (d, x0)) pos'
  else mkCalled ERuntimeError None pos.

(** [settings.algorithm.upper()] and [settings.global_search_method]. *)
Inductive algorithm := AlgGutmann | AlgMSRSM | AlgOther.
Inductive method := Genetic (p : option rpoint) (draws : nat) | Sampling (p : option rpoint) (draws : nat) | Solver | MethodOther.

(** [pure_global_search] 121-190 and [global_search] 439-527 (the two differ in the problem only;
    [initialize_msrsm_aux_variables] draws nothing).  The checks on the basis function never fail for
    the values that RbfoptSettings accepts.  [Genetic p m]: the search returns [p] after [m] draws. *)
Definition global_search (a : algorithm) (m : method) (g : randoms) (s : solver solver_answer) (ints : list nat)
    (lo up : rpoint) (pos : nat) : called (option rpoint) :=
  match m with
  | Genetic p k | Sampling p k =>
      match a with AlgOther => mkCalled EValueError None pos | _ => mkCalled (EValue p) None (pos + k)%nat end
  | Solver =>
      match a with
      | AlgOther => mkCalled EValueError None pos
      | _ => let '(x0, pos') := initialize_instance_variables g lo up None pos in run_minlp g s ints x0 pos'
      end
  | MethodOther => mkCalled EValueError None pos
  end.
(** [minimize_rbf] 288-318: does not look at [global_search_method] nor at the algorithm. *)
Definition minimize_rbf (g : randoms) (s : solver solver_answer) (ints : list nat) (lo up : rpoint) (best : option rpoint)
    (pos : nat) : called (option rpoint) :=
  let '(x0, pos') := initialize_instance_variables g lo up best pos in run_minlp g s ints x0 pos'.
(** 681-685: starting values of the coefficients. *)
Definition initial_values (init : option (list R * list R)) : rpoint :=
  match init with Some (lam, h) => lam ++ h | None => [] end.
(** [get_noisy_rbf_coefficients] 672-713; [answers] None: another status or an exception.  [init]: the
    initial coefficients, which are also the result then. *)
Definition noisy_coefficients (s : solver (option (list R * list R))) (init : option (list R * list R)) (pos : nat)
  : called (option (list R * list R)) :=
  if available s then
    let '(d, pos') := set_nlp_solver_options (factory_options s) pos in
    let x0 := initial_values init in
    mkCalled (EValue (match answers s d x0 with Some c => Some c | None => init end)) (Some (d, x0)) pos'
  else mkCalled ERuntimeError None pos.
