(** * Command line interface.

    Models rbfopt_cl_interface.py: [register_options] 31-116 and [rbfopt_cl_interface]
    119-202.  Definitions only.
    Simplifications: the conversions [float], [int], [ast.literal_eval] and [str] of an
    option text are an arbitrary partial function [conv]; abbreviations of option names and
    short options of argparse are not modelled; the optimizer itself is represented by the
    way it is created and called ([plan]); numpy refuses rows of different lengths (numpy
    1.24 and later). *)
From Verif Require Export ModelSettings.
Open Scope string_scope.
Open Scope Q_scope.

(** The type names that the docstring of the settings gives, 53-70; everything that is not
    float, int or bool is converted with [str]. *)
Inductive kind := KInt | KFloat | KBool | KStr.

(** Names and types found by [register_options] 46-51 in the docstring of RbfoptSettings
    (rbfopt_settings.py 36-368: entries "name : type" between "Parameters" and
    "Attributes"), in order. *)
Definition registered : list (string * kind) :=
  [("max_iterations", KInt);
   ("max_evaluations", KInt);
   ("max_noisy_evaluations", KInt);
   ("max_cycles", KInt);
   ("max_clock_time", KFloat);
   ("algorithm", KStr);
   ("num_cpus", KInt);
   ("parallel_wakeup_time", KFloat);
   ("rbf", KStr);
   ("rbf_shape_parameter", KFloat);
   ("target_objval", KFloat);
   ("eps_opt", KFloat);
   ("eps_zero", KFloat);
   ("eps_impr", KFloat);
   ("eps_linear_dependence", KFloat);
   ("min_dist", KFloat);
   ("do_infstep", KBool);
   ("do_local_search", KBool);
   ("num_global_searches", KInt);
   ("init_strategy", KStr);
   ("init_include_midpoint", KBool);
   ("init_sample_fraction", KFloat);
   ("init_sample_increase_parallel", KFloat);
   ("max_random_init", KInt);
   ("function_scaling", KStr);
   ("log_scaling_threshold", KFloat);
   ("domain_scaling", KStr);
   ("dynamism_clipping", KStr);
   ("dynamism_threshold", KFloat);
   ("local_search_threshold", KFloat);
   ("local_search_box_scaling", KFloat);
   ("max_stalled_iterations", KInt);
   ("discarded_window_size", KInt);
   ("max_fraction_discarded", KFloat);
   ("max_consecutive_restoration", KInt);
   ("max_cross_validations", KInt);
   ("max_noisy_restarts", KInt);
   ("max_noisy_iterations", KInt);
   ("targetval_clipping", KBool);
   ("global_search_method", KStr);
   ("ga_base_population_size", KInt);
   ("ga_num_generations", KInt);
   ("num_samples_aux_problems", KInt);
   ("modified_msrsm_score", KBool);
   ("max_consecutive_refinement", KInt);
   ("thresh_unlimited_refinement", KFloat);
   ("thresh_unlimited_refinement_stalled", KFloat);
   ("refinement_frequency", KInt);
   ("ref_num_integer_candidates", KInt);
   ("ref_acceptable_decrease_shrink", KFloat);
   ("ref_acceptable_decrease_enlarge", KFloat);
   ("ref_acceptable_decrease_move", KFloat);
   ("ref_min_radius", KFloat);
   ("ref_init_radius_multiplier", KFloat);
   ("ref_min_grad_norm", KFloat);
   ("save_state_interval", KInt);
   ("save_state_file", KStr);
   ("print_solver_output", KBool);
   ("minlp_solver_path", KStr);
   ("nlp_solver_path", KStr);
   ("debug", KBool);
   ("rand_seed", KInt)].

(** Options given on the command line, in order: option name and text. *)
Definition given_options := list (string * string).
(** [type_fun(text)]; None: argparse prints an error and exits. *)
Definition converter := kind -> string -> option pyval.

Fixpoint kind_of (k : string) (l : list (string * kind)) : option kind :=
  match l with
  | [] => None
  | (k', t) :: r => if String.eqb k k' then Some t else kind_of k r
  end.
(** [parser.parse_args()] on the algorithmic options: every option has its default from
    a default settings object (line 70); later occurrences override earlier ones.  None:
    exit with an error message. *)
Fixpoint parse (conv : converter) (d : dict) (os : given_options) : option dict :=
  match os with
  | [] => Some d
  | (k, text) :: r =>
      match kind_of k registered with
      | None => None
      | Some t => match conv t text with
                  | None => None
                  | Some v => parse conv (update k v d) r
                  end
      end
  end.
Definition initial_options (d0 : dict) : dict :=
  map (fun kt => (fst kt, match lookup (fst kt) d0 with Some v => v | None => PStr "" end)) registered.

(** Values of [vars(args)]. *)
Inductive aval := AVal (v : pyval) | ANone.
Definition adict := list (string * aval).
Fixpoint alookup (k : string) (d : adict) : option aval :=
  match d with
  | [] => None
  | (k', v) :: r => if String.eqb k k' then Some v else alookup k r
  end.
(** [del d[k]] (the key must be there); a dictionary has each key once. *)
Fixpoint adel (k : string) (d : adict) : option adict :=
  match d with
  | [] => None
  | (k', v) :: r => if String.eqb k k' then Some r else option_map (cons (k', v)) (adel k r)
  end.
(** The keys deleted in lines 151-157. *)
Definition interface_keys : list string :=
  ["black_box_file"; "output_stream"; "load_state"; "dump_state"; "points_file"; "pause"; "print_solution"].
Fixpoint adels (ks : list string) (d : adict) : option adict :=
  match ks with
  | [] => Some d
  | k :: r => match adel k d with None => None | Some d' => adels r d' end
  end.
(** The remaining values are handed to [from_dictionary] ([None] values of recognized
    parameters are outside the model of the settings). *)
Fixpoint to_settings (d : adict) : dict :=
  match d with
  | [] => []
  | (k, AVal v) :: r => (k, v) :: to_settings r
  | (_, ANone) :: r => to_settings r
  end.

(** How the optimizer is created (161-191). *)
Inductive source :=
| Fresh (settings : dict) (pos : option (list point)) (vals : option (list Q))
| Loaded (file : string).
(** What the rest of the call does with it (192-202): iterations before the pause, whether
    the solution is printed, where the state is saved, where the output goes. *)
Record plan := mkPlan {
  pl_source : source; pl_pause : Q; pl_print : bool; pl_dump : option string; pl_log : option string }.

Inductive cerr := CNotBlackBox | CKey | CSettings (e : serr) | CUnbound | CFile | CIndex | CRagged | CType.
Inductive cres (A : Type) := COk (a : A) | CFail (e : cerr).
Arguments COk {A} a.
Arguments CFail {A} e.

(** Files: whether a log file can be opened, and the numbers in a points file, line by line
    (None: it cannot be opened or a word is not a number). *)
Record files := mkFiles { can_open : string -> bool; rows_of : string -> option (list (list Q)) }.

(** [np.array] of a list of rows. *)
Definition regular (rows : list (list Q)) : bool :=
  match rows with
  | [] => true
  | r :: _ => forallb (fun x => (length x =? length r)%nat) rows
  end.
(** 164-186. *)
Definition read_points (dim : nat) (rows : list (list Q)) : cres (list point * option (list Q)) :=
  match rows with
  | [] => CFail CIndex                      (* init_node_pos[0] *)
  | r :: _ =>
      if (length r =? dim + 1)%nat then
        if existsb (fun x => (length x =? 0)%nat) rows then CFail CIndex    (* val[-1] *)
        else let pos := map (fun x => removelast x) rows in
             if regular pos then COk (pos, Some (map (fun x => last x 0) rows)) else CFail CRagged
      else if regular rows then COk (rows, None) else CFail CRagged
  end.

Definition text_of (a : aval) : option string := match a with AVal (PStr s) => Some s | _ => None end.
Definition truth (a : aval) : bool :=
  match a with
  | ANone => false
  | AVal (PBool b) => b
  | AVal (PNum q) => negb (Qeq_bool q 0)
  | AVal (PStr s) => negb (String.eqb s "")
  end.

(** [rbfopt_cl_interface(args, black_box)] 119-202. *)
Definition cl_interface (fs : files) (is_bb : bool) (dim : nat) (args : adict) : cres plan :=
  if negb is_bb then CFail CNotBlackBox else
  match alookup "output_stream" args with
  | None => CFail CKey
  | Some o =>
      (* 141-148: a failed open is reported and leaves the variable unassigned *)
      let opened := match text_of o with None => true | Some f => can_open fs f end in
      match adels interface_keys args with
      | None => CFail CKey
      | Some rest =>
          match from_dictionary (to_settings rest) with
          | SFail e => CFail (CSettings e)
          | SOk settings =>
              if negb opened then CFail CUnbound else
              match alookup "load_state" args, alookup "points_file" args, alookup "pause" args,
                    alookup "print_solution" args, alookup "dump_state" args with
              | Some ld, Some pf, Some (AVal (PNum pa)), Some ps, Some du =>
                  let finish src := COk (mkPlan src pa (truth ps) (text_of du) (text_of o)) in
                  match text_of ld with
                  | Some f => finish (Loaded f)
                  | None =>
                      match text_of pf with
                      | None => finish (Fresh settings None None)
                      | Some f =>
                          match rows_of fs f with
                          | None => CFail CFile
                          | Some rows =>
                              match read_points dim rows with
                              | CFail e => CFail e
                              | COk (pos, vals) => finish (Fresh settings (Some pos) vals)
                              end
                          end
                      end
                  end
              | _, _, _, _, _ => CFail CType
              end
          end
      end
  end.

(** The dictionary built by [main] from the parsed command line ([--print_solution] is converted
    with [ast.literal_eval], lines 101-105). *)
Definition assemble (opts : dict) (bbf : string) (load log points save : option string) (pause : Q) (print : pyval) : adict :=
  let txt o := match o with None => ANone | Some s => AVal (PStr s) end in
  (map (fun kv => (fst kv, AVal (snd kv))) opts ++
   [("black_box_file", AVal (PStr bbf)); ("load_state", txt load); ("output_stream", txt log);
    ("pause", AVal (PNum pause)); ("points_file", txt points); ("print_solution", AVal print);
    ("dump_state", txt save)])%list.
