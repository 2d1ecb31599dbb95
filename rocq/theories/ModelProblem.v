(** * The constructor of the optimizer as a whole, and the run without free variables.

    Models rbfopt_algorithm.py 244-468 ([RbfoptAlgorithm.__init__]: settings dictionary and
    black box in, problem data of [ModelAlg] out), 776-812 (the branch of [optimize] for a
    problem in which every variable is fixed; the returned quintuple) and
    rbfopt_user_black_box.py 66-205 ([RbfoptUserBlackBox]).  Definitions only.

    Simplifications: counts among the settings are integers ([CNotModelled] otherwise: Python would
    accept 300.5); the random seed, the clock and the text of the log are left out. *)
From Verif Require Export ModelCategorical ModelSettings ModelInit.
Open Scope string_scope.
Open Scope Q_scope.

Inductive cerr := CAssert | CIndex | CNotModelled.
Inductive cres (A : Type) := COk (a : A) | CFail (e : cerr).
Arguments COk {A} a.
Arguments CFail {A} e.
Definition cbind {A B} (r : cres A) (f : A -> cres B) : cres B :=
  match r with COk a => f a | CFail e => CFail e end.
Definition cassert (b : bool) : cres unit := if b then COk tt else CFail CAssert.

(** Reading [l_settings.k].  Booleans are numbers in Python. *)
Definition get_num (k : string) (d : dict) : cres Q :=
  match lookup k d with
  | Some (PNum q) => COk q
  | Some (PBool b) => COk (if b then 1 else 0)
  | _ => CFail CNotModelled
  end.
Definition get_int (k : string) (d : dict) : cres Z :=
  cbind (get_num k d) (fun q => if Qeq_bool q (inject_Z (Qfloor q)) then COk (Qfloor q) else CFail CNotModelled).
(** Truth value of [l_settings.k]. *)
Definition get_bool (k : string) (d : dict) : cres bool :=
  match lookup k d with
  | Some (PBool b) => COk b
  | Some (PNum q) => COk (negb (Qeq_bool q 0))
  | _ => CFail CNotModelled
  end.

(** What the user hands over: [init_node_pos], [init_node_val] ([None] if not given),
    [do_init_strategy] (244-245). *)
Record user_data := mkUser { u_pos : option (list point); u_val : option (list Q); u_init : bool }.

(** 258-263: shape of the black box' data. *)
Definition check_bb (b : bbox) : bool :=
  (1 <=? bb_dim b)%nat && (length (bb_upper b) =? bb_dim b)%nat && (length (bb_type b) =? bb_dim b)%nat.

(** 324-325. *)
Definition check_values (u : user_data) : bool :=
  match u_pos u, u_val u with
  | Some ps, Some vs => (length ps =? length vs)%nat
  | _, _ => true
  end.
(** 326-328: [round] of the settings as given, before automatic values are filled in. *)
Definition check_enough (u : user_data) (frac : Q) (dimension : nat) : bool :=
  u_init u ||
  match u_pos u with
  | None => false
  | Some ps => (round_half_even (inject_Z (Z.of_nat dimension + 1) * frac) <=? Z.of_nat (length ps))%Z
  end.
(** 395-402. *)
Fixpoint expand_all (s : setup) (ps : list point) : cres (list point) :=
  match ps with
  | [] => COk []
  | p :: r => match user_point s p with
              | None => CFail CAssert
              | Some q => cbind (expand_all s r) (fun qs => COk (q :: qs))
              end
  end.
(** [np.atleast_2d(np.array(init_node_pos))] (398-400): an empty list becomes one row without entries. *)
Definition rows_of (ps : list point) : list point := match ps with [] => [[]] | _ => ps end.
(** 450-455. *)
Definition space_size (dimension : nat) (lo up : point) (ints : list nat) : option Z :=
  if (length ints <? dimension)%nat then None
  else Some (fold_right Z.mul 1%Z (map2 (fun l u => Qfloor (u - l + 1)) lo up)).

(** 340-460: the problem data. [d] are the settings after [set_auto_parameters] (331-335). *)
Definition assemble (d : dict) (s : setup) (noisy : bool) (u : user_data) : cres cfg :=
  let lo := floor_at 0 (s_ints s) (s_lower s) in        (* 393: round_integer_bounds *)
  let up := ceil_at 0 (s_ints s) (s_upper s) in
  cbind (match u_pos u with None => COk [] | Some ps => expand_all s (rows_of ps) end) (fun ups =>
  cbind (get_int "max_iterations" d) (fun max_it =>
  cbind (get_int "max_evaluations" d) (fun max_ev =>
  cbind (get_int "max_cycles" d) (fun max_cy =>
  cbind (get_int "max_noisy_evaluations" d) (fun max_ne =>
  cbind (get_int "max_noisy_restarts" d) (fun max_nr =>
  cbind (get_int "max_noisy_iterations" d) (fun max_ni =>
  cbind (get_num "eps_opt" d) (fun e_opt =>
  cbind (get_num "eps_zero" d) (fun e_zero =>
  cbind (get_num "eps_impr" d) (fun e_impr =>
  cbind (get_num "min_dist" d) (fun mind =>
  cbind (get_num "target_objval" d) (fun target =>
  cbind (get_bool "do_infstep" d) (fun infs =>
  cbind (get_bool "do_local_search" d) (fun locs =>
  cbind (get_int "num_global_searches" d) (fun ngs =>
  cbind (get_int "discarded_window_size" d) (fun dws =>
  cbind (get_int "num_cpus" d) (fun cpus =>
  cbind (get_num "max_fraction_discarded" d) (fun mfd =>
  cbind (get_int "max_stalled_iterations" d) (fun msi =>
  cbind (get_int "refinement_frequency" d) (fun rfr =>
  cbind (get_int "max_consecutive_refinement" d) (fun mcr =>
  cbind (get_num "thresh_unlimited_refinement" d) (fun tur =>
  cbind (get_num "thresh_unlimited_refinement_stalled" d) (fun turs =>
  cbind (get_num "ref_min_radius" d) (fun rmin =>
  cbind (get_num "ref_acceptable_decrease_shrink" d) (fun rsh =>
  cbind (get_num "ref_acceptable_decrease_enlarge" d) (fun ren =>
  cbind (get_num "ref_acceptable_decrease_move" d) (fun rmv =>
  cbind (get_int "max_consecutive_restoration" d) (fun mcrs =>
  cbind (get_num "init_sample_fraction" d) (fun frac =>
  cbind (get_int "save_state_interval" d) (fun ssi =>
  COk (mkCfg (s_dim s) lo up (s_ints s) (is_str "domain_scaling" "affine" d)
         max_it max_ev max_cy (space_size (s_dim s) lo up (s_ints s))
         max_ne max_nr max_ni e_opt e_zero e_impr mind target infs locs ngs dws cpus mfd msi
         rfr mcr tur turs rmin rsh ren rmv mcrs frac ssi noisy ups
         (match u_val u with None => [] | Some vs => vs end) (u_init u))
  )))))))))))))))))))))))))))))).

Definition serr_to_cerr (e : serr) : cerr := match e with SIndex => CIndex | _ => CAssert end.

(** [RbfoptAlgorithm(settings, black_box, init_node_pos, init_node_val, do_init_strategy)]. *)
Definition make_algorithm (d : dict) (b : bbox) (noisy : bool) (u : user_data) : cres cfg :=
  cbind (cassert (check_bb b)) (fun _ =>
  cbind (get_num "eps_zero" d) (fun eps =>
  let s := construct_problem eps b in
  cbind (cassert (check_values u)) (fun _ =>
  cbind (get_num "init_sample_fraction" d) (fun frac =>
  cbind (cassert (check_enough u frac (s_dim s))) (fun _ =>
  match set_auto_parameters (s_dim s) (s_lower s) (s_upper s) (s_ints s) d with
  | SFail e => CFail (serr_to_cerr e)
  | SOk d' => assemble d' s noisy u
  end))))).

(** ** [optimize] without free variables, 776-784: [self.n == 0] ([len(self.fixed_vars[0])] is the
    length of a pair, never zero).  One accurate evaluation at the empty point. *)
Definition fixed_call (v : Q) (s : st) : st :=
  let s1 := add_node [] [] v (emit [EvAcc [] v] s) in
  set_C (add_evals 1 0 (C s1)) s1.
(** Any number of calls of [optimize], with the black box' answers. *)
Definition fixed_calls (vs : list Q) (s : st) : st := fold_left (fun s v => fixed_call v s) vs s.

(** 790-812: the quintuple; the point is decoded with the categorical information. *)
Definition quintuple (ps : setup) (s : st) : option (Q * point * Z * Z * Z) :=
  match result s with
  | None => None
  | Some (v, p) => Some (v, returned_point ps p, itercount (C s), evalcount (C s), noisy_evalcount (C s))
  end.

(** ** [RbfoptUserBlackBox], rbfopt_user_black_box.py 66-80 and 138-205: assertions on the lengths;
    the objective functions are arbitrary. *)
Record user_bb := mkUserBB { ub_dim : nat; ub_lower : point; ub_upper : point; ub_type : list vtype;
                             ub_fun : point -> Q; ub_noisy : option (point -> Q * Q * Q) }.
Definition user_black_box (n : nat) (lo up : point) (ty : list vtype) (f : point -> Q)
  (g : option (point -> Q * Q * Q)) : option user_bb :=
  if (length lo =? n)%nat && (length up =? n)%nat && (length ty =? n)%nat
  then Some (mkUserBB n lo up ty f g) else None.
Inductive ures (A : Type) := UOk (a : A) | UAssert | UNotImplemented.
Arguments UOk {A} a.
Arguments UAssert {A}.
Arguments UNotImplemented {A}.
Definition ub_evaluate (b : user_bb) (x : point) : ures Q :=
  if (length x =? ub_dim b)%nat then UOk (ub_fun b x) else UAssert.
Definition ub_evaluate_noisy (b : user_bb) (x : point) : ures (Q * Q * Q) :=
  if (length x =? ub_dim b)%nat
  then match ub_noisy b with None => UNotImplemented | Some g => UOk (g x) end else UAssert.
Definition ub_has_noisy (b : user_bb) : bool := match ub_noisy b with None => false | Some _ => true end.
Definition ub_box (b : user_bb) : bbox := mkBB (ub_lower b) (ub_upper b) (ub_type b).
