(** * Serial optimizer: state, node tables, restart, one pass of the main loop.

    Models rbfopt_algorithm.py: [__init__] counters 340-460, [update_log] 498-541,
    [remove_node] 569-601, [add_node] 603-642, [add_noisy_node] 644-690,
    [optimize] 752-812, [optimize_serial] 814-1192, [restart] 1809-2045 (with
    [pool=None]), [remove_existing_nodes] 2047-2096, [restoration_search]
    2098-2162, [phase_update] 2165-2181, [unlimited_refinement_active] 2183-2204,
    [refinement_update] 2206-2267, [advance_step_counter] 2326-2338,
    [stalling_update] 2340-2353, [require_accurate_evaluation] 2355-2383; and
    rbfopt_refinement.py [update_refinement_radius] 465-507, rbfopt_utils.py
    [compute_gap] 1613-1641.

    Definitions only.

    What is an oracle here (an arbitrary input of the pass, record [inp]): the answers
    of the black box, the sample points of [initialize_nodes], the points proposed by the
    search steps ([pure_global_step], [local_step], [refinement_step],
    [global_step]), success or failure ([LinAlgError]) of the linear algebra, the
    refinement model data, and the clock.
    Not modelled here: surrogate coefficients, cross validation of the RBF type and function
    scaling (they only influence the proposals), printing except [best_gap_shown]. *)
From Verif Require Export ModelBase.
Open Scope Z_scope.

(** Infinite initial values: [None] stands for [float('+inf')]. *)
Definition xlt (v : Q) (o : option Q) : bool :=
  match o with None => true | Some w => Qltb v w end.

(** ** Problem and settings data that does not change during the run
    (rbfopt_settings.py 423-549, rbfopt_algorithm.py 244-460). *)
Record cfg := mkCfg {
  n : nat;                            (* self.n *)
  var_lower : point; var_upper : point;
  integer_vars : list nat;
  affine : bool;                      (* l_settings.domain_scaling == 'affine' *)
  max_iterations : Z; max_evaluations : Z; max_cycles : Z;
  search_space_size : option Z;       (* None: infinite; lines 450-455 *)
  max_noisy_evaluations : Z; max_noisy_restarts : Z; max_noisy_iterations : Z;
  eps_opt : Q; eps_zero : Q; eps_impr : Q; min_dist : Q; target_objval : Q;
  do_infstep : bool; do_local_search : bool;
  num_global_searches : Z;
  discarded_window_size : Z; num_cpus : Z; max_fraction_discarded : Q;
  max_stalled_iterations : Z;
  refinement_frequency : Z; max_consecutive_refinement : Z;
  thresh_unlimited_refinement : Q; thresh_unlimited_refinement_stalled : Q;
  ref_min_radius : Q; ref_shrink : Q; ref_enlarge : Q; ref_movethr : Q;
  max_consecutive_restoration : Z; init_sample_fraction : Q;
  save_state_interval : Z;
  has_noisy : bool;                   (* black_box.has_evaluate_noisy() *)
  init_node_pos : list point; init_node_val : list Q;  (* user points, [] if none *)
  do_init_strategy : bool }.

(** ** Step identifiers, rbfopt_algorithm.py 374-383 *)
Definition inf_step : Z := 0.
Definition local_search_step (c : cfg) : Z := num_global_searches c + 1.
Definition cycle_length (c : cfg) : Z := num_global_searches c + 2.
Definition refinement_step (c : cfg) : Z := num_global_searches c + 2.
Definition restoration_step (c : cfg) : Z := num_global_searches c + 3.
Definition first_step (c : cfg) : Z := if do_infstep c then inf_step else inf_step + 1.

(** [deque(maxlen=discarded_window_size*num_cpus)], lines 362-363. *)
Definition window (c : cfg) : nat := Z.to_nat (discarded_window_size c * num_cpus c).

(** Search bounds in the scaled space, lines 424-425. *)
Definition l_lower (c : cfg) : point :=
  fst (transform_domain_bounds (affine c) (var_lower c) (var_upper c)).
Definition l_upper (c : cfg) : point :=
  snd (transform_domain_bounds (affine c) (var_lower c) (var_upper c)).
Definition to_orig (c : cfg) (p : point) : point :=
  transform_domain (affine c) (var_lower c) (var_upper c) (integer_vars c) p true.
Definition to_scaled (c : cfg) (p : point) : point :=
  transform_domain (affine c) (var_lower c) (var_upper c) (integer_vars c) p false.

(** ** Mutable state.
    The eight parallel arrays are kept as eight lists, as in the code. *)
Record tabs := mkTabs {
  node_pos : list point; node_val : list Q;
  node_is_noisy : list bool; node_err : list (Q * Q);
  all_pos : list point; all_val : list Q;
  all_is_noisy : list bool; all_err : list (Q * Q);
  nodes_at_restart : nat }.

Record incs := mkIncs {
  fmin_index : nat; fmin : option Q; fmax : option Q; is_fmin_noisy : bool;
  fbest_index : nat; fbest : option Q; is_fbest_noisy : bool;
  best_gap_shown : option Q }.

Record ctrs := mkCtrs {
  itercount : Z; evalcount : Z; noisy_evalcount : Z;
  current_step : Z; cyclecount : Z;
  num_stalled_iter : Z; fmin_stall_check : option Q;
  num_noisy_restarts : Z; noisy_mode : bool;  (* eval_mode == 'noisy' *)
  discarded : list bool; solve_underdetermined : bool }.

Record refs := mkRefs {
  num_cons_refinement : Z; ref_model_set : list nat; ref_radius : option Q;
  ref_iterate_index : option nat; iter_last_refine : Z;
  fmin_last_refine : option Q }.

(** Ghost trace of the observable effects, in order (not present in the code): calls
    of the black box with the answer returned, user-supplied values taken over, states
    saved, restarts, executed search steps. *)
Inductive event :=
| EvAcc (p : point) (v : Q)                (* bb.evaluate, through objfun *)
| EvNoisy (p : point) (v el eu : Q)        (* bb.evaluate_noisy, through objfun_noisy *)
| EvUser (p : point) (v : Q)               (* user-supplied value recorded *)
| EvSave (it : Z)                          (* save_to_file at this itercount *)
| EvRestart
| EvStep (s : Z).                          (* a search step was executed *)

Record st := mkSt { T : tabs; I : incs; C : ctrs; Rf : refs; trace : list event }.

(** Exceptions of the program, as values. *)
Inductive err :=
| EIndex | EAssert | EName | EZeroDiv | ERuntime | EValue.
Inductive res (A : Type) := Ok (a : A) | Fail (e : err).
Arguments Ok {A} a.
Arguments Fail {A} e.
Definition bind {A B} (r : res A) (f : A -> res B) : res B :=
  match r with Ok a => f a | Fail e => Fail e end.

(** ** Initial state, rbfopt_algorithm.py 340-460 *)
Definition tabs0 : tabs := mkTabs [] [] [] [] [] [] [] [] 0.
Definition incs0 (c : cfg) : incs :=
  mkIncs 0 None None (has_noisy c) 0 None (has_noisy c) None.
Definition ctrs0 (c : cfg) : ctrs :=
  mkCtrs 0 0 0 0 (-1) 0 None 0 (has_noisy c) [] false.
Definition refs0 : refs := mkRefs 0 [] None None 0 None.
Definition init_st (c : cfg) : st := mkSt tabs0 (incs0 c) (ctrs0 c) refs0 [].

(** ** Field updates *)
Definition set_T (t : tabs) (s : st) : st := mkSt t (I s) (C s) (Rf s) (trace s).
Definition set_I (i : incs) (s : st) : st := mkSt (T s) i (C s) (Rf s) (trace s).
Definition set_C (k : ctrs) (s : st) : st := mkSt (T s) (I s) k (Rf s) (trace s).
Definition set_R (r : refs) (s : st) : st := mkSt (T s) (I s) (C s) r (trace s).
Definition emit (es : list event) (s : st) : st :=
  mkSt (T s) (I s) (C s) (Rf s) (trace s ++ es).

Definition set_step (z : Z) (k : ctrs) : ctrs :=
  mkCtrs (itercount k) (evalcount k) (noisy_evalcount k) z (cyclecount k)
         (num_stalled_iter k) (fmin_stall_check k) (num_noisy_restarts k)
         (noisy_mode k) (discarded k) (solve_underdetermined k).
Definition set_cycle (z : Z) (k : ctrs) : ctrs :=
  mkCtrs (itercount k) (evalcount k) (noisy_evalcount k) (current_step k) z
         (num_stalled_iter k) (fmin_stall_check k) (num_noisy_restarts k)
         (noisy_mode k) (discarded k) (solve_underdetermined k).
Definition set_iter (z : Z) (k : ctrs) : ctrs :=
  mkCtrs z (evalcount k) (noisy_evalcount k) (current_step k) (cyclecount k)
         (num_stalled_iter k) (fmin_stall_check k) (num_noisy_restarts k)
         (noisy_mode k) (discarded k) (solve_underdetermined k).
Definition add_evals (a b : Z) (k : ctrs) : ctrs :=
  mkCtrs (itercount k) (evalcount k + a) (noisy_evalcount k + b) (current_step k)
         (cyclecount k) (num_stalled_iter k) (fmin_stall_check k)
         (num_noisy_restarts k) (noisy_mode k) (discarded k) (solve_underdetermined k).
Definition set_stall (z : Z) (f : option Q) (k : ctrs) : ctrs :=
  mkCtrs (itercount k) (evalcount k) (noisy_evalcount k) (current_step k)
         (cyclecount k) z f (num_noisy_restarts k) (noisy_mode k) (discarded k)
         (solve_underdetermined k).
Definition set_restarts (z : Z) (k : ctrs) : ctrs :=
  mkCtrs (itercount k) (evalcount k) (noisy_evalcount k) (current_step k)
         (cyclecount k) (num_stalled_iter k) (fmin_stall_check k) z (noisy_mode k)
         (discarded k) (solve_underdetermined k).
Definition set_mode (b : bool) (k : ctrs) : ctrs :=
  mkCtrs (itercount k) (evalcount k) (noisy_evalcount k) (current_step k)
         (cyclecount k) (num_stalled_iter k) (fmin_stall_check k)
         (num_noisy_restarts k) b (discarded k) (solve_underdetermined k).
Definition set_discarded (l : list bool) (k : ctrs) : ctrs :=
  mkCtrs (itercount k) (evalcount k) (noisy_evalcount k) (current_step k)
         (cyclecount k) (num_stalled_iter k) (fmin_stall_check k)
         (num_noisy_restarts k) (noisy_mode k) l (solve_underdetermined k).
Definition set_underdet (b : bool) (k : ctrs) : ctrs :=
  mkCtrs (itercount k) (evalcount k) (noisy_evalcount k) (current_step k)
         (cyclecount k) (num_stalled_iter k) (fmin_stall_check k)
         (num_noisy_restarts k) (noisy_mode k) (discarded k) b.

Definition set_cons (z : Z) (r : refs) : refs :=
  mkRefs z (ref_model_set r) (ref_radius r) (ref_iterate_index r)
         (iter_last_refine r) (fmin_last_refine r).
Definition set_last_refine (z : Z) (r : refs) : refs :=
  mkRefs (num_cons_refinement r) (ref_model_set r) (ref_radius r)
         (ref_iterate_index r) z (fmin_last_refine r).

(** ** Node tables *)
(** [add_node] 603-642 and [add_noisy_node] 644-690 (they differ only in the flag
    and in the error bounds, which are (0,0) for [add_node]). *)
Definition tabs_add (p po : point) (v : Q) (noisy : bool) (e : Q * Q) (t : tabs) : tabs :=
  mkTabs (node_pos t ++ [p]) (node_val t ++ [v])
         (node_is_noisy t ++ [noisy]) (node_err t ++ [e])
         (all_pos t ++ [po]) (all_val t ++ [v])
         (all_is_noisy t ++ [noisy]) (all_err t ++ [e])
         (nodes_at_restart t).
(** The incumbent updates of both functions; [t] is the table after the insertion. *)
Definition incs_add (v : Q) (noisy : bool) (t : tabs) (i : incs) : incs :=
  let bm := xlt v (fmin i) in
  let bb := xlt v (fbest i) in
  mkIncs (if bm then length (node_pos t) - 1 else fmin_index i)%nat
         (if bm then Some v else fmin i)
         (match fmax i with None => None | Some w => Some (Qmax w v) end)
         (if bm then noisy else is_fmin_noisy i)
         (if bb then length (all_pos t) - 1 else fbest_index i)%nat
         (if bb then Some v else fbest i)
         (if bb then noisy else is_fbest_noisy i)
         (best_gap_shown i).
Definition insert_node (p po : point) (v : Q) (noisy : bool) (e : Q * Q) (s : st) : st :=
  let t := tabs_add p po v noisy e (T s) in
  set_I (incs_add v noisy t (I s)) (set_T t s).
Definition add_node (p po : point) (v : Q) (s : st) : st :=
  insert_node p po v false (0, 0)%Q s.
Definition add_noisy_node (p po : point) (v el eu : Q) (s : st) : st :=
  insert_node p po v true (el, eu) s.

(** [remove_node(index, num_nodes_at_restart)] 569-601.  Only the tables change.
    [np.delete] raises IndexError when the index is out of range. *)
Definition tabs_remove (i : nat) (t : tabs) : tabs :=
  let j := (nodes_at_restart t + i)%nat in
  mkTabs (delete_at i (node_pos t)) (delete_at i (node_val t))
         (delete_at i (node_is_noisy t)) (delete_at i (node_err t))
         (delete_at j (all_pos t)) (delete_at j (all_val t))
         (delete_at j (all_is_noisy t)) (delete_at j (all_err t))
         (nodes_at_restart t).
Definition remove_node (i : nat) (s : st) : res st :=
  if (i <? length (node_pos (T s)))%nat
  then Ok (set_T (tabs_remove i (T s)) s) else Fail EIndex.

(** ** Gap and log *)
(** [compute_gap], rbfopt_utils.py 1613-1641. *)
Definition gap_den (c : cfg) : Q :=
  if Qle_bool (eps_zero c) (Qabs (target_objval c))
  then Qabs (target_objval c) else 1%Q.
Definition compute_gap (c : cfg) (f : Q) : Q := ((f - target_objval c) / gap_den c)%Q.
(** [compute_gap(fbest + all_node_err_bounds[fbest_index, 1])], lines 843-844. *)
Definition current_gap (c : cfg) (s : st) : res (option Q) :=
  match nth_error (all_err (T s)) (fbest_index (I s)) with
  | None => Fail EIndex
  | Some e => Ok (match fbest (I s) with
                  | None => None
                  | Some f => Some (compute_gap c (f + snd e)%Q) end)
  end.
Definition gap_gt (c : cfg) (g : option Q) : bool :=   (* gap > eps_opt *)
  match g with None => true | Some x => Qltb (eps_opt c) x end.
(** [update_log] 498-541 for a line with a value: effect on [best_gap_shown];
    the boolean is the '*' mark. *)
Definition log_star (v : Q) (gap : option Q) (i : incs) : bool :=
  match gap with
  | None => false
  | Some g => xlt g (best_gap_shown i) &&
              match fbest i with None => false | Some f => Qeq_bool v f end
  end.
Definition log_incs (v : Q) (gap : option Q) (i : incs) : incs :=
  if log_star v gap i
  then mkIncs (fmin_index i) (fmin i) (fmax i) (is_fmin_noisy i) (fbest_index i)
              (fbest i) (is_fbest_noisy i) gap
  else i.
Definition log_value (v : Q) (gap : option Q) (s : st) : st :=
  set_I (log_incs v gap (I s)) s.

(** ** Small updates *)
(** [advance_step_counter] 2326-2338. *)
Definition next_step (c : cfg) (z : Z) : Z := (z + 1) mod cycle_length c.
Definition advance (c : cfg) (k : ctrs) : ctrs :=
  let nx := next_step c (current_step k) in
  let k1 := if nx <? current_step k then set_cycle (cyclecount k + 1) k else k in
  set_step nx k1.
Definition advance_st (c : cfg) (s : st) : st := set_C (advance c (C s)) s.

(** [stalling_update] 2340-2353. *)
Definition improves (eps : Q) (f r : Q) : bool :=
  Qle_bool f (r - eps * Qmax 1 (Qabs r))%Q.
Definition stalling_update (c : cfg) (s : st) : st :=
  let k := C s in
  match fmin (I s), fmin_stall_check k with
  | Some f, Some r =>
      if improves (eps_impr c) f r then set_C (set_stall 0 (Some f) k) s
      else set_C (set_stall (num_stalled_iter k + 1) (Some r) k) s
  | _, r => set_C (set_stall (num_stalled_iter k + 1) r k) s
      (* inf - eps*inf is nan, the comparison is false; unreachable in the main loop *)
  end.

(** [phase_update] 2165-2181. *)
Definition phase_update (c : cfg) (s : st) : st :=
  let k := C s in
  if has_noisy c && noisy_mode k &&
     ((max_noisy_restarts c <? num_noisy_restarts k) ||
      (max_noisy_iterations c <=? itercount k) ||
      (max_noisy_evaluations c <=? noisy_evalcount k))
  then set_C (set_mode false k) s else s.

(** [require_accurate_evaluation] 2355-2383. *)
Definition require_accurate (c : cfg) (s : st) (v : Q) : bool :=
  (match fmin (I s) with None => false | Some b => improves (eps_impr c) v b end) ||
  Qle_bool v (target_objval c + eps_opt c * Qabs (target_objval c))%Q.

(** [unlimited_refinement_active] 2183-2204; the elapsed-time condition is the oracle
    bit [time_unl]. *)
Definition unlimited_refinement (c : cfg) (s : st) (time_unl : bool) : bool :=
  let k := C s in
  Qle_bool (inject_Z (max_iterations c) * thresh_unlimited_refinement c)%Q
           (inject_Z (itercount k)) ||
  Qle_bool (inject_Z (max_evaluations c) * thresh_unlimited_refinement c)%Q
           (inject_Z (evalcount k)) ||
  time_unl ||
  Qle_bool (inject_Z (max_stalled_iterations c) * thresh_unlimited_refinement_stalled c)%Q
           (inject_Z (num_stalled_iter k)).

(** [ref.update_refinement_radius], rbfopt_refinement.py 465-507. *)
Definition refine_ratio (c : cfg) (model_impr real_impr : Q) : Q :=
  if Qltb (eps_zero c) (Qabs model_impr) then (real_impr / model_impr)%Q else 0%Q.
Definition new_radius (c : cfg) (r : Q) (model_impr real_impr : Q) : Q :=
  let d := refine_ratio c model_impr real_impr in
  if Qle_bool d (ref_shrink c) then (r * (1#2))%Q
  else if Qle_bool (ref_enlarge c) d then (r * 2)%Q else r.
Definition refine_move (c : cfg) (model_impr real_impr : Q) : bool :=
  Qle_bool (ref_movethr c) (refine_ratio c model_impr real_impr).

(** ** Inputs of one pass *)
Record inp := mkInp {
  i_clock_ok : bool;           (* time.time() - start_time < max_clock_time *)
  i_samples : option (list point);  (* initialize_nodes; None: it raises RuntimeError *)
  i_rs_acc : nat -> Q;         (* black-box answers during restart, by sample number *)
  i_rs_noisy : nat -> Q * Q * Q;
  i_rs_user : nat -> Q;        (* accurate answers for user points *)
  i_lin_ok : bool;             (* interpolation algebra did not raise LinAlgError *)
  i_ref_ok : bool;             (* linear model did not raise LinAlgError *)
  i_ref_set : list nat; i_ref_radius : Q;   (* init_refinement *)
  i_prop : option point;       (* point proposed by the search step *)
  i_reeval : option nat;       (* local_step: index of a node to evaluate again *)
  i_restore : nat -> option (point * bool);
       (* restoration_search: candidate of each attempt (None: pure_global_step gave
          None) and whether the RBF matrix could be inverted *)
  i_model_impr : Q; i_real_impr : Q; i_to_replace : nat; i_rank_def : bool;
  i_time_unl : bool;
  i_val : Q;                   (* answer of bb.evaluate in the main loop *)
  i_nval : Q * Q * Q }.        (* answer of bb.evaluate_noisy in the main loop *)

(** ** Restart *)
(** Entries taken over from the history: position, value, flag, error bounds. *)
Definition entry : Type := (point * Q * bool * (Q * Q))%type.

(** Row [j] of the complete history. *)
Definition history_row (t : tabs) (j : nat) : entry :=
  (nth j (all_pos t) [], nth j (all_val t) 0%Q, nth j (all_is_noisy t) false,
   nth j (all_err t) (0, 0)%Q).

(** [remove_existing_nodes] 2047-2096.  [old] are the history positions before the
    restart.  The loop runs over the indices from the last to the first. *)
Fixpoint remove_existing (c : cfg) (noisy : bool) (t : tabs) (old : list point)
         (samples : list point) : list point * list entry :=
  match samples with
  | [] => ([], [])
  | p :: r =>
      let (kept, prev) := remove_existing c noisy t old r in
      let j := nearest p old in
      if near (eps_zero c) p old && (noisy || negb (nth j (all_is_noisy t) false))
      then (kept, prev ++ [history_row t j])
      else (p :: kept, prev)
  end.

(** Number a list. *)
Fixpoint indexed {A} (i : nat) (l : list A) : list (nat * A) :=
  match l with [] => [] | x :: r => (i, x) :: indexed (S i) r end.

(** Selection of user points, 1952-1972: [dist] to the generated sample and
    [self_dist] to all earlier user points (selected or not). *)
Fixpoint select_user (c : cfg) (gen earlier : list point) (i : nat)
         (pts : list point) : list nat :=
  match pts with
  | [] => []
  | p :: r =>
      let ok := negb (near (min_dist c) p gen) && negb (near (min_dist c) p earlier) in
      (if ok then [i] else []) ++ select_user c gen (earlier ++ [p]) (S i) r
  end.

(** Does [restart] evaluate the sample accurately?  1862-1866 *)
Definition restart_accurate (c : cfg) (k : ctrs) : bool :=
  negb (noisy_mode k) ||
  (max_noisy_restarts c <? num_noisy_restarts k) ||
  (max_noisy_evaluations c <=? noisy_evalcount k + Z.of_nat (n c) + 1).

(** Evaluate the sample points: rows, events, number of accurate / noisy calls. *)
Definition eval_samples (acc mode_noisy : bool) (i : inp) (pts : list point)
  : list entry * list event :=
  if acc then
    (map (fun jp => (snd jp, i_rs_acc i (fst jp), mode_noisy, (0, 0)%Q)) (indexed 0 pts),
     map (fun jp => EvAcc (snd jp) (i_rs_acc i (fst jp))) (indexed 0 pts))
  else
    (map (fun jp => let '(v, el, eu) := i_rs_noisy i (fst jp) in
                    (snd jp, v, mode_noisy, (el, eu))) (indexed 0 pts),
     map (fun jp => let '(v, el, eu) := i_rs_noisy i (fst jp) in
                    EvNoisy (snd jp) v el eu) (indexed 0 pts)).

(** Generated rows of a restart: lines 1845-1942. Result: rows, events, number of
    accurate calls, number of noisy calls. *)
Definition restart_gen (c : cfg) (k : ctrs) (t : tabs) (i : inp)
  : res (list entry * list event * Z * Z) :=
  if (0 <? itercount k) || do_init_strategy c then
    match i_samples i with
    | None => Fail ERuntime
    | Some pts =>
        let old := firstn (nodes_at_restart t) (all_pos t) in
        let (new, prev) :=
          if (nodes_at_restart t =? 0)%nat then (pts, [])
          else remove_existing c (noisy_mode k) t old pts in
        let acc := restart_accurate c k in
        (* np.array([])[:, 0] raises IndexError in noisy mode with nothing to evaluate *)
        if negb acc && (length new =? 0)%nat then Fail EIndex else
        let (rows, evs) := eval_samples acc (noisy_mode k) i new in
        let m := Z.of_nat (length new) in
        Ok (rows ++ prev, evs, if acc then m else 0, if acc then 0 else m)
    end
  else Ok ([], [], 0, 0).

(** User rows of a restart: lines 1950-1995. *)
Definition restart_user (c : cfg) (k : ctrs) (gen : list entry) (i : inp)
  : list entry * list event * Z :=
  if negb (length (init_node_pos c) =? 0)%nat && (itercount k =? 0) then
    let sel := select_user c (map (fun e => fst (fst (fst e))) gen) [] 0 (init_node_pos c) in
    if (length (init_node_val c) <? length (init_node_pos c))%nat then
      let rows := map (fun jp => (nth (snd jp) (init_node_pos c) [], i_rs_user i (fst jp)))
                      (indexed 0 sel) in
      (map (fun pv => (fst pv, snd pv, false, (0, 0)%Q)) rows,
       map (fun pv => EvAcc (fst pv) (snd pv)) rows, Z.of_nat (length sel))
    else
      let rows := map (fun j => (nth j (init_node_pos c) [], nth j (init_node_val c) 0%Q)) sel in
      (map (fun pv => (fst pv, snd pv, false, (0, 0)%Q)) rows,
       map (fun pv => EvUser (fst pv) (snd pv)) rows, 0)
  else ([], [], 0).

Definition e_pos (e : entry) : point := fst (fst (fst e)).
Definition e_val (e : entry) : Q := snd (fst (fst e)).
Definition e_noisy (e : entry) : bool := snd (fst e).
Definition e_err (e : entry) : Q * Q := snd e.

(** New tables: lines 1997-2013. *)
Definition restart_tabs (c : cfg) (t : tabs) (rows : list entry) : tabs :=
  mkTabs (map (fun e => to_scaled c (e_pos e)) rows) (map e_val rows)
         (map e_noisy rows) (map e_err rows)
         (all_pos t ++ map e_pos rows) (all_val t ++ map e_val rows)
         (all_is_noisy t ++ map e_noisy rows) (all_err t ++ map e_err rows)
         (nodes_at_restart t).

(** New incumbents: lines 2015-2029. *)
Definition restart_incs (t : tabs) (i : incs) : incs :=
  let j := argmin (node_val t) in
  let f := nth j (node_val t) 0%Q in
  let noisy := nth j (node_is_noisy t) false in
  let bb := xlt f (fbest i) in
  mkIncs j (Some f) (Some (Qlist_max (node_val t))) noisy
         (if bb then j + nodes_at_restart t else fbest_index i)%nat
         (if bb then Some f else fbest i)
         (if bb then noisy else is_fbest_noisy i)
         (best_gap_shown i).

(** New counters: lines 2018-2036 and the counter at 1840-1843. *)
Definition restart_ctrs (c : cfg) (f : option Q) (k : ctrs) : ctrs :=
  mkCtrs (itercount k) (evalcount k) (noisy_evalcount k) (first_step c)
         (cyclecount k + 1) 0 f (num_noisy_restarts k) (noisy_mode k) [] false.
Definition restart_refs (f : option Q) (it : Z) (r : refs) : refs :=
  mkRefs 0 (ref_model_set r) (ref_radius r) (ref_iterate_index r) it f.

(** Log of the initialization points, 2037-2044: one value line each (all with the
    same gap). *)
Definition log_all (vals : list Q) (gap : option Q) (s : st) : st :=
  fold_left (fun s' v => log_value v gap s') vals s.

Definition restart (c : cfg) (i : inp) (s : st) : res st :=
  let k0 := C s in
  let k1 := set_restarts (num_noisy_restarts k0 + (if noisy_mode k0 then 1 else 0)) k0 in
  let t0 := T s in
  let t1 := mkTabs (node_pos t0) (node_val t0) (node_is_noisy t0) (node_err t0)
                   (all_pos t0) (all_val t0) (all_is_noisy t0) (all_err t0)
                   (length (all_pos t0)) in
  bind (restart_gen c k1 t1 i) (fun g =>
  let '(gen, evs, na, nn) := g in
  let '(usr, uevs, nu) := restart_user c k1 gen i in
  let rows := gen ++ usr in
  match rows with
  | [] => Fail EValue               (* len(points[0]) / argmin of an empty sequence *)
  | _ =>
      let t2 := restart_tabs c t1 rows in
      let i2 := restart_incs t2 (I s) in
      let k2 := restart_ctrs c (fmin i2) (add_evals (na + nu) nn k1) in
      let r2 := restart_refs (fmin i2) (itercount k0) (Rf s) in
      let s2 := mkSt t2 i2 k2 r2 (trace s ++ EvRestart :: evs ++ uevs) in
      bind (current_gap c s2) (fun gap =>
      (* get_min_distance(node, other nodes) asserts that there are other nodes *)
      if (length rows =? 1)%nat then Fail EAssert
      else Ok (log_all (node_val t2) gap s2))
  end).

(** ** Restoration search 2098-2162: attempt number [a], node [r] left out.
    [fuel] is the number of nodes (the loop index decreases). *)
Fixpoint restoration (c : cfg) (i : inp) (s : st) (a : nat) (r : nat) (fuel : nat)
  : res (option (point * nat)) :=
  match fuel with
  | O => Ok None
  | S fuel' =>
      if (Z.of_nat a <? max_consecutive_restoration c) &&
         Qltb (init_sample_fraction c * inject_Z (Z.of_nat (n c) + 1))%Q
              (inject_Z (Z.of_nat r))
      then match i_restore i a with
           | None => Fail EAssert
           | Some (p, inv_ok) =>
               let p' := round_integer_vars p (integer_vars c) in
               let others := delete_at r (node_pos (T s)) ++ [p'] in
               if negb (near (min_dist c) p' others) && inv_ok
               then Ok (Some (p', r))
               else restoration c i s (S a) (r - 1) fuel'
           end
      else Ok None
  end.
Definition restoration_search (c : cfg) (i : inp) (s : st) : res (option (point * nat)) :=
  let k := length (node_pos (T s)) in
  restoration c i s 0 (k - 1) k.

(** ** Refinement update 2206-2267 *)
(** Some index of the list is not a valid row (numpy raises IndexError). *)
Definition stale (t : tabs) (js : list nat) : bool :=
  existsb (fun j => (length (node_pos t) <=? j)%nat) js.

Definition refinement_update (c : cfg) (i : inp) (s : st) : res st :=
  let r := Rf s in
  let t := T s in
  let last := (length (node_pos t) - 1)%nat in
  let cons := num_cons_refinement r + 1 in
  match ref_radius r, ref_iterate_index r with
  | Some rad, Some it0 =>
      let rad' := new_radius c rad (i_model_impr i) (i_real_impr i) in
      let move := refine_move c (i_model_impr i) (i_real_impr i) in
      (* "ref_move or ref_model_set[to_replace] == ref_iterate_index" *)
      match (if move then Some true
             else option_map (fun rep => (rep =? it0)%nat)
                             (nth_error (ref_model_set r) (i_to_replace i))) with
      | None => Fail EIndex
      | Some mv =>
          let it1 := if mv then last else it0 in
          let sel := map (fun j => nth j (node_pos t) []) (ref_model_set r) in
          if mv && stale t (ref_model_set r) then Fail EIndex else
          let torep := if mv then farthest (nth it1 (node_pos t) []) sel
                       else i_to_replace i in
          let unl := unlimited_refinement c s (i_time_unl i) in
          let stop := Qltb rad' (ref_min_radius c) ||
                      ((max_consecutive_refinement c <=? cons) && negb unl) in
          let rep := nth torep (ref_model_set r) 0%nat in
          if negb stop && negb (i_rank_def i) && stale t [it1; rep] then Fail EIndex else
          let pit := nth it1 (node_pos t) [] in
          let replace := i_rank_def i ||
                         Qle_bool (sqdist (nth last (node_pos t) []) pit)
                                  (sqdist (nth rep (node_pos t) []) pit) in
          let cons' := if stop then 0 else cons in
          let mset := if negb stop && replace then set_at torep last (ref_model_set r)
                      else ref_model_set r in
          let fl := if cons' <? max_consecutive_refinement c then fmin (I s)
                    else fmin_last_refine r in
          let r' := mkRefs cons' mset (Some rad') (Some it1) (iter_last_refine r) fl in
          let k := C s in
          let k' := if stop then set_cycle (cyclecount k + 1) (set_step (first_step c) k)
                    else k in
          Ok (set_C k' (set_R r' s))
      end
  | _, _ => Fail EIndex
  end.

(** ** One pass of the main loop, 851-1188 *)
(** Local variables of [optimize_serial] that survive from pass to pass: the gap, the
    last [err_l, err_u] assigned in this call, [itercount_at_start], the pause limit. *)
Record loc := mkLoc { gap : option Q; errs : option (Q * Q);
                      it_start : Z; pause : Z }.

Inductive outcome := Cont (s : st) (l : loc) | Stop | Crash (e : err).

(** Loop condition 851-858. *)
Definition loop_cond (c : cfg) (s : st) (l : loc) (clock_ok : bool) : bool :=
  let k := C s in
  (itercount k - it_start l <? pause l) &&
  (itercount k <? max_iterations c) &&
  (evalcount k <? max_evaluations c) &&
  (match search_space_size c with None => true | Some z => evalcount k <? z end) &&
  (cyclecount k <? max_cycles c) &&
  clock_ok && gap_gt c (gap l).

(** Skipped steps 861-867. *)
Definition skip_step (c : cfg) (k : ctrs) : bool :=
  ((current_step k =? inf_step) && negb (do_infstep c)) ||
  ((current_step k =? local_search_step c) && negb (do_local_search c)).

(** Restart test 870-880. *)
Definition must_restart (c : cfg) (k : ctrs) : bool :=
  (current_step k <=? first_step c) &&
  (((discarded_window_size c <=? 2 * Z.of_nat (length (discarded k))) &&
    Qle_bool (max_fraction_discarded c * inject_Z (Z.of_nat (length (discarded k))))%Q
             (inject_Z (Z.of_nat (count_true (discarded k))))) ||
   ((max_stalled_iterations c <=? num_stalled_iter k) &&
    (evalcount k + 3 * (Z.of_nat (n c) + 1 + cycle_length c) <? max_evaluations c) &&
    (cyclecount k <? max_cycles c - 1))).

(** Search phase 988-1067: what the step proposes. *)
Inductive found :=
| FPoint (s : st) (p : option point)   (* go on with this proposal *)
| FNext (s : st)                       (* continue with the next pass *)
| FFail (e : err).

(** [local_step] 2455-2638, seen from the main loop: re-evaluation is only proposed in
    the accurate phase of a two-phase run; otherwise the proposal. *)
Definition local_result (c : cfg) (i : inp) (s : st) : option nat :=
  if has_noisy c && negb (noisy_mode (C s)) then i_reeval i else None.

Definition search (c : cfg) (i : inp) (s : st) : found :=
  let k := C s in
  if current_step k =? restoration_step c then
    match restoration_search c i s with
    | Fail e => FFail e
    | Ok (Some (p, r)) =>
        match remove_node r s with
        | Fail e => FFail e
        | Ok s' => FPoint s' (Some p)
        end
    | Ok None =>
        if (Z.of_nat (n c) + 1 <=? Z.of_nat (length (node_pos (T s)))) &&
           negb (solve_underdetermined k)
        then FNext (set_C (set_underdet true (advance c k)) s)
        else match restart c i s with
             | Fail e => FFail e
             | Ok s' => FNext s'
             end
    end
  else if current_step k =? local_search_step c then
    match local_result c i s with
    | Some j =>
        match nth_error (node_pos (T s)) j with
        | None => FFail EIndex
        | Some p => match remove_node j s with
                    | Fail e => FFail e
                    | Ok s' => FPoint s' (Some p)
                    end
        end
    | None => FPoint s (i_prop i)
    end
  else FPoint s (i_prop i).

(** [assert(0 <= fmin_index < k)] in [local_step] 2543 and [global_step] 2809. *)
Definition search_guard (c : cfg) (s : st) : bool :=
  let z := current_step (C s) in
  (z =? inf_step) || (z =? restoration_step c) || (z =? refinement_step c) ||
  (fmin_index (I s) <? length (node_pos (T s)))%nat.

(** Step bookkeeping after a successful evaluation 1143-1172. *)
Definition after_eval (c : cfg) (i : inp) (s : st) : res st :=
  let k := C s in
  let r := Rf s in
  bind (if current_step k =? refinement_step c then
          bind (refinement_update c i s) (fun s' =>
          Ok (set_R (set_last_refine (itercount k) (Rf s')) s'))
        else if ((current_step k =? local_search_step c) ||
                 ((current_step k =? local_search_step c - 1) && negb (do_local_search c))) &&
                ((iter_last_refine r + refinement_frequency c *
                    (cycle_length c - (if do_infstep c then 1 else 2)) <=? itercount k) ||
                 unlimited_refinement c s (i_time_unl i))
        then Ok (set_R (set_last_refine (itercount k) r)
                       (set_C (set_step (refinement_step c) k) s))
        else Ok (advance_st c s))
       (fun s' => Ok (set_C (set_discarded (push_window (window c) (discarded (C s')) false)
                                           (C s')) s')).

(** Reuse of an evaluation made before the last restart, 1086-1096 and 1103-1110. *)
Definition lookup_old (c : cfg) (t : tabs) (po : point) : option nat :=
  let old := firstn (nodes_at_restart t) (all_pos t) in
  if (nodes_at_restart t =? 0)%nat then None
  else let j := nearest po old in
       if dist_lt po (nth j old []) (eps_zero c) then Some j else None.

(** Evaluation of the accepted proposal [p] (scaled) / [po] (original) 1078-1142:
    new state (before the step bookkeeping) and locals. *)
Definition evaluate (c : cfg) (i : inp) (p po : point) (s : st) (l : loc)
  : res (st * loc) :=
  let finish (s1 : st) (l1 : loc) (v : Q) :=
    bind (current_gap c s1) (fun g =>
    Ok (log_value v g s1, mkLoc g (errs l1) (it_start l1) (pause l1))) in
  if negb (noisy_mode (C s)) then
    match lookup_old c (T s) po with
    | Some j =>
        if negb (nth j (all_is_noisy (T s)) false) then
          let v := nth j (all_val (T s)) 0%Q in finish (add_node p po v s) l v
        else
          let s1 := emit [EvAcc po (i_val i)] (set_C (add_evals 1 0 (C s)) s) in
          finish (add_node p po (i_val i) s1) l (i_val i)
    | None =>
        let s1 := emit [EvAcc po (i_val i)] (set_C (add_evals 1 0 (C s)) s) in
        finish (add_node p po (i_val i) s1) l (i_val i)
    end
  else
    let '(v, noisy, s1, l1) :=
      match lookup_old c (T s) po with
      | Some j => (nth j (all_val (T s)) 0%Q, nth j (all_is_noisy (T s)) false, s, l)
      | None =>
          let '(v, el, eu) := i_nval i in
          (v, true, emit [EvNoisy po v el eu] (set_C (add_evals 0 1 (C s)) s),
           mkLoc (gap l) (Some (el, eu)) (it_start l) (pause l))
      end in
    if noisy then
      match errs l1 with
      | None => Fail EName              (* err_l referenced before assignment *)
      | Some (el, eu) =>
          if require_accurate c s1 (v + el)%Q then
            let s2 := log_value v (gap l1) s1 in
            let s3 := emit [EvAcc po (i_val i)] (set_C (add_evals 1 0 (C s2)) s2) in
            finish (add_node p po (i_val i) s3) l1 (i_val i)
          else finish (add_noisy_node p po v el eu s1) l1 v
      end
    else finish (add_node p po v s1) l1 v.

(** End of a pass 1174-1188. *)
Definition end_of_pass (c : cfg) (s : st) : res st :=
  let s1 := set_C (set_iter (itercount (C s) + 1) (C s)) s in
  let s2 := phase_update c (stalling_update c s1) in
  if save_state_interval c =? 0 then Fail EZeroDiv
  else if itercount (C s2) mod save_state_interval c =? 0
       then Ok (emit [EvSave (itercount (C s2))] s2) else Ok s2.

(** Discard or evaluate, 1069-1188. *)
Definition conclude (c : cfg) (i : inp) (s : st) (prop : option point) (l : loc) : outcome :=
  let clipped := option_map (fun p => clip p (l_lower c) (l_upper c)) prop in
  let discard :=
    match clipped with
    | None => Ok true
    | Some p => match node_pos (T s) with
                | [] => Fail EAssert     (* get_min_distance: other_points.size *)
                | _ => Ok (near (min_dist c) p (node_pos (T s)))
                end
    end in
  match discard, clipped with
  | Fail e, _ => Crash e
  | Ok false, Some p =>
      match bind (evaluate c i p (to_orig c p) s l) (fun sl =>
            bind (after_eval c i (fst sl)) (fun s2 =>
            bind (end_of_pass c s2) (fun s3 => Ok (s3, snd sl)))) with
      | Ok (s3, l3) => Cont s3 l3
      | Fail e => Crash e
      end
  | Ok _, _ =>
      let s1 := advance_st c s in
      let s2 := set_C (set_discarded (push_window (window c) (discarded (C s1)) true)
                                     (C s1)) s1 in
      let s3 := set_R (set_cons 0 (Rf s2)) s2 in
      match end_of_pass c s3 with Ok s4 => Cont s4 l | Fail e => Crash e end
  end.

(** Linear-algebra phase 951-1003 (after a possible restart): may switch to the
    restoration step, or abandon the refinement. *)
Inductive prep := PGo (s : st) | PNext (s : st) | PFail (e : err).
Definition prepare (c : cfg) (i : inp) (s : st) : prep :=
  let k := C s in
  if current_step k <=? local_search_step c then
    if i_lin_ok i then PGo s else PGo (set_C (set_step (restoration_step c) k) s)
  else if current_step k =? refinement_step c then
    let r := Rf s in
    let first := num_cons_refinement r =? 0 in
    if first && stale (T s) [fmin_index (I s)] then PFail EIndex
    else if first && (length (node_pos (T s)) <? 2)%nat then PFail EAssert else
    let s1 := if first
              then set_R (mkRefs 0 (i_ref_set i) (Some (i_ref_radius i))
                                 (Some (fmin_index (I s)))
                                 (iter_last_refine r) (fmin_last_refine r)) s
              else s in
    (* node_pos[model_set] in get_linear_model; assert(start_point_index < k) *)
    if stale (T s) (ref_model_set (Rf s1)) then PFail EIndex
    else if negb (i_ref_ok i) then
      PNext (set_C (set_cycle (cyclecount k + 1) (set_step (first_step c) k)) s1)
    else match ref_iterate_index (Rf s1) with
         | Some j => if stale (T s) [j] then PFail EAssert else PGo s1
         | None => PFail EAssert
         end
  else PGo s.

Definition pass (c : cfg) (i : inp) (s : st) (l : loc) : outcome :=
  if negb (loop_cond c s l (i_clock_ok i)) then Stop
  else if skip_step c (C s) then Cont (advance_st c s) l
  else
    match (if must_restart c (C s) then restart c i s else Ok s) with
    | Fail e => Crash e
    | Ok s1 =>
        match prepare c i s1 with
        | PFail e => Crash e
        | PNext s2 => Cont s2 l
        | PGo s2 =>
            let s3 := emit [EvStep (current_step (C s2))] s2 in
            if negb (search_guard c s3) then Crash EAssert else
            match search c i s3 with
            | FFail e => Crash e
            | FNext s4 => Cont s4 l
            | FPoint s4 prop => conclude c i s4 prop l
            end
        end
    end.

(** ** Runs *)
Inductive run_result := Running (s : st) (l : loc) | Done (s : st) | Failed (e : err).

(** The main loop on a list of pass inputs; [Running] when the inputs are used up. *)
Fixpoint run (c : cfg) (is : list inp) (s : st) (l : loc) : run_result :=
  match is with
  | [] => Running s l
  | i :: r => match pass c i s l with
              | Cont s' l' => run c r s' l'
              | Stop => Done s
              | Crash e => Failed e
              end
  end.

(** Beginning of [optimize_serial] 835-849 (the gap is computed after a possible restart). *)
Definition start_call (c : cfg) (i0 : inp) (pause_after : Z) (s : st) : res (st * loc) :=
  bind (if itercount (C s) =? 0 then restart c i0 s else Ok s) (fun s1 =>
  bind (current_gap c s1) (fun g =>
  Ok (s1, mkLoc g None (itercount (C s)) pause_after))).

(** One call of [optimize] in serial mode (n >= 1): input of the first restart and of
    the passes. *)
Definition call (c : cfg) (i0 : inp) (pause_after : Z) (is : list inp) (s : st) : run_result :=
  match start_call c i0 pause_after s with
  | Fail e => Failed e
  | Ok (s1, l1) => run c is s1 l1
  end.

(** Value returned by [optimize] 790-812 (before decoding): first minimum of the history. *)
Definition result (s : st) : option (Q * point) :=
  match all_val (T s) with
  | [] => None
  | _ => let j := argmin (all_val (T s)) in
         Some (nth j (all_val (T s)) 0%Q, nth j (all_pos (T s)) [])
  end.

(** States reachable through any sequence of [optimize] calls, at the loop head.
    A new call may start from any state in which an earlier one stopped (or was
    interrupted between passes).  [ok] restricts the inputs (the environment);
    [fun _ => True] means that nothing is assumed about it. *)
Inductive reach (c : cfg) (ok : inp -> Prop) : st -> loc -> Prop :=
| reach_start : forall i0 pa s l, ok i0 ->
    start_call c i0 pa (init_st c) = Ok (s, l) -> reach c ok s l
| reach_again : forall i0 pa s0 l0 s l, ok i0 ->
    reach c ok s0 l0 -> start_call c i0 pa s0 = Ok (s, l) -> reach c ok s l
| reach_pass : forall i s0 l0 s l, ok i ->
    reach c ok s0 l0 -> pass c i s0 l0 = Cont s l -> reach c ok s l.
Definition any_inp : inp -> Prop := fun _ => True.
