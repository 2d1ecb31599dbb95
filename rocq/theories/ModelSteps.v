(** * The global and local search steps, and the choice of a node to re-evaluate.

    Models rbfopt_algorithm.py [local_step] 2455-2638 and [global_step] 2741-2902,
    rbfopt_utils.py [round_integer_bounds] 648-675, rbfopt_aux_problems.py [get_min_bump_node]
    718-803 and [get_bump_new_node] 806-878.

    Definitions only.  Real arithmetic.  [minimize_rbf], [global_search] and the bumpiness of the
    interpolant fitted to given values and error bounds are arguments. *)
From Verif Require Export ModelRefine.
Open Scope R_scope.

(** 2575-2584, 2839-2848: the minimum of the model, replaced by the best node if it is missing or
    not below the best value. [found] is the result of [minimize_rbf] with its model value. *)
Definition model_minimum (eps_zero : R) (best : rpoint) (fmin : R) (found : option (rpoint * R)) : rpoint * R :=
  match found with
  | None => (best, fmin)
  | Some (p, v) => if Rleb (fmin + eps_zero) v then (best, fmin) else (p, v)
  end.

(** [round_integer_bounds] on the local box: [np.floor] / [np.ceil] on the integer coordinates. *)
Definition round_integer_bounds (lo up : rpoint) (ints : list nat) : rpoint * rpoint :=
  (mapi (fun j x => if memb ints j then Rfloor x else x) lo,
   mapi (fun j x => if memb ints j then Rceil x else x) up).

(** 2597-2603 and 2877-2883. *)
Definition local_box (scaling : R) (center lo up : rpoint) (ints : list nat) : rpoint * rpoint :=
  let half := map2 (fun a b => scaling * (33/100) * (b - a)) lo up in
  round_integer_bounds (map2 Rmax (map2 Rminus center half) lo)
                       (map2 Rmin (map2 Rplus center half) up) ints.

(** [global_step] 2860-2872. [s]: current step, [g]: num_global_searches. *)
Definition target_scaling (s g : nat) : R := (1 - (INR s - 1) / INR g) ^ 2.
Definition target_value (s g : nat) (min_rbf_val local_fmax : R) : R :=
  min_rbf_val - target_scaling s g * (local_fmax - min_rbf_val).
Definition distance_weight (s g : nat) : R :=
  if (s <? g)%nat then 1 - INR s / INR g else 5/100.
(** 2876-2889: the box searched. *)
Definition global_box (thr scaling : R) (s g : nat) (center lo up : rpoint) (ints : list nat) : rpoint * rpoint :=
  if Rleb (target_scaling s g) thr then local_box scaling center lo up ints else (lo, up).
(** Arguments of the call to [global_search]. *)
Record global_query := mkQuery { q_lower : rpoint; q_upper : rpoint; q_target : R; q_weight : R }.
Definition global_step (gutmann : bool) (eps_zero thr scaling : R) (s g : nat) (lo up : rpoint) (ints : list nat)
    (best : rpoint) (fmin local_fmax : R) (found : option (rpoint * R)) : global_query :=
  let (p, v) := model_minimum eps_zero best fmin (if gutmann then found else None) in
  let (bl, bu) := global_box thr scaling s g p lo up ints in
  mkQuery bl bu (target_value s g v local_fmax) (distance_weight s g).

(** [get_min_bump_node]: the candidates (779-783). The code tests the lower end twice and never the
    upper end. *)
Definition bump_candidate (eps_zero target : R) (v : R) (e : R * R) : bool :=
  Rltb eps_zero (snd e - fst e) && Rleb (v + fst e) target && Rleb (v + fst e) target.
Definition bump_candidates (eps_zero target : R) (vals : list R) (errs : list (R * R)) : list nat :=
  filter (fun i => bump_candidate eps_zero target (nth i vals 0) (nth i errs (0, 0))) (seq 0 (length vals)).
(** The loop 785-801. [bump vals errs]: bumpiness of the interpolant fitted to [vals] within [errs].
    The row saved by [orig_node_err_bounds = node_err_bounds[i]] is a view of the row that is then
    set to zero, so the restoration assigns zeros; the value is restored. *)
Fixpoint bump_scan (bump : list R -> list (R * R) -> R) (target : R) (todo : list nat) (vals : list R)
    (errs : list (R * R)) (best : option (nat * R)) : option (nat * R) * list R * list (R * R) :=
  match todo with
  | [] => (best, vals, errs)
  | i :: rest =>
      let orig := nth i vals 0 in
      let vals1 := set_at i target vals in
      let errs1 := set_at i (0, 0) errs in
      let b := bump vals1 errs1 in
      let vals2 := set_at i orig vals1 in
      let best' := match best with
                   | None => Some (i, b)
                   | Some (_, m) => if Rltb b m then Some (i, b) else best
                   end in
      bump_scan bump target rest vals2 errs1 best'
  end.
Definition get_min_bump_node (bump : list R -> list (R * R) -> R) (eps_zero target : R) (vals : list R)
    (errs : list (R * R)) : option (nat * R) * list R * list (R * R) :=
  bump_scan bump target (bump_candidates eps_zero target vals errs) vals errs None.

(** [local_step].  [new_bump p vals errs] is [get_bump_new_node] at [p]; [search lo up target w] is
    [global_search].  Result: adjusted flag, point, index to replace, scaled values and error
    bounds afterwards. *)
Definition accepts (eps_impr fmin v : R) : bool := Rleb v (fmin - eps_impr * Rmax 1 (Rabs fmin)).
Definition local_target (fmin : R) : R := fmin - (1/100) * Rmax 1 (Rabs fmin).
Definition local_proposal (eps_zero eps_impr scaling : R) (lo up : rpoint) (ints : list nat)
    (best : rpoint) (fmin : R) (found : option (rpoint * R))
    (search : rpoint -> rpoint -> R -> R -> option rpoint) : bool * option rpoint * R :=
  let (p, v) := model_minimum eps_zero best fmin found in
  if accepts eps_impr fmin v then (false, Some p, v)
  else let (bl, bu) := local_box scaling p lo up ints in
       (true, search bl bu (local_target fmin) (5/100), local_target fmin).
Definition reevaluate (min_dist : R) (nodes : list rpoint) (noisy : list bool) (new_bump : R) (bump : R)
    (p : rpoint) : option nat :=
  let (dist, ind) := get_min_distance_and_index p nodes in
  if Rltb min_dist dist then (if Rltb bump new_bump then Some ind else None)
  else (* bumpiness +inf or -inf *) if nth ind noisy false then Some ind else None.
Definition local_step (bump : list R -> list (R * R) -> R) (new_bump : rpoint -> R -> list R -> list (R * R) -> R)
    (search : rpoint -> rpoint -> R -> R -> option rpoint)
    (eps_zero eps_impr min_dist scaling : R) (lo up : rpoint) (ints : list nat) (nodes : list rpoint)
    (vals : list R) (errs : list (R * R)) (noisy : list bool) (fmin_index : nat) (fmin : R)
    (found : option (rpoint * R)) (accurate_phase : bool)
  : bool * option rpoint * option nat * list R * list (R * R) :=
  let '(adjusted, next_p, target) :=
    local_proposal eps_zero eps_impr scaling lo up ints (nth fmin_index nodes []) fmin found search in
  if accurate_phase then
    let '(m, vals', errs') := get_min_bump_node bump eps_zero target vals errs in
    match m, next_p with
    | Some (_, b), Some p =>
        match reevaluate min_dist nodes noisy (new_bump p target vals' errs') b p with
        | Some ind => (true, Some (nth ind nodes []), Some ind, vals', errs')
        | None => (adjusted, next_p, None, vals', errs')
        end
    | _, _ => (adjusted, next_p, None, vals', errs')
    end
  else (adjusted, next_p, None, vals, errs).

(** The optimizer's own table of error bounds after the step: with [function_scaling='off'] the
    table handed to the step is that table itself (rbfopt_utils.py 1712-1714), otherwise a new one. *)
Definition stored_bounds_after (fs : fscaling) (stored after : list (R * R)) : list (R * R) :=
  match fs with ScaleOff => after | _ => stored end.
