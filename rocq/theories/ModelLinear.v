(** * Least-squares models, estimates for pending points, calls of the external solver.

    Models rbfopt_refinement.py [get_linear_model] 79-142; rbfopt_utils.py
    [get_rbf_coefficients_underdet] 1301-1376, [bulk_compute_and_evaluate_rbf] 1520-1609;
    rbfopt_algorithm.py 960-973 and 1638-1650 (which system is solved), 1261-1266 and 1487-1497
    (estimates for points under evaluation); rbfopt_aux_problems.py: what is done with the answer
    of the solver (168-184, 301-315, 508-527) and with its starting point (533-585).

    Definitions only.  Real arithmetic.  [np.linalg.lstsq] is an arbitrary function: [None] is an
    exception, [Some (x, rank)] its first and third result. *)
From Verif Require Export ModelRefine ModelPyomo.
Open Scope R_scope.

Definition lstsq_fun := mat -> list R -> option (list R * nat).

(** [get_linear_model] 79-142: coefficients [h], constant [b], flag [rank_deficient]. *)
Definition model_rows (nodes : list rpoint) (model_set : list nat) : mat :=
  map (fun i => nth i nodes [] ++ [1]) model_set.
Definition get_linear_model (lstsq : lstsq_fun) (n : nat) (nodes : list rpoint) (vals : list R)
    (model_set : list nat) : option (rpoint * R * bool) :=
  match lstsq (model_rows nodes model_set) (map (fun i => nth i vals 0) model_set) with
  | None => None
  | Some (x, rank) => Some (firstn n x, last x 0, (rank <? length model_set)%nat)
  end.

(** [get_rbf_coefficients_underdet] 1301-1376: same code as [get_rbf_coefficients] 1223-1299, with
    [lstsq] in place of [solve]. *)
Definition get_rbf_coefficients_underdet (lstsq : lstsq_fun) (kind : rbf_kind) (n k : nat) (A : mat)
    (node_val : list R) (expansions : list (list nat)) : option (list R * list R) :=
  get_rbf_coefficients (fun B b => option_map fst (lstsq B b)) kind n k A node_val expansions.

(** The interpolant of the current iteration, rbfopt_algorithm.py 960-973, 1638-1650; [forced]:
    [self.solve_underdetermined]. *)
Definition current_coefficients (solve : mat -> list R -> option (list R)) (lstsq : lstsq_fun)
    (forced : bool) (kind : rbf_kind) (n k : nat) (A : mat) (node_val : list R)
    (expansions : list (list nat)) : option (list R * list R) :=
  if (k <? n + 1)%nat || forced
  then get_rbf_coefficients_underdet lstsq kind n k A node_val expansions
  else get_rbf_coefficients solve kind n k A node_val expansions.

(** [bulk_compute_and_evaluate_rbf] 1520-1609. *)
Definition bulk_compute_and_evaluate_rbf (solve : mat -> list R -> option (list R)) (lstsq : lstsq_fun)
    (fs : fscaling) (clip : clipping) (eps thr : R) (kind : rbf_kind) (gamma : R) (n : nat)
    (points nodes : list rpoint) (vals : list R) (fmin fmax : R) (err : list (R * R))
    (expansions : list (list nat)) : option (list R) :=
  match points with
  | [] => Some []
  | _ =>
      let S := transform_function_values fs clip eps thr vals fmin fmax err in
      let k := length nodes in
      match current_coefficients solve lstsq false kind n k (get_rbf_matrix kind gamma eps n nodes)
              (sc_val S) expansions with
      | None => None
      | Some (lam, h) => Some (bulk_evaluate_rbf kind gamma points n k nodes lam h)
      end
  end.
(** Estimated values of the points under evaluation, rbfopt_algorithm.py 1261-1266, 1546-1551,
    1699-1704. *)
Definition pending_estimates solve lstsq fs clip eps thr kind gamma n points nodes vals fmin fmax err expansions
  : option (list R) :=
  option_map (map (fun v => rclip1 v fmin fmax))
    (bulk_compute_and_evaluate_rbf solve lstsq fs clip eps thr kind gamma n points nodes vals fmin fmax err expansions).
(** ... and of a point just submitted, 1487-1497: [lam], [h] were computed (1638-1650) for the
    scaled values. *)
Definition submitted_estimate (kind : rbf_kind) (gamma : R) (n : nat) (nodes : list rpoint) (lam h : list R)
    (fmin fmax : R) (p : rpoint) : R :=
  rclip1 (evaluate_rbf kind gamma p n (length lam) (firstn (length lam) nodes) lam h) fmin fmax.

(** ** External solver *)
(** What [opt.solve] did: it raised an exception, ended with another status, or reported an
    optimal solution with these values of [x]. *)
Inductive solver_answer := SolverRaised | SolverOther | SolverOptimal (x : rpoint).
(** [round_integer_vars], rbfopt_utils.py 628-646. *)
Definition rround_integer_vars (x : rpoint) (ints : list nat) : rpoint :=
  mapi (fun j v => if memb ints j then Raround v else v) x.
(** 168-184, 301-315, 508-527: the point returned by [pure_global_search], [minimize_rbf] and
    [global_search]. *)
Definition solver_point (ints : list nat) (a : solver_answer) : option rpoint :=
  match a with SolverOptimal x => Some (rround_integer_vars x ints) | _ => None end.
(** [initialize_instance_variables] 533-562; [u]: the uniform numbers in [0, 1). *)
Definition start_values (lo up : rpoint) (start : option rpoint) (u : list R) : rpoint :=
  match start with Some p => p | None => map3 (fun l w r => l + r * (w - l)) lo up u end.
(** [initialize_msrsm_aux_variables] 565-585. *)
Definition start_mindistsq (nodes : list rpoint) (x : rpoint) : R := amin (map (sq_dist x) nodes).
