(** * Initial sampling and small utilities.

    Models rbfopt_utils.py 167-622 (corner sets, Latin hypercubes, sample sizes,
    [initialize_nodes]), 1917-1994 ([get_sigma_n], [get_fmax_current_iter]), 2177-2253
    ([get_most_common_element], [results_ready], [get_one_ready_index]) and 2273-2309
    ([init_points_cleanup]).  Definitions only.

    Simplifications: coordinates are rationals; the random draws, the correlation
    criterion of 'lhd_corr' and the rank test by singular values are inputs. *)
From Verif Require Export ModelCategorical.
Open Scope Q_scope.

(** [get_all_corners] 167-203: [itertools.product('lu', repeat=n)], last index fastest. *)
Fixpoint all_corners (lo up : point) : list point :=
  match lo, up with
  | l :: lo', u :: up' => map (cons l) (all_corners lo' up') ++ map (cons u) (all_corners lo' up')
  | _, _ => [[]]
  end.

(** [get_lower_corners] 206-240. *)
Definition lower_corners (lo up : point) : list point :=
  lo :: map (fun i => set_at i (nth i up 0) lo) (seq 0 (length lo)).

(** [limits[np.random.randint(2, size=n), np.arange(n)]] 272-274: [limits] has the upper
    bounds in row 0, so the draw [false] (0) selects the upper bound. *)
Definition pick_corner (draw : list bool) (lo up : point) : point :=
  map3 (fun (d : bool) l u => if d then l else u) draw lo up.
(** [get_random_corners] 243-280.  The draws are consumed one by one; [None] when they run
    out before n+1 distinct corners were seen (the code would go on drawing). *)
Fixpoint more_corners (n : nat) (lo up : point) (acc : list point) (draws : list (list bool)) : option (list point) :=
  if (length acc <? n)%nat then
    match draws with
    | [] => None
    | d :: r => let p := pick_corner d lo up in
                more_corners n lo up (if near 0 p acc then acc else acc ++ [p]) r
    end
  else Some acc.
Definition random_corners (lo up : point) (draws : list (list bool)) : option (list point) :=
  match draws with
  | [] => None
  | d :: r => more_corners (S (length lo)) lo up [pick_corner d lo up] r
  end.

(** [get_uniform_lhs] 283-315: [perms] are the [n] permutations, [rands] the
    [num_samples x n] uniform draws. *)
Definition uniform_lhs (num : nat) (perms : list (list nat)) (rands : list point) : list point :=
  map (fun i => map2 (fun pm r => (r + inject_Z (Z.of_nat (nth i pm 0%nat))) / inject_Z (Z.of_nat num))
                     perms (nth i rands []))
      (seq 0 num).

(** 365-372: smallest pairwise distance of a design (the model compares squares). *)
Fixpoint pair_dists (l : list point) : list Q :=
  match l with [] => [] | p :: r => map (sqdist p) r ++ pair_dists r end.
Definition min_pair (l : list point) : Q := nth (argmin (pair_dists l)) (pair_dists l) 0.
(** [lhs[dist_values.index(max(dist_values))]]. *)
Definition maximin_choice (designs : list (list point)) : list point :=
  nth (argmax (map min_pair designs)) designs [].
(** 373-380, 438-445: map to the (enlarged) box. *)
Definition bound_shift (ints : list nat) (i : nat) : Q := if memn i ints then 499 # 1000 else 0.
Fixpoint lhd_point (i : nat) (ints : list nat) (x lo up : point) : point :=
  match x, lo, up with
  | v :: x', l :: lo', u :: up' =>
      (v * (2 * bound_shift ints i + u - l) + l - bound_shift ints i) :: lhd_point (S i) ints x' lo' up'
  | _, _, _ => []
  end.
(** [get_lhd_maximin_points] 318-381 and [get_lhd_corr_points] 384-446; [choose] selects one
    of the designs. *)
Definition lhd_points (choose : list (list point) -> list point) (lo up : point) (ints : list nat)
  (num : nat) (trials : list (list (list nat) * list point)) : list point :=
  match lo with
  | [_] => [lo; up]
  | _ => map (fun x => lhd_point 0 ints x lo up)
             (choose (map (fun t => uniform_lhs num (fst t) (snd t)) trials))
  end.

(** [get_num_init_samples] 448-472. *)
Definition num_init_samples (frac incr : Q) (cpus : Z) (n : nat) : Z :=
  if (1 <? cpus)%Z
  then Z.max 2 (round_half_even (inject_Z (Z.of_nat n + 1) * frac * (1 + inject_Z cpus * incr)))
  else Z.max 2 (round_half_even (inject_Z (Z.of_nat n + 1) * frac)).
(** [get_min_num_init_samples_parallel] 474-502. *)
Definition min_num_init_samples_parallel (frac : Q) (n : nat) : Z :=
  Z.max 2 (round_half_even (inject_Z (Z.of_nat n + 1) * frac)).

(** Settings read by [initialize_nodes]. *)
Inductive strategy := AllCorners | LowerCorners | RandCorners | LhdMaximin | LhdCorr.
Record init_cfg := mkInit {
  i_strategy : strategy;            (* init_strategy *)
  i_frac : Q; i_incr : Q; i_cpus : Z; (* init_sample_fraction, init_sample_increase_parallel, num_cpus *)
  i_midpoint : bool;                (* init_include_midpoint *)
  i_min_dist : Q;                   (* min_dist *)
  i_max : nat                       (* max_random_init *)
}.
Definition is_lhd (st : strategy) : bool := match st with LhdMaximin | LhdCorr => true | _ => false end.
(** Random draws of one pass of the loop, the index of the design the correlation criterion
    selects, and the verdict of the rank test 599-615. *)
Record attempt := mkAttempt {
  a_corners : list (list bool);
  a_trials : list (list (list nat) * list point);
  a_corr : nat;
  a_independent : list point -> bool
}.
Inductive init_result := InitOk (nodes : list point) | InitError | InitDiverges.

(** Lines 573-580: the sample of one pass. *)
Definition sample_nodes (st : strategy) (num : Z) (lo up : point) (ints : list nat) (a : attempt) : option (list point) :=
  match st with
  | AllCorners => Some (all_corners lo up)
  | LowerCorners => Some (lower_corners lo up)
  | RandCorners => random_corners lo up (a_corners a)
  | LhdMaximin => Some (lhd_points maximin_choice lo up ints (Z.to_nat num) (a_trials a))
  | LhdCorr => Some (lhd_points (fun ds => nth (a_corr a) ds []) lo up ints (Z.to_nat num) (a_trials a))
  end.
Definition mid_point (lo up : point) (ints : list nat) : point :=
  round_integer_vars (map2 (fun l u => (l + u) / 2) lo up) ints.
(** Lines 582-589 and 591-594: rounding, midpoint, expansion. *)
Definition finish_nodes (c : init_cfg) (cat : bool) (s : setup) (lo up : point) (ints : list nat)
  (nodes : list point) : list point :=
  let rounded := map (fun p => round_integer_vars p ints) nodes in
  let with_mid := if i_midpoint c && negb (near (i_min_dist c) (mid_point lo up ints) rounded)
                  then rounded ++ [mid_point lo up ints] else rounded in
  if cat then map (expand s) with_mid else with_mid.
(** [initialize_nodes] 505-622.  [k] is [itercount]; [attempts] the passes to come. *)
Fixpoint init_loop (c : init_cfg) (num : Z) (cat : bool) (s : setup) (lo up : point) (ints : list nat)
  (k : nat) (attempts : list attempt) : init_result :=
  match attempts with
  | [] => InitError      (* never reached: see [initialize_nodes] *)
  | a :: r =>
      match sample_nodes (i_strategy c) num lo up ints a with
      | None => InitDiverges
      | Some raw =>
          let nodes := finish_nodes c cat s lo up ints raw in
          if a_independent a nodes
          then (* dependent = False; 618-619 *) if (S k =? i_max c)%nat then InitError else InitOk nodes
          else if (S k <? i_max c)%nat then init_loop c num cat s lo up ints (S k) r
          else InitError
      end
  end.
(** [attempts] must hold [i_max] passes (more are ignored). *)
Definition initialize_nodes (c : init_cfg) (s : setup) (lo up : point) (ints : list nat)
  (attempts : list attempt) : init_result :=
  let num := num_init_samples (i_frac c) (i_incr c) (i_cpus c) (length lo) in
  let cat := is_lhd (i_strategy c) && match s_expansion s with [] => false | _ => true end in
  let lo' := if cat then compress_bounds s lo else lo in
  let up' := if cat then compress_bounds s up else up in
  let ints' := if cat then compress_ints s ints else ints in
  if (i_max c =? 0)%nat then InitError
  else init_loop c num cat s lo' up' ints' 0 attempts.
(** The call in [restart], rbfopt_algorithm.py 1848-1850, on the bounds as rounded at 393. *)
Definition initial_sample (c : init_cfg) (s : setup) (attempts : list attempt) : init_result :=
  initialize_nodes c s (floor_at 0 (s_ints s) (s_lower s)) (ceil_at 0 (s_ints s) (s_upper s)) (s_ints s) attempts.

(** ** Target-value index *)
(** [get_sigma_n] 1917-1948 for [current_step = S s]; Python's floor of the quotient. *)
Fixpoint sigma_n (k : Z) (s : nat) (g n0 : Z) : Z :=
  match s with
  | O => (k - 1)%Z
  | S s' => (sigma_n k s' g n0 - Qfloor (inject_Z (k - n0) / inject_Z g))%Z
  end.
(** [np.sort]. *)
Fixpoint insertQ (x : Q) (l : list Q) : list Q :=
  match l with [] => [x] | y :: r => if Qle_bool x y then x :: l else y :: insertQ x r end.
Fixpoint sortQ (l : list Q) : list Q :=
  match l with [] => [] | x :: r => insertQ x (sortQ r) end.
(** Python indexing [a[i]]: negative indices count from the end, [None] = IndexError. *)
Definition py_nth {A} (l : list A) (i : Z) : option A :=
  let len := Z.of_nat (length l) in
  if (0 <=? i)%Z then nth_error l (Z.to_nat i)
  else if (0 <=? i + len)%Z then nth_error l (Z.to_nat (i + len)) else None.
(** 1986-1987: assumed number of initial points. *)
Definition assumed_init_points (all : bool) (frac : Q) (n : nat) : Z :=
  if all then (2 ^ Z.of_nat n)%Z else round_half_even (inject_Z (Z.of_nat n + 1) * frac).
(** [get_fmax_current_iter] 1952-1994, at step [step >= 1]. *)
Definition fmax_current_iter (all : bool) (frac : Q) (n : nat) (g : Z) (step : nat) (vals : list Q) : option Q :=
  py_nth (sortQ vals) (sigma_n (Z.of_nat (length vals)) (step - 1) g (assumed_init_points all frac n)).

(** ** Small utilities *)
(** [results_ready] 2200-2223 and [get_one_ready_index] 2226-2253, on the list of the
    [ready()] answers. *)
Fixpoint results_ready (l : list bool) : bool :=
  match l with [] => false | b :: r => if b then true else results_ready r end.
Fixpoint last_ready (l : list bool) (i : nat) (acc : option nat) : option nat :=
  match l with [] => acc | b :: r => last_ready r (S i) (if b then Some i else acc) end.
Definition one_ready_index (l : list bool) : nat :=
  match last_ready l 0 None with Some i => i | None => length l end.
(** [get_most_common_element] 2177-2197: [Counter.most_common(1)], first in order of
    appearance among the most frequent; [eqb] is Python's equality. *)
Definition count_eq {A} (eqb : A -> A -> bool) (x : A) (l : list A) : nat := length (filter (eqb x) l).
Fixpoint best_count {A} (eqb : A -> A -> bool) (all l : list A) (best : option A) : option A :=
  match l with
  | [] => best
  | x :: r => best_count eqb all r
      (match best with
       | Some b => if (count_eq eqb b all <? count_eq eqb x all)%nat then Some x else best
       | None => Some x
       end)
  end.
Definition most_common {A} (eqb : A -> A -> bool) (l excl : list A) : option A :=
  let l' := filter (fun x => negb (existsb (eqb x) excl)) l in best_count eqb l' l' None.
(** [init_points_cleanup] 2273-2309: position [j] is dropped when an earlier point - dropped
    or not - is within min_dist. *)
Definition cleanup_drop (d : Q) (pts : list point) (i : nat) (take : list bool) : list bool :=
  map2 (fun j t => if ((i <? j)%nat && dist_le (nth i pts []) (nth j pts []) d)%bool then false else t)
       (seq 0 (length pts)) take.
Definition bad_pair (d : Q) (pts : list point) (i : nat) : bool :=
  existsb (fun q => dist_le (nth i pts []) q d) (skipn (S i) pts).
Definition init_points_cleanup (d : Q) (pts : list point) : list nat :=
  where_ (fun b : bool => b)
    (fold_left (fun t i => cleanup_drop d pts i t) (filter (bad_pair d pts) (seq 0 (length pts)))
       (repeat true (length pts))).
