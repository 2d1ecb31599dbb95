(** * The refinement (trust region) step.

    Models rbfopt_refinement.py [init_refinement] 24-76, [get_candidate_point] 143-213,
    [get_integer_candidate] 215-302, [round_categorical] 304-341, [get_model_improving_point]
    344-463, and rbfopt_algorithm.py [refinement_step] 2640-2738.
    ([update_refinement_radius] 465-507 and [refinement_update] are in ModelAlg.v.)

    Definitions only.  Real arithmetic.  Random numbers, the random choice of a categorical
    value, the sorting permutation of [np.argsort] and the factorization [la.qr] are arguments.
    [get_linear_model] 79-142 is in [ModelLinear]; here its result [h], [b] is an argument. *)
From Verif Require Export ModelScaling.
Open Scope R_scope.

(** [np.floor], [np.ceil], [np.around] (ties to even), as reals. *)
Definition Rfloor (x : R) : R := IZR (Int_part x).
Definition Rceil (x : R) : R := - Rfloor (- x).
Definition Raround (x : R) : R :=
  let f := Int_part x in
  if Rltb (x - IZR f) (1/2) then IZR f
  else if Rltb (1/2) (x - IZR f) then IZR (f + 1)
  else if Z.even f then IZR f else IZR (f + 1).

(** [f] applied to the coordinates with their index. *)
Fixpoint mapi_from {A B} (i : nat) (f : nat -> A -> B) (l : list A) : list B :=
  match l with [] => [] | x :: r => f i x :: mapi_from (S i) f r end.
Definition mapi {A B} (f : nat -> A -> B) (l : list A) : list B := mapi_from 0 f l.
Definition memb (ints : list nat) (j : nat) : bool := existsb (Nat.eqb j) ints.

(** [np.clip]. *)
Definition rclip1 (x lo up : R) : R := Rmin (Rmax x lo) up.
Definition rclip (p lo up : rpoint) : rpoint := map3 rclip1 p lo up.

(** [init_refinement] 24-76: [order] is [np.argsort(dist[0])]. *)
Definition init_model_set (n k : nat) (order : list nat) : list nat := firstn (Nat.min (n + 1) k) order.
Definition init_radius (ref_min_radius : R) (multiplier : nat) (nodes : list rpoint) (center : rpoint)
    (model_set : list nat) : R :=
  Rmax (median (map (fun i => distance center (nth i nodes [])) (List.tl model_set)))
       (ref_min_radius * 2 ^ multiplier).

(** [get_candidate_point] 143-213. *)
Definition step_length (min_dist : R) (lo up h start : rpoint) (radius : R) : R :=
  let idx := seq 0 (length h) in
  let down := filter (fun j => Rltb 0 (nth j h 0) && Rleb (nth j lo 0 + min_dist) (nth j start 0)) idx in
  let upw := filter (fun j => Rltb (nth j h 0) 0 && Rleb (nth j start 0) (nth j up 0 - min_dist)) idx in
  let t0 := radius / sqrt (rdot h h) in
  let t1 := match down with [] => t0
            | _ => Rmin t0 (amin (map (fun j => (nth j start 0 - nth j lo 0) / nth j h 0) down)) end in
  match upw with [] => t1
  | _ => Rmin t1 (amin (map (fun j => (nth j start 0 - nth j up 0) / nth j h 0) upw)) end.
(** Candidate, model improvement, gradient norm. *)
Definition get_candidate_point (eps min_dist : R) (lo up h start : rpoint) (radius : R) : rpoint * R * R :=
  let grad_norm := sqrt (rdot h h) in
  if Rleb grad_norm eps then (start, 0, grad_norm)
  else let t := step_length min_dist lo up h start radius in
       let candidate := rclip (map2 (fun s a => s - t * a) start h) lo up in
       (candidate, rdot h (map2 Rminus start candidate), grad_norm).

(** [round_categorical] 304-341: one chosen coordinate per block. *)
Definition round_block (p : rpoint) (block : list nat) (chosen : nat) : rpoint :=
  set_at chosen 1 (fold_left (fun q j => set_at j 0 q) block p).
Definition round_categorical (blocks : list (list nat)) (choices : list nat) (p : rpoint) : rpoint :=
  fold_left (fun q bc => round_block q (fst bc) (snd bc)) (combine blocks choices) p.

(** The coordinate chosen for a block (330-340).  [u]: uniform number in [0,1) used by
    [np.random.choice] with probabilities (first entry of the cumulated sums above [u]); [r]: uniform
    position used when all the weights are 0. *)
Fixpoint pick_from (total u acc : R) (ws : list R) (i : nat) : nat :=
  match ws with
  | [] => i
  | w :: rest => if Rltb u ((acc + w) / total) then i else pick_from total u (acc + w) rest (S i)
  end.
Definition pick_category (p : rpoint) (block : list nat) (u : R) (r : nat) : nat :=
  let ws := map (fun j => nth j p 0) block in
  if Req_EM_T (rsum ws) 0 then nth r block 0%nat
  else nth (pick_from (rsum ws) u 0 ws 0) block 0%nat.

(** [get_integer_candidate] 215-302.  [ints]: the integer variables that are not part of a
    categorical block (258-262).  A draw is the uniform number of each variable and the
    categorical choices; [first_choice]: choices made for the initial rounding. *)
Record draw := mkDraw { d_unif : nat -> R; d_choice : list nat }.
Definition initial_rounding (h candidate : rpoint) (ints : list nat) (blocks : list (list nat))
    (first_choice : list nat) : rpoint :=
  round_categorical blocks first_choice
    (mapi (fun j x => if memb ints j then (if Rleb 0 (nth j h 0) then Rceil x else Rfloor x) else x) candidate).
Definition drawn_rounding (candidate : rpoint) (ints : list nat) (blocks : list (list nat)) (d : draw) : rpoint :=
  round_categorical blocks (d_choice d)
    (mapi (fun j x => if memb ints j then (if Rltb (d_unif d j) (x - Rfloor x) then Rceil x else Rfloor x)
                      else x) candidate).
Fixpoint best_rounding (h start candidate : rpoint) (radius : R) (ints : list nat)
    (blocks : list (list nat)) (draws : list draw) (best : rpoint) (best_value : R) : rpoint * R :=
  match draws with
  | [] => (best, best_value)
  | d :: r =>
      let q := drawn_rounding candidate ints blocks d in
      let v := rdot h q in
      if Rleb (distance q start) radius && Rltb v best_value
      then best_rounding h start candidate radius ints blocks r q v
      else best_rounding h start candidate radius ints blocks r best best_value
  end.
Definition get_integer_candidate (h start candidate : rpoint) (radius : R) (ints : list nat)
    (blocks : list (list nat)) (first_choice : list nat) (draws : list draw) : rpoint * R :=
  let p0 := initial_rounding h candidate ints blocks first_choice in
  let (best, best_value) := best_rounding h start candidate radius ints blocks draws p0 (rdot h p0) in
  (best, rdot h candidate - best_value).

(** [get_model_improving_point] 344-463.  [rank]: numerical rank from the pivoted factorization
    of the reduced model set, [piv] its permutation P, [cols] the columns of Q, [new_rank i]: rank
    found when the direction number [i] is added, [choice i]: categorical choices for it. *)
Definition improving_direction (eps : R) (lo up start : rpoint) (radius : R) (ints : list nat)
    (blocks : list (list nat)) (choices : list nat) (col : rpoint) : rpoint :=
  let d1 := map2 Rminus (rclip (map2 (fun s a => s + a * radius) start col) lo up) start in
  let d2 := match blocks with
            | [] => d1
            | _ => map2 Rminus (round_categorical blocks choices (map2 Rplus start d1)) start
            end in
  match ints with
  | [] => d2
  | _ => mapi (fun j x => let y := if Rltb (Rabs x) eps then 0 else x in
                          if memb ints j
                          then Raround ((if Rlt_dec y 0 then -1 else if Rlt_dec 0 y then 1 else 0) * Rmax (Rabs y) 1)
                          else y) d2
  end.
Fixpoint improve_loop (dir : nat -> rpoint) (rank : nat) (new_rank : nat -> nat) (piv : list nat)
    (is : list nat) (d : rpoint) (to_replace : nat) : rpoint * bool * nat :=
  match is with
  | [] => (d, false, to_replace)
  | i :: r => if (rank <? new_rank i)%nat then (dir i, true, nth i piv 0%nat)
              else improve_loop dir rank new_rank piv r (dir i) to_replace
  end.
Definition reduced_set (model_set : list nat) (start : nat) : list nat :=
  filter (fun i => negb (i =? start)%nat) model_set.
Definition get_model_improving_point (eps : R) (lo up : rpoint) (nodes : list rpoint)
    (model_set : list nat) (start : nat) (radius : R) (ints : list nat) (blocks : list (list nat))
    (rank : nat) (piv : list nat) (cols : list rpoint) (new_rank : nat -> nat) (choice : nat -> list nat)
  : rpoint * bool * nat :=
  let red := reduced_set model_set start in
  let s := nth start nodes [] in
  if (length red =? 0)%nat || (length red <=? rank)%nat then (s, false, start)
  else
    let dir i := improving_direction eps lo up s radius ints blocks (choice i) (nth i cols []) in
    let '(d, ok, rep) := improve_loop dir rank new_rank piv (seq rank (length red - rank))
                                      (map (fun _ => 0) s) (nth rank piv 0%nat) in
    (map2 Rplus s d, ok, rep).

(** [refinement_step] 2640-2738: point (None: gradient too small), improvement of the linear model,
    index in the model set of the point to replace. *)
Definition refinement_step (eps min_dist min_grad : R) (lo up : rpoint) (nodes : list rpoint)
    (h : rpoint) (b : R) (rank_deficient : bool) (model_set : list nat) (start : nat) (radius : R)
    (ints : list nat) (blocks : list (list nat))
    (improving : rpoint * bool * nat)      (* what get_model_improving_point returned *)
    (noncat_ints : list nat) (first_choice : list nat) (draws : list draw)
  : option rpoint * R * nat :=
  let '(ip, found, irep) := improving in
  if rank_deficient && found then (Some ip, rdot h ip + b, irep)
  else
    let s := nth start nodes [] in
    let '(cand, impr, grad_norm) := get_candidate_point eps min_dist lo up h s radius in
    let rep := snd (get_max_distance_and_index s (map (fun i => nth i nodes []) model_set)) in
    let '(p, impr') :=
      match ints with
      | [] => (cand, impr)
      | _ => let (q, adj) := get_integer_candidate h s cand radius noncat_ints blocks first_choice draws in
             (q, impr + adj)
      end in
    (if Rleb grad_norm min_grad then None else Some p, impr', rep).
