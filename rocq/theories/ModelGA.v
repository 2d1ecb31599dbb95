(** * The genetic search over the surrogate.

    Models rbfopt_aux_problems.py [generate_sample_points] 938-1013, [ga_optimize] 1016-1168,
    [ga_mate] 1173-1201, [ga_mutate] 1205-1254.  Definitions only.

    Coordinates are rationals (simplification: the code uses IEEE doubles).  Random numbers are
    arguments; what they may be is stated in SpecGA.v.  Scores are rationals or +infinity
    ([None]); [rank] is the result of [np.argsort]. *)
From Verif Require Export ModelInit.
Open Scope Q_scope.

(** Scores, and Python's [<=] on them. *)
Definition score := option Q.
Definition xle (a b : score) : bool :=
  match b, a with
  | None, _ => true
  | Some _, None => false
  | Some y, Some x => Qle_bool x y
  end.

(** The space in which individuals are created and combined: the compressed space if there are
    categorical variables (970-981, 1075-1093), the given one otherwise. *)
Definition has_categories (s : setup) : bool := match s_expansion s with [] => false | _ => true end.
Record space := mkSpace {
  sp_lower : point; sp_upper : point; sp_ints : list nat;
  sp_enc : point -> point;   (* [expand_categorical_vars] *)
  sp_dec : point -> point    (* [compress_categorical_vars] *)
}.
Definition search_space (s : setup) (lo up : point) (ints : list nat) : space :=
  if has_categories s
  then mkSpace (compress_bounds s lo) (compress_bounds s up) (compress_ints s ints) (expand s) (compress s)
  else mkSpace lo up ints (fun p => p) (fun p => p).
Definition sp_dim (sp : space) : nat := length (sp_lower sp).

(** One row of [generate_sample_points], 984-995; [r]: the row of [np.random.rand]. *)
Definition uniform_row (sp : space) (r : point) : point :=
  map3 (fun x l u => x * (u - l) + l) r (sp_lower sp) (sp_upper sp).
Definition sample_point (sp : space) (r : point) : point :=
  sp_enc sp (round_integer_vars (uniform_row sp r) (sp_ints sp)).
Definition generate_sample_points (sp : space) (rows : list point) : list point := map (sample_point sp) rows.

(** Sizes 1064-1070; [n]: dimension of the encoded space.  Python: [20 * n//5] is [(20*n)//5]. *)
Definition population_size (base n : nat) : nat := base + 20 * n / 5.
Definition num_surviving (base n : nat) : nat := population_size base n / 4.
Definition num_new (base n : nat) : nat := population_size base n - 2 * num_surviving base n - 1.

(** [ga_mate] 1173-1201, one row; [coins]: outcome of [uniform() < 0.5]. *)
Definition mate (coins : list bool) (father mother : point) : point :=
  map3 (fun (c : bool) f m => if c then f else m) coins father mother.

(** [ga_mutate] 1205-1254.  A mutation lists the perturbed coordinates with their random number. *)
Definition mutation := list (nat * Q).
Definition new_coordinate (sp : space) (jr : nat * Q) : Q :=
  let (j, r) := jr in
  let v := nth j (sp_lower sp) 0 + r * (nth j (sp_upper sp) 0 - nth j (sp_lower sp) 0) in
  if memn j (sp_ints sp) then inject_Z (round_half_even v) else v.
Definition mutate (sp : space) (mu : mutation) (p : point) : point :=
  put (map fst mu) (map (new_coordinate sp) mu) p.
(** 1099-1101, 1128-1129, 1149: rate of generation [gen] of [gens], and the maximum size. *)
Definition mutation_rate (gens gen : nat) : Q :=
  (1#10) * inject_Z (Z.of_nat gens - Z.of_nat gen) / inject_Z (Z.of_nat gens).
Definition max_size_pert (n : nat) (rate : Q) : nat :=
  Nat.min n (Nat.max 2 (Z.to_nat (trunc (inject_Z (Z.of_nat n) * rate)))).

(** Random choices of one generation. *)
Record gen_draw := mkGen {
  g_rank : list nat;               (* np.argsort(fitness_val) *)
  g_father : list nat; g_mother : list nat;   (* np.random.permutation *)
  g_coins : list (list bool);
  g_new : list point;              (* rows of np.random.rand for the new individuals *)
  g_best : mutation;               (* mutation of the copy of the best *)
  g_mutations : list (option mutation)        (* one per other survivor *)
}.
(** One generation 1097-1158. *)
Definition offspring (sp : space) (best : list point) (d : gen_draw) : list point :=
  map3 (fun coins f m => sp_enc sp (mate coins (sp_dec sp (nth f best [])) (sp_dec sp (nth m best []))))
       (g_coins d) (g_father d) (g_mother d).
Definition survivors (sp : space) (best : list point) (d : gen_draw) : list point :=
  match best with
  | [] => []
  | p :: r => sp_enc sp (sp_dec sp p) ::
              map2 (fun (o : option mutation) q =>
                      sp_enc sp (match o with Some mu => mutate sp mu (sp_dec sp q) | None => sp_dec sp q end))
                   (g_mutations d) r
  end.
Definition generation (sp : space) (base n : nat) (population : list point) (d : gen_draw) : list point :=
  let best := map (fun i => nth i population []) (firstn (num_surviving base n) (g_rank d)) in
  survivors sp best d ++ offspring sp best d ++ generate_sample_points sp (g_new d) ++
  [sp_enc sp (mutate sp (g_best d) (sp_dec sp (hd [] best)))].
(** [ga_optimize]: population after the generations drawn; result 1160-1166 ([final]: last argsort). *)
Definition ga_population (sp : space) (base n : nat) (first_rows : list point) (gens : list gen_draw) : list point :=
  fold_left (generation sp base n) gens (generate_sample_points sp first_rows).
Definition ga_optimize (sp : space) (base n : nat) (first_rows : list point) (gens : list gen_draw)
  (final : list nat) : point :=
  nth (hd 0%nat final) (ga_population sp base n first_rows gens) [].
