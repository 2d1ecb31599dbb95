(** * The optimization problems handed to the external solvers.

    Models rbfopt_degree1_models.py, rbfopt_degree0_models.py, rbfopt_degreem1_models.py (cited
    below as d1, d0, dm) and rbfopt_aux_problems.py [get_noisy_rbf_coefficients] 587-713.

    Definitions only.  Real arithmetic.  A problem is its feasible set and its objective; the
    solver is an argument.  [a**1.5] is [a * sqrt a].  [sh] is [_DISTANCE_SHIFT] = 1e-14
    (d1 23, d0 23). *)
From Verif Require Export ModelAux.
Open Scope R_scope.

(** [sum(f(i) for i in range(m))]. *)
Definition sumn (m : nat) (f : nat -> R) : R := rsum (map f (seq 0 m)).

(** ** Constraints common to the problems in [x] *)
(** [_x_bounds], d1 925-926. *)
Definition within_bounds (lo up x : rpoint) : Prop :=
  forall i, (i < length x)%nat -> nth i lo 0 <= nth i x 0 <= nth i up 0.
(** [add_integrality_constraints] d1 837-873, [_y_bounds] 1147-1149, [_int_constraint_rule]
    1154-1155: the variable equals an integer variable with the same bounds. *)
Definition integrality (lo up x : rpoint) (ints : list nat) : Prop :=
  forall i, In i ints -> exists y : Z, nth i lo 0 <= IZR y <= nth i up 0 /\ nth i x 0 = IZR y.
(** [add_categorical_constraints] d1 876-921, [_cat_constraint_rule] 1158-1159; [cat_vars] is 1 on
    the indices of the expansion, 0 elsewhere. *)
Definition cat_var (block : list nat) (j : nat) : R := if existsb (Nat.eqb j) block then 1 else 0.
Definition assignment (x : rpoint) (blocks : list (list nat)) : Prop :=
  forall b, In b blocks -> sumn (length x) (fun j => cat_var b j * nth j x 0) = 1.

(** Which problem: minimize the model; maximize 1/mu; maximize h_k; maximin distance; MSRSM. *)
Inductive problem := MinRbf | MaxOneOverMu | MaxHk | MaximinDist | MinMsrsm.
(** Categorical constraints: d1 143-145, 279-281, (absent in 435-439), 651-653, 828-830; d0 143-145,
    282-284, 445-447, 660-662, 841-843; dm 132-134, 261-263, 413-415, 612-614, 783-785. *)
Definition has_categorical (kind : rbf_kind) (pb : problem) : bool :=
  match pb, degree_polynomial kind with MaxHk, 1%Z => false | _, _ => true end.
(** [mindistsq], d1 638-640 and 810-812, [_mdistdef_constraint_rule] 957-959. *)
Definition sq_dist (x y : rpoint) : R := sumn (length x) (fun j => (nth j x 0 - nth j y 0) * (nth j x 0 - nth j y 0)).
Definition mindist_ok (min_dist : R) (nodes : list rpoint) (x : rpoint) (s : R) : Prop :=
  0 <= s /\ min_dist <= s /\ forall i, (i < length nodes)%nat -> s <= sq_dist x (nth i nodes []).

(** The feasible set of a problem; [s] is the auxiliary variable of the two distance problems. *)
Definition feasible (kind : rbf_kind) (pb : problem) (min_dist : R) (lo up : rpoint) (ints : list nat)
    (blocks : list (list nat)) (nodes : list rpoint) (x : rpoint) (s : R) : Prop :=
  within_bounds lo up x /\ integrality lo up x ints /\
  (has_categorical kind pb = true -> assignment x blocks) /\
  match pb with MaximinDist | MinMsrsm => mindist_ok min_dist nodes x s | _ => True end.

(** ** Objectives *)
(** The radial term of a node in the sums, d1 966-983, d0 977-989, dm 911-915. *)
Definition phi_term (sh : R) (kind : rbf_kind) (gamma : R) (x y : rpoint) : R :=
  let d := sq_dist x y in
  match kind with
  | Cubic => (sh + d) * sqrt (sh + d)
  | ThinPlate => d * (1/2) * ln (d + sh)
  | Linear => sqrt (sh + d)
  | Multiquadric => sqrt (gamma * gamma + d)
  | Gaussian => exp (- gamma * d)
  end.
(** The product of two radial terms, d1 986-993 and 1014-1024, d0 993-1001 and 1009-1017,
    dm 919-925. *)
Definition phi_product (sh : R) (kind : rbf_kind) (gamma : R) (x y z : rpoint) : R :=
  let d := sq_dist x y in let e := sq_dist x z in
  match kind with
  | Cubic => (sh + d * e) * sqrt (sh + d * e)
  | ThinPlate => d * (1/2) * ln (d + sh) * e * (1/2) * ln (e + sh)
  | Linear => sqrt (sh + d * e)
  | Multiquadric => sqrt (gamma * gamma + d) * sqrt (gamma * gamma + e)
  | Gaussian => exp (- gamma * d - gamma * e)
  end.
(** [model.phi_0]: d1 262, d0 262-264, dm 246. *)
Definition phi_0 (kind : rbf_kind) (gamma : R) : R :=
  match kind with Multiquadric => gamma | Gaussian => 1 | _ => 0 end.

(** Minimize the model: d1 966-983, d0 977-989, dm 911-915. *)
Definition min_rbf_obj (sh : R) (kind : rbf_kind) (gamma : R) (n : nat) (nodes : list rpoint) (lam h : list R)
    (x : rpoint) : R :=
  let k := length nodes in
  let lambda_h i := nth i (lam ++ h) 0 in
  let radial := sumn k (fun i => lambda_h i * phi_term sh kind gamma x (nth i nodes [])) in
  match degree_polynomial kind with
  | 1%Z => radial + sumn n (fun i => lambda_h (k + i)%nat * nth i x 0) + lambda_h (k + n)%nat
  | 0%Z => radial + lambda_h k
  | _ => radial
  end.

(** [Ainv_param]: upper triangle, doubled off the diagonal; d1 249-258, d0 249-258, dm 234-243. *)
Definition Ainv_param (M : mat) (i j : nat) : R :=
  if (i =? j)%nat then ent M i j else if (i <? j)%nat then 2 * ent M i j else 0.
(** Quadratic expression of 1/mu: d1 986-1045, d0 993-1024, dm 919-925 (without the leading sign). *)
Definition mu_expression (sh : R) (kind : rbf_kind) (gamma : R) (n : nat) (nodes : list rpoint) (M : mat)
    (x : rpoint) : R :=
  let k := length nodes in
  let nd i := nth i nodes [] in
  let A := Ainv_param M in
  let radial := sumn k (fun i => sumn k (fun j => A i j * phi_product sh kind gamma x (nd i) (nd j))) in
  match degree_polynomial kind with
  | 1%Z =>
      radial +
      sumn k (fun i => sumn n (fun j => A i (k + j)%nat * nth j x 0 * phi_term sh kind gamma x (nd i))) +
      sumn k (fun i => A i (k + n)%nat * phi_term sh kind gamma x (nd i)) +
      sumn n (fun i => sumn n (fun j => A (k + i)%nat (k + j)%nat * nth i x 0 * nth j x 0)) +
      sumn n (fun i => A (k + i)%nat (k + n)%nat * nth i x 0) +
      A (k + n)%nat (k + n)%nat - phi_0 kind gamma
  | 0%Z =>
      radial + sumn k (fun j => A j k * phi_term sh kind gamma x (nd j)) + A k k - phi_0 kind gamma
  | _ => radial - phi_0 kind gamma
  end.
(** Maximize 1/mu: leading minus in d1 and dm, none in d0. *)
Definition one_over_mu_obj sh kind gamma n nodes M x : R :=
  match degree_polynomial kind with
  | 0%Z => mu_expression sh kind gamma n nodes M x
  | _ => - mu_expression sh kind gamma n nodes M x
  end.
(** Maximize h_k: d1 1049-1108, d0 1028-1063, dm 930-940. *)
Definition h_k_obj sh kind gamma n nodes lam h M fstar x : R :=
  let s := min_rbf_obj sh kind gamma n nodes lam h x in
  one_over_mu_obj sh kind gamma n nodes M x / ((s - fstar) * (s - fstar)).
(** MSRSM: d1 1121-1144, d0 1077-1098, dm 953-962, and the adjustments d1 787-791; [s] is [mindistsq]. *)
Definition msrsm_obj sh eps kind gamma n nodes lam h (modified : bool) w dist_min dist_max fmin fmax x s : R :=
  let fmax' := if Rleb fmax (fmin + eps) then fmin + 1 else fmax in
  let dist_min' := if Rleb dist_max (dist_min + eps) then dist_max - 1 else dist_min in
  w * (dist_max - sqrt s) / (dist_max - dist_min') +
  obj_weight modified w * (min_rbf_obj sh kind gamma n nodes lam h x - fmin) / (fmax' - fmin).

(** ** Refitting with noisy nodes *)
(** [create_min_bump_model] d1 444-551, d0 454-560, dm 422-512: constraints on the coefficients. *)
Definition bump_feasible (kind : rbf_kind) (n k : nat) (Phi P : mat) (vals : list R) (errs : list (R * R))
    (lam h : list R) : Prop :=
  let p := size_P kind n in
  let value i := sumn k (fun j => ent Phi i j * nth j lam 0) + sumn p (fun j => ent P i j * nth j h 0) in
  let lower i := nth i vals 0 + fst (nth i errs (0, 0)) in
  let upper i := nth i vals 0 + snd (nth i errs (0, 0)) in
  (* _intr_constraint_rule_pt1 *)
  (forall i, (i < k)%nat -> if Rleb (upper i) (lower i) then value i = lower i else lower i <= value i) /\
  (* _intr_constraint_rule_pt2 *)
  (forall i, (i < k)%nat -> if Rleb (upper i) (lower i) then True else value i <= upper i) /\
  (* _unis_constraint_rule *)
  (forall i, (i < p)%nat -> sumn k (fun j => ent P j i * nth j lam 0) = 0).
(** [_min_bump_obj_expression]: d1 1113-1115, dm 945-947; with a minus in d0 1069-1071. *)
Definition bump_obj (kind : rbf_kind) (k : nat) (Phi : mat) (lam : list R) : R :=
  let q := sumn k (fun i => sumn k (fun j => ent Phi i j * nth i lam 0 * nth j lam 0)) in
  match degree_polynomial kind with 0%Z => - q | _ => q end.

(** [get_noisy_rbf_coefficients] 587-713: the solver's answer if it reports an optimal solution,
    otherwise the initial values.  [solve] gets the starting values. *)
Definition get_noisy_rbf_coefficients (solve : list R * list R -> option (list R * list R))
    (init : list R * list R) : list R * list R :=
  match solve init with Some s => s | None => init end.
