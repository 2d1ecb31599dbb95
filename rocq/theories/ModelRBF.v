(** * Radial basis function models.

    Models rbfopt_utils.py [get_rbf_function] and the basis functions 33-92,
    [get_degree_polynomial] 97-128, [get_size_P_matrix] 131-163, [get_rbf_matrix] 1076-1143,
    [get_matrix_inverse] 1146-1221, [get_rbf_coefficients] 1223-1299,
    [get_rbf_coefficients_underdet] 1301-1376, [evaluate_rbf] 1379-1434,
    [bulk_evaluate_rbf] 1437-1517, [get_model_quality_estimate] 1996-2094,
    [get_best_rbf_model] 2097-2175.

    Definitions only.  Real arithmetic.  [np.linalg.solve], [np.linalg.inv], [la.lu_solve] are
    an arbitrary function [solve]; what the theorems assume about it is stated there (a result,
    when there is one, solves the system). *)
From Verif Require Export ModelGeom.
Open Scope R_scope.

(** [settings.rbf] (the value 'auto' is replaced before these functions are called). *)
Inductive rbf_kind := Cubic | ThinPlate | Linear | Multiquadric | Gaussian.

(** [scipy.special.xlogy(x, y)]: 0 when [x = 0], otherwise [x * log y]. *)
Definition xlogy (x y : R) : R := if Req_EM_T x 0 then 0 else x * ln y.
(** [np.sign]. *)
Definition sign (r : R) : R := if Rlt_dec r 0 then -1 else if Rlt_dec 0 r then 1 else 0.

(** The basis functions 66-92; [gamma] is [settings.rbf_shape_parameter]. *)
Definition cubic (r : R) : R := r * r * r.
Definition thin_plate_spline (r : R) : R := r * r * xlogy (sign r) r.
Definition linear (r : R) : R := r.
Definition multiquadric (gamma r : R) : R := sqrt (r * r + gamma * gamma).
Definition gaussian (gamma r : R) : R := exp (- gamma * r * r).

(** [get_rbf_function] 33-63. *)
Definition rbf_function (kind : rbf_kind) (gamma : R) : R -> R :=
  match kind with
  | Cubic => cubic
  | ThinPlate => thin_plate_spline
  | Linear => linear
  | Multiquadric => multiquadric gamma
  | Gaussian => gaussian gamma
  end.

(** [get_degree_polynomial] 97-128. *)
Definition degree_polynomial (kind : rbf_kind) : Z :=
  match kind with Cubic | ThinPlate => 1 | Linear | Multiquadric => 0 | Gaussian => -1 end%Z.
(** [get_size_P_matrix] 131-163. *)
Definition size_P (kind : rbf_kind) (n : nat) : nat :=
  match kind with Cubic | ThinPlate => n + 1 | Linear | Multiquadric => 1 | Gaussian => 0 end%nat.

(** ** Matrices: lists of rows. *)
Definition mat := list (list R).
Definition ent (A : mat) (i j : nat) : R := nth j (nth i A []) 0.
(** [M.T] for a matrix with [c] columns. *)
Definition transpose (c : nat) (M : mat) : mat := map (fun j => map (fun r => nth j r 0) M) (seq 0 c).
(** [np.dot(A, x)]. *)
Definition mat_vec (A : mat) (x : list R) : list R := map (fun r => rdot r x) A.
(** [np.hstack((A, B))], [np.vstack((A, B))]. *)
Definition hstack (A B : mat) : mat := map2 (fun a b => a ++ b) A B.
Definition vstack (A B : mat) : mat := A ++ B.
Definition zeros (n : nat) : list R := repeat 0 n.

(** ** [get_rbf_matrix] 1076-1143 *)
(** Matrix P, 1112-1125: the nodes with a 1 appended, a column of ones, or nothing. *)
Definition P_matrix (p n : nat) (nodes : list rpoint) : mat :=
  if (p =? n + 1)%nat then map (fun x => x ++ [1]) nodes
  else if (p =? 1)%nat then map (fun _ => [1]) nodes
  else map (fun _ => []) nodes.
(** Phi, 1127-1129. *)
Definition Phi_matrix (phi : R -> R) (nodes : list rpoint) : mat :=
  map (map phi) (cdist nodes nodes).
(** 1131-1137. *)
Definition rbf_matrix_exact (kind : rbf_kind) (gamma : R) (n : nat) (nodes : list rpoint) : mat :=
  let p := size_P kind n in
  let Phi := Phi_matrix (rbf_function kind gamma) nodes in
  let P := P_matrix p n nodes in
  if (0 <? p)%nat
  then vstack (hstack Phi P) (hstack (transpose p P) (repeat (zeros p) p))
  else Phi.
(** 1139-1140: entries below [eps_zero] in magnitude are set to 0. *)
Definition zero_tiny1 (eps a : R) : R := if Rltb (Rabs a) eps then 0 else a.
Definition zero_tiny (eps : R) (A : mat) : mat := map (map (zero_tiny1 eps)) A.
Definition get_rbf_matrix (kind : rbf_kind) (gamma eps : R) (n : nat) (nodes : list rpoint) : mat :=
  zero_tiny eps (rbf_matrix_exact kind gamma n nodes).

(** ** Coefficients *)
(** Numpy boolean mask: keep the entries whose mark is true. *)
Fixpoint masked {A} (mask : list bool) (l : list A) : list A :=
  match mask, l with
  | b :: m, x :: r => if b then x :: masked m r else masked m r
  | _, _ => []
  end.
(** [new = zeros(len(mask)); new[mask] = l]. *)
Fixpoint unmasked (mask : list bool) (l : list R) : list R :=
  match mask with
  | [] => []
  | true :: m => match l with x :: r => x :: unmasked m r | [] => 0 :: unmasked m [] end
  | false :: m => 0 :: unmasked m l
  end.
(** The mask of 1275-1277 (and 1193-1195, 1354-1356): all true except column [k + expansion[-1]] of each
    categorical variable.  [expansions]: third components of [categorical_info[2]]. *)
Definition column_mask (size k : nat) (expansions : list (list nat)) : list bool :=
  fold_left (fun m e => set_at (k + last e 0%nat) false m) expansions (repeat true size).
(** The condition of 1270-1271: reduced system or not. *)
Definition reduces (p n : nat) (expansions : list (list nat)) : bool :=
  (p =? n + 1)%nat && match expansions with [] => false | _ => true end.

(** Right-hand side 1268. *)
Definition rbf_rhs (p : nat) (node_val : list R) : list R := node_val ++ zeros p.

(** [get_rbf_coefficients] 1223-1299: full solution vector (lambda then h). *)
Definition rbf_solution (solve : mat -> list R -> option (list R)) (kind : rbf_kind) (n k : nat)
    (A : mat) (node_val : list R) (expansions : list (list nat)) : option (list R) :=
  let p := size_P kind n in
  let rhs := rbf_rhs p node_val in
  if reduces p n expansions then
    let m := column_mask (length A) k expansions in
    option_map (unmasked m) (solve (masked m (map (masked m) A)) (masked m rhs))
  else solve A rhs.
Definition get_rbf_coefficients (solve : mat -> list R -> option (list R)) (kind : rbf_kind)
    (n k : nat) (A : mat) (node_val : list R) (expansions : list (list nat))
  : option (list R * list R) :=
  option_map (fun s => (firstn k s, skipn k s)) (rbf_solution solve kind n k A node_val expansions).

(** ** Evaluation *)
(** [evaluate_rbf] 1379-1434; [rbf_h[-1]] is the last entry. *)
Definition evaluate_rbf (kind : rbf_kind) (gamma : R) (x : rpoint) (n k : nat) (nodes : list rpoint)
    (lam h : list R) : R :=
  let p := size_P kind n in
  let phi := rbf_function kind gamma in
  let part1 := rsum (map (fun i => nth i lam 0 * phi (distance x (nth i nodes []))) (seq 0 k)) in
  let part2 := rsum (map (fun i => nth i h 0 * nth i x 0) (seq 0 (p - 1))) in
  rsum [part1; part2; if (0 <? p)%nat then last h 0 else 0].

(** [bulk_evaluate_rbf] 1437-1517 (the values; then the minimum distances). *)
Definition bulk_evaluate_rbf (kind : rbf_kind) (gamma : R) (xs : list rpoint) (n k : nat)
    (nodes : list rpoint) (lam h : list R) : list R :=
  let p := size_P kind n in
  let phi := rbf_function kind gamma in
  let dist_mat := cdist xs nodes in
  let part1 := mat_vec (map (map phi) dist_mat) lam in
  let part2 := if (degree_polynomial kind =? 1)%Z then mat_vec xs (removelast h)
               else zeros (length xs) in
  let part3 := if (0 <? p)%nat then last h 0 else 0 in
  map2 (fun a b => a + b + part3) part1 part2.
Definition bulk_min_distances (xs nodes : list rpoint) : list R := map amin (cdist xs nodes).

(** ** Leave-one-out, 2070-2092 *)
(** [base - adj * base[i] / adj[i]], 2084. *)
Definition loo_solution (base adj : list R) (i : nat) : list R :=
  map2 (fun b a => b - a * nth i base 0 / nth i adj 0) base adj.
(** Basis vector 2080-2081. *)
Definition unit_vector (size i : nat) : list R := set_at i 1 (zeros size).
(** Predicted value at node [i], 2072-2087; [solve] is the factorized system. *)
Definition loo_prediction (solve : list R -> list R) (kind : rbf_kind) (gamma eps : R) (n k : nat)
    (nodes : list rpoint) (vals : list R) (i : nat) : R :=
  let p := size_P kind n in
  let base := solve (rbf_rhs p vals) in
  let sol := if Rleb (Rabs (nth i base 0)) eps then base
             else loo_solution base (solve (unit_vector (k + p) i)) i in
  evaluate_rbf kind gamma (nth i nodes []) n k nodes (firstn k sol) (skipn k sol).

(** ** [get_best_rbf_model] 2097-2175 *)
(** Candidates in order of trial, 2147-2149. *)
Definition rbf_list : list rbf_kind := [Cubic; ThinPlate; Multiquadric; Linear; Gaussian].
Definition gamma_list : list (list R) :=
  [[1/10]; [1/10]; [1/10; 1]; [1/10]; [1/1000; 1/100]].
(** [(i, type, gamma)] in the order of the two nested loops. *)
Fixpoint trials_from (i : nat) (ks : list rbf_kind) (gs : list (list R))
  : list (nat * (rbf_kind * R)) :=
  match ks, gs with
  | t :: ks', g :: gs' => map (fun x => (i, (t, x))) g ++ trials_from (S i) ks' gs'
  | _, _ => []
  end.
Definition trials : list (nat * (rbf_kind * R)) := trials_from 0 rbf_list gamma_list.

(** The loop 2152-2174.  [quality] is [get_model_quality_estimate] for the given settings;
    [None]: it raised an exception (or a warning).  [best = None]: infinite error.
    Result: the returned pair, and the caller's settings afterwards. *)
Fixpoint best_loop (quality : rbf_kind * R -> option Z) (orig : rbf_kind * R)
    (ts : list (nat * (rbf_kind * R))) (best : option Z) (model : rbf_kind * R)
  : (rbf_kind * R) * (rbf_kind * R) :=
  match ts with
  | [] => (model, orig)
  | (i, m) :: r =>
      match quality m with
      | None => ((if (2 <=? i)%nat then model else orig), m)
      | Some e =>
          if match best with None => true | Some b => (e <? b)%Z end
          then best_loop quality orig r (Some e) m
          else best_loop quality orig r best model
      end
  end.
Definition get_best_rbf_model (quality : rbf_kind * R -> option Z) (settings : rbf_kind * R)
  : (rbf_kind * R) * (rbf_kind * R) :=
  best_loop quality settings trials None settings.
