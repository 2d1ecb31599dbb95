(** * Objectives of the auxiliary problems.

    Models rbfopt_aux_problems.py [MetricSRSMObj] 1257-1355, [MaximinDistanceObj] 1358-1413,
    [GutmannHkObj] 1416-1544, [GutmannMukObj] 1547-1643, the sampling branches of
    [pure_global_search] 132-147 and [global_search] 453-469, and rbfopt_utils.py
    [get_matrix_inverse] 1146-1221.

    Definitions only.  Real arithmetic.  [np.linalg.inv] is an arbitrary function [inv]. *)
From Verif Require Export ModelRBF.
Open Scope R_scope.

(** ** Metric SRSM, 1297-1352 *)
(** [self.obj_weight], 1317-1318. *)
Definition obj_weight (modified : bool) (dist_weight : R) : R := if modified then 1 else 1 - dist_weight.
(** 1345-1348: scaling factor of a vector of numbers. *)
Definition scale_denom (eps : R) (l : list R) : R :=
  if Rltb (amin l + eps) (amax l) then amax l - amin l else 1.
(** One entry of [res], 1349-1351; [None] is infinity. *)
Definition msrsm_score (eps min_dist wd wo : R) (dists objs : list R) (d o : R) : option R :=
  if Rleb d min_dist then None
  else Some (wd * (amax dists - d) / scale_denom eps dists + wo * (o - amin objs) / scale_denom eps objs).
(** [MetricSRSMObj.evaluate] 1321-1352. *)
Definition msrsm_evaluate (eps min_dist : R) (modified : bool) (dist_weight : R) (kind : rbf_kind)
    (gamma : R) (n k : nat) (nodes : list rpoint) (lam h : list R) (points : list rpoint) : list (option R) :=
  let objs := bulk_evaluate_rbf kind gamma points n k nodes lam h in
  let dists := bulk_min_distances points nodes in
  map2 (msrsm_score eps min_dist dist_weight (obj_weight modified dist_weight) dists objs) dists objs.

(** [MaximinDistanceObj.evaluate] 1393-1411. *)
Definition maximin_evaluate (nodes points : list rpoint) : list R :=
  map Ropp (bulk_get_min_distance points nodes).

(** ** Gutmann *)
(** One row of [u_pi_mat], 1510-1527 and 1618-1630. *)
Definition u_pi (kind : rbf_kind) (gamma : R) (nodes : list rpoint) (x : rpoint) : list R :=
  let u := map (rbf_function kind gamma) (cdist_row x nodes) in
  if (degree_polynomial kind =? 1)%Z then u ++ x ++ [1]
  else if (degree_polynomial kind =? 0)%Z then u ++ [1] else u.
(** Entry of [np.sum(np.dot(u_pi_mat, Amatinv) * u_pi_mat, axis=1)]: [np.dot] of a row vector and a
    matrix has entries [sum_i u_i * M_ij]. *)
Definition vec_mat (u : list R) (M : mat) : list R :=
  map (fun j => rdot u (map (fun r => nth j r 0) M)) (seq 0 (length u)).
Definition quad_form (M : mat) (u : list R) : R := rsum (map2 Rmult (vec_mat u M) u).
(** [(-1)**ru.get_degree_polynomial(self.settings)], 1534 and 1633. *)
Definition degree_sign (kind : rbf_kind) : R :=
  match kind with Cubic | ThinPlate => -1 | Linear | Multiquadric => 1 | Gaussian => -1 end.
(** [GutmannHkObj.evaluate] 1485-1540. *)
Definition hk_evaluate (eps : R) (kind : rbf_kind) (gamma : R) (n : nat) (nodes : list rpoint) (lam h : list R)
    (Amatinv : mat) (target : R) (points : list rpoint) : list R :=
  let p := size_P kind n in
  let phi := rbf_function kind gamma in
  let part1 := mat_vec (map (map phi) (cdist points nodes)) lam in
  let part2 := if (degree_polynomial kind =? 1)%Z then mat_vec points (removelast h)
               else zeros (length points) in
  let part3 := if (0 <? p)%nat then last h 0 else 0 in
  let rbf_value := map2 (fun a b => a + b + part3) part1 part2 in
  let shift := phi 0 in
  map2 (fun x v => - ((degree_sign kind * (quad_form Amatinv (u_pi kind gamma nodes x) - shift)) /
                      Rmax ((v - target) * (v - target)) eps))
       points rbf_value.
(** [GutmannMukObj.evaluate] 1592-1638. *)
Definition muk_evaluate (kind : rbf_kind) (gamma : R) (nodes : list rpoint) (Amatinv : mat)
    (points : list rpoint) : list R :=
  let shift := rbf_function kind gamma 0 in
  map (fun x => - (degree_sign kind * (quad_form Amatinv (u_pi kind gamma nodes x) + shift))) points.

(** ** Sampling searches *)
(** [scores.argmin()] where scores may be infinite: index of the first smallest score. *)
Definition xleb (a b : option R) : bool :=
  match b, a with None, _ => true | Some _, None => false | Some y, Some x => Rleb x y end.
Fixpoint xargmin_aux (best : option R) (bi i : nat) (l : list (option R)) : nat :=
  match l with
  | [] => bi
  | s :: r => if xleb best s then xargmin_aux best bi (S i) r else xargmin_aux s i (S i) r
  end.
Definition xargmin (l : list (option R)) : nat :=
  match l with [] => 0%nat | s :: r => xargmin_aux s 0 1 r end.
(** [point = samples[scores.argmin()]], 147 and 469. *)
Definition sampling_choice (evaluate : list rpoint -> list (option R)) (samples : list rpoint) : rpoint :=
  nth (xargmin (evaluate samples)) samples [].

(** ** [get_matrix_inverse] 1146-1221 *)
(** 1202-1204: zeros, with the entries of [M] at the rows and columns where the mask is true. *)
Fixpoint unmasked_rows (full mask : list bool) (M : mat) : mat :=
  match mask with
  | [] => []
  | true :: m => match M with r :: M' => unmasked full r :: unmasked_rows full m M'
                            | [] => zeros (length full) :: unmasked_rows full m [] end
  | false :: m => zeros (length full) :: unmasked_rows full m M
  end.
Definition embed (mask : list bool) (M : mat) : mat := unmasked_rows mask mask M.
Definition get_matrix_inverse (inv : mat -> option mat) (kind : rbf_kind) (eps : R) (n k : nat) (A : mat)
    (expansions : list (list nat)) : option mat :=
  let p := size_P kind n in
  let result :=
    if reduces p n expansions then
      let m := column_mask (length A) k expansions in
      option_map (embed m) (inv (masked m (map (masked m) A)))
    else inv A in
  option_map (zero_tiny eps) result.
