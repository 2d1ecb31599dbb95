(** * Properties of distances and RBF models (C48 - C55).

    Only statements, each closed by a lemma proved elsewhere; beside each an [Example].
    Vocabulary: [SpecRBF]; model: [ModelGeom], [ModelRBF]. *)
From Verif Require Import WitnessRBF.
Open Scope R_scope.

(** ** C48 *)
Theorem C48_nearest_node : forall p others, others <> [] ->
  let (d, j) := get_min_distance_and_index p others in
  (j < length others)%nat /\ d = distance p (nth j others []) /\
  (forall i, (i < length others)%nat -> d <= distance p (nth i others [])) /\
  (forall i, (i < j)%nat -> d < distance p (nth i others [])) /\
  get_min_distance p others = d.
Proof. exact min_distance_and_index_spec. Qed.
Print Assumptions C48_nearest_node.
Theorem C48_farthest_node : forall p others, others <> [] ->
  let (d, j) := get_max_distance_and_index p others in
  (j < length others)%nat /\ d = distance p (nth j others []) /\
  (forall i, (i < length others)%nat -> distance p (nth i others []) <= d) /\
  (forall i, (i < j)%nat -> distance p (nth i others []) < d) /\
  get_max_distance p others = d.
Proof. exact max_distance_and_index_spec. Qed.
Print Assumptions C48_farthest_node.
Theorem C48_bulk_agrees : forall points others,
  length (bulk_get_min_distance points others) = length points /\
  forall i, (i < length points)%nat ->
    nth i (bulk_get_min_distance points others) 0 = get_min_distance (nth i points []) others.
Proof. exact bulk_min_distance_spec. Qed.
Print Assumptions C48_bulk_agrees.
Theorem C48_metric : forall p q r, length p = length q -> length q = length r ->
  distance p q = distance q p /\ 0 <= distance p q /\ (distance p q = 0 <-> p = q) /\
  distance p r <= distance p q + distance q r /\
  distance p q * distance p q = rdot (map2 Rminus p q) (map2 Rminus p q).
Proof.
  intros p q r H H'. split; [apply distance_sym|]. split; [apply distance_nonneg|].
  split; [apply distance_zero; auto|]. split; [apply distance_triangle; auto|].
  apply sqrt_sqrt, rdot_sq_nonneg.
Qed.
Print Assumptions C48_metric.
(** The norm is the distance from the origin, nonnegative, and its square the sum of the squares. *)
Theorem C48_norm : forall p, 0 <= norm p /\ norm p * norm p = rsum (map (fun x => x * x) p) /\ norm p = distance p (map (fun _ => 0) p).
Proof.
  assert (E : forall p, rdot p p = rsum (map (fun x => x * x) p)).
  { induction p as [|x p IH]; [reflexivity|]. cbn. cbn in IH. rewrite IH. reflexivity. }
  intros p. split; [apply sqrt_pos|]. split.
  - unfold norm. rewrite sqrt_sqrt by apply rdot_sq_nonneg. apply E.
  - unfold norm, distance. do 2 f_equal.
    all: clear; induction p as [|x p IH]; [reflexivity|]; cbn; rewrite <- IH, Rminus_0_r; reflexivity.
Qed.
Print Assumptions C48_norm.
Example C48_norm_case : norm [3; 4] * norm [3; 4] = 25 /\ norm [3; 4] = distance [3; 4] [0; 0].
Proof. destruct (C48_norm [3; 4]) as (_ & A & B). split; [rewrite A; cbn; lra|exact B]. Qed.
(** The comparisons of squared rational distances used in the model of the optimizer are the
    comparisons of distances made by the code. *)
Theorem C48_squared_comparisons : forall p q d ps, ps <> [] ->
  (dist_le p q d = true <-> distance (Q2Rp p) (Q2Rp q) <= Q2R d) /\
  (dist_lt p q d = true <-> distance (Q2Rp p) (Q2Rp q) < Q2R d) /\
  (near d p ps = true <-> get_min_distance (Q2Rp p) (map Q2Rp ps) <= Q2R d) /\
  nearest p ps = snd (get_min_distance_and_index (Q2Rp p) (map Q2Rp ps)) /\
  farthest p ps = snd (get_max_distance_and_index (Q2Rp p) (map Q2Rp ps)).
Proof.
  intros p q d ps H. split; [apply dist_le_real|]. split; [apply dist_lt_real|].
  split; [apply near_real; auto|]. split; [apply nearest_real; auto|apply farthest_real; auto].
Qed.
Print Assumptions C48_squared_comparisons.
Example C48_case : xs3 <> [] /\ distance [1] [3] = 2 /\ nearest [4#1]%Q [[0#1]; [1#1]; [3#1]; [5#1]]%Q = 2%nat.
Proof.
  split; [discriminate|]. split; [|reflexivity]. rewrite distance1. rewrite Rabs_left; lra.
Qed.

(** ** C49 *)
Theorem C49_values : forall r, 0 <= r ->
  cubic r = r ^ 3 /\ linear r = r /\ thin_plate_spline 0 = 0 /\
  (0 < r -> thin_plate_spline r = r ^ 2 * ln r) /\
  (r <= 1 -> Rabs (thin_plate_spline r) <= r) /\      (* no jump at 0 *)
  (forall g, multiquadric g r ^ 2 = r ^ 2 + g ^ 2 /\ 0 <= multiquadric g r) /\
  (forall g, gaussian g r = exp (- g * r ^ 2)).
Proof.
  intros r H. split; [unfold cubic; ring|]. split; [reflexivity|]. split; [apply tps_0|].
  split; [intros; rewrite tps_pos by auto; ring|]. split; [intros; apply tps_small; auto|].
  split; intros g; [split; [|apply sqrt_pos]|].
  - unfold multiquadric. rewrite <- Rsqr_pow2. unfold Rsqr. rewrite sqrt_sqrt; [ring|nra].
  - unfold gaussian. f_equal. ring.
Qed.
Print Assumptions C49_values.
Theorem C49_shape : forall r s g, 0 <= r -> r <= s ->
  0 <= cubic r <= cubic s /\ 0 <= linear r <= linear s /\
  Rabs g <= multiquadric g r <= multiquadric g s /\
  (0 <= g -> 0 < gaussian g s <= gaussian g r /\ gaussian g r <= 1) /\
  (1 <= r -> 0 <= thin_plate_spline r <= thin_plate_spline s) /\
  (0 < r < 1 -> thin_plate_spline r < 0).
Proof.
  intros r s g H L. split; [apply cubic_mono; auto|]. split; [unfold linear; lra|].
  split; [apply mq_mono; auto|]. split; [intros; apply gauss_mono; auto|].
  split; [intros; apply tps_mono; auto|apply tps_neg].
Qed.
Print Assumptions C49_shape.
(** Tail size = dimension of the polynomials of the prescribed degree. *)
Theorem C49_tail : forall kind n x, length x = n ->
  size_P kind n = length (monomials (degree_polynomial kind) x) /\
  (degree_polynomial kind = 1%Z <-> kind = Cubic \/ kind = ThinPlate) /\
  (degree_polynomial kind = 0%Z <-> kind = Linear \/ kind = Multiquadric) /\
  (degree_polynomial kind = (-1)%Z <-> kind = Gaussian).
Proof.
  intros kind n x H. rewrite monomials_tail, (tail_length kind n x H). split; [reflexivity|].
  destruct kind; cbn; repeat split; intros; auto; try discriminate;
    repeat match goal with H : _ \/ _ |- _ => destruct H end; discriminate.
Qed.
Print Assumptions C49_tail.
Example C49_case : 0 <= 2 /\ 2 <= 3 /\ cubic 2 = 8 /\ multiquadric 3 4 = 5.
Proof.
  split; [lra|]. split; [lra|]. split; [unfold cubic; ring|].
  unfold multiquadric. replace (4 * 4 + 3 * 3) with (5 * 5) by ring. apply sqrt_square. lra.
Qed.

(** ** C50 *)
Theorem C50_interpolation_matrix : forall kind gamma eps n nodes, in_dimension n nodes -> 0 < eps ->
  let A := get_rbf_matrix kind gamma eps n nodes in
  let E := rbf_matrix_exact kind gamma n nodes in
  let k := length nodes in let p := size_P kind n in
  let mono x j := nth j (monomials (degree_polynomial kind) x) 0 in
  (length A = k + p)%nat /\ (forall i, (i < k + p)%nat -> length (nth i A []) = (k + p)%nat) /\
  (forall i j, ent A i j = ent A j i) /\
  (forall i j, Rabs (ent A i j - ent E i j) < eps /\ (ent A i j = ent E i j \/ ent A i j = 0)) /\
  (forall i j, (i < k)%nat -> (j < k)%nat ->
     ent E i j = rbf_function kind gamma (distance (nth i nodes []) (nth j nodes []))) /\
  (forall i j, (i < k)%nat -> (j < p)%nat -> ent E i (k + j) = mono (nth i nodes []) j) /\
  (forall i j, (i < p)%nat -> (j < p)%nat -> ent E (k + i) (k + j) = 0).
Proof.
  intros kind gamma eps n nodes Hn He A E k p mono.
  split; [unfold A, get_rbf_matrix, zero_tiny; rewrite map_length; apply exact_length; auto|].
  split; [intros i Hi; unfold A, get_rbf_matrix; rewrite nth_zero_tiny, map_length; apply exact_row_length; auto|].
  unfold A, get_rbf_matrix. fold E.
  split; [intros i j; rewrite !ent_zero_tiny; f_equal; apply exact_symmetric; auto|].
  split; [intros i j; rewrite ent_zero_tiny; split; [apply zero_tiny1_err; auto|]|].
  - destruct (zero_tiny1_cases eps (ent E i j)) as [[_ ->]|[_ ->]]; auto.
  - split; [intros; apply exact_phi; auto|].
    split; [intros; unfold mono; rewrite <- ptail_monomials; apply exact_right; auto|].
    intros; apply exact_corner; auto.
Qed.
Print Assumptions C50_interpolation_matrix.
Example C50_case : in_dimension 1 xs3 /\ 0 < eps3 /\ get_rbf_matrix Linear 1 eps3 1 xs3 = A3.
Proof. split; [exact in_dim3|]. split; [unfold eps3; lra|exact A3_get]. Qed.

(** ** C51: without categorical variables.  The solver is arbitrary but correct. *)
Theorem C51_interpolation : forall solve kind gamma eps n nodes vals lam h,
  correct_solver solve -> in_dimension n nodes -> length vals = length nodes -> no_tiny kind gamma eps nodes ->
  get_rbf_coefficients solve kind n (length nodes) (get_rbf_matrix kind gamma eps n nodes) vals [] = Some (lam, h) ->
  interpolates kind gamma n nodes vals lam h /\
  forall i, (i < length nodes)%nat ->
    evaluate_rbf kind gamma (nth i nodes []) n (length nodes) nodes lam h = nth i vals 0.
Proof.
  intros solve kind gamma eps n nodes vals lam h Hc Hn Hv Ht H.
  destruct (coefficients_solve solve kind gamma eps n nodes vals [] lam h Hc Hn Hv) as (L1 & L2 & S); auto; try congruence.
  assert (In' : interpolates kind gamma n nodes vals lam h) by (eapply solution_interpolates; eauto).
  split; auto. intros i Hi. rewrite evaluate_model by (auto; apply Hn, nth_In; auto). apply In'; auto.
Qed.
Print Assumptions C51_interpolation.
Theorem C51_with_zeroed_entries : forall solve kind gamma eps n nodes vals lam h,
  correct_solver solve -> in_dimension n nodes -> length vals = length nodes -> 0 <= eps ->
  get_rbf_coefficients solve kind n (length nodes) (get_rbf_matrix kind gamma eps n nodes) vals [] = Some (lam, h) ->
  forall i, (i < length nodes)%nat ->
    Rabs (evaluate_rbf kind gamma (nth i nodes []) n (length nodes) nodes lam h - nth i vals 0)
      <= eps * rsum (map Rabs (lam ++ h)).
Proof.
  intros solve kind gamma eps n nodes vals lam h Hc Hn Hv He H i Hi.
  destruct (coefficients_solve solve kind gamma eps n nodes vals [] lam h Hc Hn Hv) as (L1 & L2 & S); auto; try congruence.
  rewrite evaluate_model by (auto; apply Hn, nth_In; auto). eapply solution_close; eauto.
Qed.
Print Assumptions C51_with_zeroed_entries.
Example C51_case : correct_solver (guess (lam3 ++ h3)) /\ in_dimension 1 xs3 /\ no_tiny Linear 1 eps3 xs3 /\ 0 <= eps3 /\
  get_rbf_coefficients (guess (lam3 ++ h3)) Linear 1 3 (get_rbf_matrix Linear 1 eps3 1 xs3) vals3 [] = Some (lam3, h3).
Proof.
  split; [apply guess_correct|]. split; [exact in_dim3|]. split; [exact no_tiny3|].
  split; [unfold eps3; lra|exact coeff3].
Qed.

(** ** C52 *)
Theorem C52_bulk_evaluation : forall kind gamma xs n k nodes lam h,
  in_dimension n xs -> length nodes = k -> length lam = k -> length h = size_P kind n ->
  bulk_evaluate_rbf kind gamma xs n k nodes lam h = map (fun x => evaluate_rbf kind gamma x n k nodes lam h) xs /\
  (forall i, (i < length xs)%nat -> nth i (bulk_min_distances xs nodes) 0 = get_min_distance (nth i xs []) nodes) /\
  (forall x, In x xs -> evaluate_rbf kind gamma x n k nodes lam h = model_at kind gamma nodes lam h x).
Proof.
  intros. split; [apply bulk_spec; auto|]. split; [apply bulk_min_distance_spec|].
  intros. apply evaluate_model; auto.
Qed.
Print Assumptions C52_bulk_evaluation.
Example C52_case : in_dimension 1 [[2]; [5]] /\ length xs3 = 3%nat /\ length lam3 = 3%nat /\ length h3 = size_P Linear 1 /\
  bulk_evaluate_rbf Linear 1 [[2]; [5]] 1 3 xs3 lam3 h3 = [5/2; 3].
Proof.
  assert (D : in_dimension 1 [[2]; [5]]) by (intros x [<-|[<-|[]]]; reflexivity).
  do 4 (split; [auto|]). rewrite (bulk_spec Linear 1) by auto. cbn [map].
  assert (E : forall x, evaluate_rbf Linear 1 [x] 1 3 xs3 lam3 h3 = Rabs (x - 0) - 3/4 * Rabs (x - 1) - 1/4 * Rabs (x - 3) + 3/2).
  { intros x. unfold evaluate_rbf, xs3, lam3, h3. cbn [seq map nth rbf_function linear size_P Nat.sub]. rewrite !distance1. cbn. unfold linear. field. }
  rewrite !E. f_equal; [|f_equal]; unfold Rabs; repeat destruct (Rcase_abs _); lra.
Qed.

(** ** C53: with categorical variables the padded solution of the reduced system solves the full one
    (and so interpolates). *)
Theorem C53_dropped_columns : forall solve kind gamma eps n nodes vals blocks lam h,
  correct_solver solve -> in_dimension n nodes -> length vals = length nodes -> (1 <= n)%nat -> eps <= 1 ->
  proper_blocks n blocks -> (forall b x, In b blocks -> In x nodes -> one_active b x) ->
  get_rbf_coefficients solve kind n (length nodes) (get_rbf_matrix kind gamma eps n nodes) vals blocks = Some (lam, h) ->
  length lam = length nodes /\ length h = size_P kind n /\
  mat_vec (get_rbf_matrix kind gamma eps n nodes) (lam ++ h) = rbf_rhs (size_P kind n) vals /\
  (no_tiny kind gamma eps nodes -> interpolates kind gamma n nodes vals lam h).
Proof.
  intros solve kind gamma eps n nodes vals blocks lam h Hc Hn Hv H1 He Hb Ho H.
  destruct (coefficients_solve solve kind gamma eps n nodes vals blocks lam h Hc Hn Hv) as (L1 & L2 & S); auto.
  do 3 (split; [auto|]). intros Ht. eapply solution_interpolates; eauto.
Qed.
Print Assumptions C53_dropped_columns.
Example C53_case : in_dimension 2 xsc /\ proper_blocks 2 [[0; 1]]%nat /\
  (forall b x, In b [[0; 1]]%nat -> In x xsc -> one_active b x) /\ correct_solver (guess [0; 0; 1; 2]) /\
  get_rbf_coefficients (guess [0; 0; 1; 2]) Cubic 2 2 (get_rbf_matrix Cubic 1 eps3 2 xsc) [3; 2] [[0; 1]]%nat
  = Some ([0; 0], [1; 0; 2]).
Proof.
  split; [intros x [<-|[<-|[]]]; reflexivity|]. split; [apply blocks_c|]. split; [apply blocks_c|].
  split; [apply guess_correct|exact coeff_c].
Qed.

(** ** C54.  [solve] is the factorized system. *)
Theorem C54_leave_one_out : forall solve kind gamma eps n nodes vals i,
  let k := length nodes in let p := size_P kind n in
  let A := get_rbf_matrix kind gamma eps n nodes in
  in_dimension n nodes -> length vals = k -> (i < k)%nat -> no_tiny kind gamma eps nodes ->
  (forall b, length b = (k + p)%nat -> length (solve b) = (k + p)%nat /\ mat_vec A (solve b) = b) ->
  (forall u v, length u = (k + p)%nat -> length v = (k + p)%nat -> mat_vec A u = mat_vec A v -> u = v) ->
  eps < Rabs (nth i (solve (rbf_rhs p vals)) 0) -> nth i (solve (unit_vector (k + p) i)) 0 <> 0 ->
  (exists lam h, interpolates kind gamma n (delete_at i nodes) (delete_at i vals) lam h) /\
  (forall lam h, interpolates kind gamma n (delete_at i nodes) (delete_at i vals) lam h ->
     loo_prediction solve kind gamma eps n k nodes vals i =
     model_at kind gamma (delete_at i nodes) lam h (nth i nodes [])).
Proof. intros. apply loo_large; auto. Qed.
Print Assumptions C54_leave_one_out.
(** A weight of magnitude at most [eps] counts as 0: the full model is used, and predicts exactly
    the value of the node. *)
Theorem C54_small_weight : forall solve kind gamma eps n nodes vals i,
  let k := length nodes in let p := size_P kind n in
  let A := get_rbf_matrix kind gamma eps n nodes in
  in_dimension n nodes -> length vals = k -> (i < k)%nat -> no_tiny kind gamma eps nodes ->
  (forall b, length b = (k + p)%nat -> length (solve b) = (k + p)%nat /\ mat_vec A (solve b) = b) ->
  Rabs (nth i (solve (rbf_rhs p vals)) 0) <= eps ->
  loo_prediction solve kind gamma eps n k nodes vals i = nth i vals 0.
Proof. intros. apply loo_small; auto. Qed.
Print Assumptions C54_small_weight.
Example C54_case : in_dimension 1 xs3 /\ no_tiny Linear 1 eps3 xs3 /\ get_rbf_matrix Linear 1 eps3 1 xs3 = A3 /\
  (forall b, length b = 4%nat -> length (solve3 b) = 4%nat /\ mat_vec A3 (solve3 b) = b) /\
  (forall u v, length u = 4%nat -> length v = 4%nat -> mat_vec A3 u = mat_vec A3 v -> u = v) /\
  eps3 < Rabs (nth 1 (solve3 (rbf_rhs 1 vals3)) 0) /\ nth 1 (solve3 (unit_vector 4 1)) 0 <> 0 /\
  Rabs (nth 1 (solve3 (rbf_rhs 1 [0; 1; 3])) 0) <= eps3.
Proof.
  split; [exact in_dim3|]. split; [exact no_tiny3|]. split; [exact A3_get|].
  split; [exact solve3_ok|]. split; [exact A3_inj|]. split; [apply loo3|]. split; [apply loo3|].
  unfold solve3, rbf_rhs, inv3, eps3. cbn.
  match goal with |- Rabs ?a <= _ => replace a with 0 by field end. rewrite Rabs_R0. lra.
Qed.

(** ** C55 *)
Theorem C55_selection : forall quality settings,
  (forall t, In t candidates -> exists e, quality t = Some e) ->
  exists before m after e, candidates = before ++ m :: after /\
    get_best_rbf_model quality settings = (m, settings) /\ quality m = Some e /\
    (forall t e', In t before -> quality t = Some e' -> (e < e')%Z) /\
    (forall t e', In t after -> quality t = Some e' -> (e <= e')%Z).
Proof. exact selection_success. Qed.
Print Assumptions C55_selection.
(** The first failing trial [bad] ends the selection: the best candidate tried so far is returned
    (the current model if fewer than two were tried), and the caller's settings are left at [bad]. *)
Theorem C55_selection_with_failure : forall quality settings tried bad rest,
  candidates = tried ++ bad :: rest -> quality bad = None ->
  (forall t, In t tried -> exists e, quality t = Some e) ->
  get_best_rbf_model quality settings = (fst (get_best_rbf_model quality settings), bad) /\
  ((length tried < 2)%nat -> fst (get_best_rbf_model quality settings) = settings) /\
  ((2 <= length tried)%nat -> exists before m after e, tried = before ++ m :: after /\
     fst (get_best_rbf_model quality settings) = m /\ quality m = Some e /\
     (forall t e', In t before -> quality t = Some e' -> (e < e')%Z) /\
     (forall t e', In t after -> quality t = Some e' -> (e <= e')%Z)).
Proof. exact selection_failure. Qed.
Print Assumptions C55_selection_with_failure.
Theorem C55_settings_unchanged_refuted : exists quality settings, snd (get_best_rbf_model quality settings) <> settings.
Proof. exists (fun _ => None), (Linear, 1/10). cbn. intros H. discriminate H. Qed.
Print Assumptions C55_settings_unchanged_refuted.
Definition quality_case (m : rbf_kind * R) : option Z :=
  match fst m with Cubic => Some 5 | ThinPlate => Some 3 | Multiquadric => Some 3 | Linear => Some 4 | Gaussian => Some 7 end%Z.
Example C55_case : (forall t, In t candidates -> exists e, quality_case t = Some e) /\
  get_best_rbf_model quality_case (Cubic, 1) = ((ThinPlate, 1/10), (Cubic, 1)).
Proof. split; [intros [[] g] _; eexists; reflexivity|reflexivity]. Qed.
