(** * Well-posed interpolation, least squares, estimates, calls of the external solver (C116 - C124).

    Only statements, each closed by a lemma proved elsewhere; beside each an [Example].
    Vocabulary: [SpecLinear], [SpecRBF], [SpecRefine]; model: [ModelLinear], [ModelRBF]. *)
From Verif Require Import RefineProofs RefineGlue.
From Verif Require PropertiesAux PropertiesPyomo.
From Verif Require Import WitnessLinear.
From Coq Require Import Lra Lia.
Open Scope R_scope.

(** ** C116: the point returned for an answer of the external solver. *)
Theorem C116_valid_point : forall lo up ints x p,
  solver_point ints (SolverOptimal x) = Some p -> rin_box x lo up ->
  (forall j, In j ints -> whole (nth j lo 0) /\ whole (nth j up 0)) ->
  rin_box p lo up /\ (forall j, In j ints -> whole (nth j p 0)) /\ (forall j, ~ In j ints -> nth j p 0 = nth j x 0).
Proof. exact answer_box. Qed.
Print Assumptions C116_valid_point.
(** Feasible up to an integrality error below 1/2: the exact point (and its categorical blocks). *)
Theorem C116_recovers : forall ints x y p,
  solver_point ints (SolverOptimal x) = Some p -> length x = length y ->
  (forall j, In j ints -> whole (nth j y 0) /\ Rabs (nth j x 0 - nth j y 0) < 1/2) ->
  (forall j, ~ In j ints -> nth j x 0 = nth j y 0) -> p = y.
Proof. exact answer_recovers. Qed.
Print Assumptions C116_recovers.
Theorem C116_failure : forall ints a, solver_point ints a = None <-> ~ exists x, a = SolverOptimal x.
Proof.
  intros ints [| |x]; cbn; split; intros H; try tauto; try discriminate.
  - intros (x & E). discriminate.
  - intros (x & E). discriminate.
  - exfalso. apply H. eauto.
Qed.
Print Assumptions C116_failure.
(** A continuous coordinate that violates its bound by the solver's tolerance is returned as it is. *)
Theorem C116_clipped_refuted : exists lo up ints x p,
  solver_point ints (SolverOptimal x) = Some p /\ (forall j, (j < length x)%nat -> nth j lo 0 < nth j up 0) /\
  (forall j, (j < length x)%nat -> nth j lo 0 - 1/1000000 <= nth j x 0 <= nth j up 0 + 1/1000000) /\ ~ rin_box p lo up.
Proof.
  exists [0; 0], [1; 3], [1%nat], [-1/1000000; 2], (rround_integer_vars [-1/1000000; 2] [1%nat]).
  split; [reflexivity|]. split; [intros [|[|j]] H; cbn in *; try lia; lra|].
  split; [intros [|[|j]] H; cbn in *; try lia; lra|].
  intros (_ & _ & B). specialize (B 0%nat ltac:(rewrite rriv_length; cbn; lia)). rewrite rriv_nth in B by (cbn; lia). cbn in B. lra.
Qed.
Print Assumptions C116_clipped_refuted.
Example C116_case : exists p, solver_point [1%nat] (SolverOptimal [1/3; 2 + 1/1000]) = Some p /\ p = [1/3; 2] /\
  rin_box [1/3; 2 + 1/1000] [0; 0] [1; 3].
Proof.
  eexists. split; [reflexivity|]. split.
  - apply (C116_recovers [1%nat] [1/3; 2 + 1/1000]); auto.
    + intros j [<-|[]]. cbn. split; [exists 2%Z; auto|]. rewrite Rabs_right; lra.
    + intros [|[|j]] H; cbn; auto. exfalso. apply H. left. auto.
  - split; [reflexivity|]. split; [reflexivity|]. intros [|[|j]] H; cbn in *; try lia; lra.
Qed.

(** ** C117: linear models of the refinement step. *)
Theorem C117_best_fit : forall lstsq n nodes vals set h b flag,
  correct_lstsq lstsq -> (forall i, In i set -> length (nth i nodes []) = n) -> set <> [] ->
  get_linear_model lstsq n nodes vals set = Some (h, b, flag) ->
  length h = n /\
  (forall h' b', length h' = n ->
     rsum (map (fun i => (affine h b (nth i nodes []) - nth i vals 0) * (affine h b (nth i nodes []) - nth i vals 0)) set) <=
     rsum (map (fun i => (affine h' b' (nth i nodes []) - nth i vals 0) * (affine h' b' (nth i nodes []) - nth i vals 0)) set)) /\
  (forall h' b', length h' = n -> agrees_on (model_data nodes vals set) h' b' -> agrees_on (model_data nodes vals set) h b).
Proof.
  intros lstsq n nodes vals set h b flag Hc Hn Hne H. split; [|split].
  - destruct (model_facts lstsq n nodes vals set Hc Hn Hne h b flag H) as (rank & _ & L & _). exact L.
  - intros h' b' L. eapply best_fit; eauto.
  - intros h' b' L A. eapply consistent_agrees; eauto.
Qed.
Print Assumptions C117_best_fit.
Theorem C117_flag : forall lstsq n nodes vals set h b flag,
  correct_lstsq lstsq -> (forall i, In i set -> length (nth i nodes []) = n) -> set <> [] ->
  get_linear_model lstsq n nodes vals set = Some (h, b, flag) ->
  (flag = false -> agrees_on (model_data nodes vals set) h b) /\
  (length set = (n + 1)%nat -> (flag = false <-> determining n (map (fun i => nth i nodes []) set))).
Proof.
  intros lstsq n nodes vals set h b flag Hc Hn Hne H. split.
  - eapply full_rank_agrees; eauto.
  - eapply square_flag; eauto.
Qed.
Print Assumptions C117_flag.
(** The flag is documented to tell whether the model is underdetermined: not with few points. *)
Theorem C117_few_points : forall n nodes set, (forall i, In i set -> length (nth i nodes []) = n) -> set <> [] ->
  (length set <= n)%nat -> ~ determining n (map (fun i => nth i nodes []) set).
Proof. intros n nodes set Hn Hne L. apply (too_few n nodes); auto. Qed.
Print Assumptions C117_few_points.
Theorem C117_underdetermined_flag_refuted : exists lstsq n nodes vals set h b,
  correct_lstsq lstsq /\ get_linear_model lstsq n nodes vals set = Some (h, b, false) /\
  ~ determining n (map (fun i => nth i nodes []) set).
Proof.
  exists ls1, 2%nat, [[0; 0]], [5], [0%nat], [0; 0], 5. split; [exact ls1_correct|]. split.
  - unfold get_linear_model, model_rows. cbn [map nth app length]. unfold ls1. rewrite one_answer_yes. reflexivity.
  - apply C117_few_points; [intros i [<-|[]]; reflexivity|discriminate|cbn; lia].
Qed.
Print Assumptions C117_underdetermined_flag_refuted.
Example C117_case : correct_lstsq ls2 /\ get_linear_model ls2 1 [[0]; [5]; [1]] [1; 7; 3] [0; 2]%nat = Some ([2], 1, false).
Proof.
  split; [exact ls2_correct|]. unfold get_linear_model, model_rows. cbn [map nth app length]. unfold ls2. rewrite one_answer_yes. reflexivity.
Qed.

(** ** C118: the least-squares route for few nodes (or forced) interpolates like the direct one. *)
Theorem C118_underdetermined : forall lstsq kind gamma eps n nodes vals exps lam h,
  correct_lstsq lstsq -> in_dimension n nodes -> no_tiny kind gamma eps nodes -> NoDup nodes -> nodes <> [] ->
  shape_ok kind gamma -> length vals = length nodes -> (exps <> [] -> (1 <= n)%nat) ->
  (degree_polynomial kind = 1%Z -> exps <> [] ->
     proper_blocks n exps /\ forall b x, In b exps -> In x nodes -> one_active b x) ->
  get_rbf_coefficients_underdet lstsq kind n (length nodes) (get_rbf_matrix kind gamma eps n nodes) vals exps = Some (lam, h) ->
  interpolates kind gamma n nodes vals lam h.
Proof. intros. eapply underdet_interpolates; eauto. Qed.
Print Assumptions C118_underdetermined.
(** Whatever the route, the weights are the same; so are the values of the polynomial part at the nodes. *)
Theorem C118_routes_agree : forall solve lstsq kind gamma eps n nodes vals exps forced forced' lam h lam' h',
  correct_solver solve -> correct_lstsq lstsq -> in_dimension n nodes -> no_tiny kind gamma eps nodes -> NoDup nodes -> nodes <> [] ->
  shape_ok kind gamma -> length vals = length nodes -> (exps <> [] -> (1 <= n)%nat) ->
  (degree_polynomial kind = 1%Z -> exps <> [] ->
     proper_blocks n exps /\ forall b x, In b exps -> In x nodes -> one_active b x) ->
  let A := get_rbf_matrix kind gamma eps n nodes in
  current_coefficients solve lstsq forced kind n (length nodes) A vals exps = Some (lam, h) ->
  current_coefficients solve lstsq forced' kind n (length nodes) A vals exps = Some (lam', h') ->
  interpolates kind gamma n nodes vals lam h /\ interpolates kind gamma n nodes vals lam' h' /\ lam = lam' /\
  (unisolvent kind n [] nodes -> h = h').
Proof.
  intros solve lstsq kind gamma eps n nodes vals exps forced forced' lam h lam' h' Hs Hl Hn Ht Hd Hne Hg Hv H1 Hc A E E'.
  apply (current_interpolates solve lstsq kind gamma eps n nodes exps) in E; auto.
  apply (current_interpolates solve lstsq kind gamma eps n nodes exps) in E'; auto.
  split; auto. split; auto. split; [eapply weights_unique; eauto|]. intros U.
  eapply (model_unique kind gamma n []); eauto. intros ? [].
Qed.
Print Assumptions C118_routes_agree.
Example C118_case : correct_lstsq ls4 /\ correct_solver gauss /\ no_tiny Cubic 1 eps3 [[0; 0]] /\
  current_coefficients gauss ls4 false Cubic 2 1 (get_rbf_matrix Cubic 1 eps3 2 [[0; 0]]) [5] [] = Some ([0], [0; 0; 5]) /\
  interpolates Cubic 1 2 [[0; 0]] [5] [0] [0; 0; 5].
Proof.
  split; [exact ls4_correct|]. split; [exact gauss_correct|]. split; [exact no_tiny1|]. split; [exact under1|].
  apply (C118_underdetermined ls4 Cubic 1 eps3 2 [[0; 0]] [5] []); auto using ls4_correct, no_tiny1, under1; try discriminate; try tauto.
  - intros x [<-|[]]; reflexivity.
  - repeat constructor; intros [].
Qed.

(** Which route is taken: with at most n nodes the linear solver is never used, with n+1 nodes or more (not forced) the
    least-squares routine is never used: then the step fails exactly when the linear solver does. *)
Theorem C118_route : forall solve solve' lstsq lstsq' forced kind n k A vals exps,
  ((k <= n)%nat \/ forced = true ->
     current_coefficients solve lstsq forced kind n k A vals exps = current_coefficients solve' lstsq forced kind n k A vals exps) /\
  ((n + 1 <= k)%nat -> forced = false ->
     current_coefficients solve lstsq forced kind n k A vals exps = current_coefficients solve lstsq' forced kind n k A vals exps /\
     ((forall B b, solve B b = None) -> current_coefficients solve lstsq forced kind n k A vals exps = None)).
Proof.
  intros solve solve' lstsq lstsq' forced kind n k A vals exps. unfold current_coefficients. split.
  - intros H. assert (E : ((k <? n + 1)%nat || forced)%bool = true).
    { apply Bool.orb_true_iff. destruct H as [H|H]; [left; apply Nat.ltb_lt; lia|auto]. }
    rewrite E. reflexivity.
  - intros H ->. assert (E : (k <? n + 1)%nat = false) by (apply Nat.ltb_ge; lia). rewrite E. cbn [orb]. split; [reflexivity|].
    intros HS. unfold get_rbf_coefficients, rbf_solution. destruct (reduces _ _ _); rewrite ?HS; reflexivity.
Qed.
Print Assumptions C118_route.
Example C118_route_case : let never : mat -> list R -> option (list R) := fun _ _ => None in
  let A1 := get_rbf_matrix Cubic 1 eps3 2 [[0; 0]] in let A3 := get_rbf_matrix Linear 1 eps3 1 xs3 in
  current_coefficients never ls4 false Cubic 2 1 A1 [5] [] = Some ([0], [0; 0; 5]) /\
  current_coefficients never ls4 false Linear 1 2 A3 [1; 3] [] = None.
Proof.
  cbv zeta. split.
  - rewrite (proj1 (C118_route _ gauss ls4 ls4 false Cubic 2 1 _ [5] [])) by (left; lia). exact under1.
  - apply (C118_route _ gauss ls4 ls4 false Linear 1 2 _ [1; 3] []); auto; lia.
Qed.

(** ** C119: the starting point given to the external solver. *)
Theorem C119_given : forall lo up p u, start_values lo up (Some p) u = p.
Proof. reflexivity. Qed.
Print Assumptions C119_given.
Theorem C119_random_in_box : forall lo up u, length lo = length up -> length u = length lo ->
  (forall j, (j < length lo)%nat -> nth j lo 0 <= nth j up 0 /\ 0 <= nth j u 0 < 1) ->
  let x := start_values lo up None u in
  length x = length lo /\ within_bounds lo up x.
Proof.
  intros lo up u L1 L2 H x. destruct (start_inside lo up u L1 L2 H) as [E B]. split; auto. intros j Hj. apply B.
  unfold x in Hj. rewrite E in Hj. auto.
Qed.
Print Assumptions C119_random_in_box.
(** The auxiliary variable starts at the largest value the distance constraints allow: the start is
    feasible for them iff some value is. *)
Theorem C119_distance_start : forall min_dist nodes x, nodes <> [] ->
  let s := start_mindistsq nodes x in
  (forall t, (forall i, (i < length nodes)%nat -> t <= sq_dist x (nth i nodes [])) <-> t <= s) /\
  ((exists t, mindist_ok min_dist nodes x t) <-> mindist_ok min_dist nodes x s).
Proof.
  intros min_dist nodes x Hn s. split; [intros t; apply start_distance; auto|]. split; [|eauto].
  intros (t & H0 & H1 & H2). apply start_distance in H2; auto. fold s in H2. split; [lra|]. split; [lra|].
  apply start_distance; auto. fold s. lra.
Qed.
Print Assumptions C119_distance_start.
(** Documented: "starting at a feasible point".  Not with integer variables, and not if the random point
    is too close to a node. *)
Theorem C119_feasible_start_refuted :
  (exists lo up ints nodes u, let x := start_values lo up None u in
     within_bounds lo up x /\ nodes <> [] /\ (forall j, (j < length u)%nat -> 0 <= nth j u 0 < 1) /\
     ~ feasible Cubic MinMsrsm 0 lo up ints [] nodes x (start_mindistsq nodes x)) /\
  (exists lo up nodes u min_dist, let x := start_values lo up None u in
     within_bounds lo up x /\ 0 < min_dist /\ (forall j, (j < length u)%nat -> 0 <= nth j u 0 < 1) /\
     forall s, ~ feasible Cubic MinMsrsm min_dist lo up [] [] nodes x s).
Proof.
  split.
  - exists [0], [1], [0%nat], [[0]], [1/2]. cbn [start_values map3]. split; [|split; [discriminate|split]].
    + intros [|j] H; cbn in *; [lra|lia].
    + intros [|j] H; cbn in *; [lra|lia].
    + intros (_ & I & _). destruct (I 0%nat (or_introl eq_refl)) as (y & _ & E). cbn in E.
      assert (E2 : IZR (2 * y) = 1) by (rewrite mult_IZR; lra). apply eq_IZR in E2. lia.
  - exists [0], [1], [[1/2]], [1/2], 1. cbn [start_values map3]. split; [|split; [lra|split]].
    + intros [|j] H; cbn in *; [lra|lia].
    + intros [|j] H; cbn in *; [lra|lia].
    + intros s (_ & _ & _ & (_ & H1 & H2)). specialize (H2 0%nat ltac:(cbn; lia)). unfold sq_dist, sumn, rsum in H2. cbn in H2. lra.
Qed.
Print Assumptions C119_feasible_start_refuted.
Example C119_case : start_mindistsq xs3 [2] = 1 /\ mindist_ok (1/2) xs3 [2] 1 /\ start_values [0] [3] None [2/3] = [2].
Proof.
  assert (E : start_mindistsq xs3 [2] = 1).
  { unfold start_mindistsq, xs3, amin, sq_dist, sumn, rsum. cbn. unfold Rmin.
    repeat (destruct (Rle_dec _ _)); lra. }
  split; [exact E|]. split.
  - split; [lra|]. split; [lra|].
    intros [|[|[|i]]] Hi; unfold xs3, sq_dist, sumn, rsum in *; cbn in *; try lia; lra.
  - cbn. f_equal. lra.
Qed.

(** ** C120: estimated values of points whose evaluation is pending. *)
Theorem C120_range : forall solve lstsq fs clip eps thr kind gamma n points nodes vals fmin fmax err exps es, fmin <= fmax ->
  pending_estimates solve lstsq fs clip eps thr kind gamma n points nodes vals fmin fmax err exps = Some es ->
  length es = length points /\ forall v, In v es -> fmin <= v <= fmax.
Proof. exact pending_range. Qed.
Print Assumptions C120_range.
(** Without scaling (and clipping), the estimate at a node is its value. *)
Theorem C120_unscaled : forall solve lstsq clip eps thr kind gamma n points nodes vals fmin fmax err exps es i j,
  correct_solver solve -> correct_lstsq lstsq -> in_dimension n nodes -> no_tiny kind gamma eps nodes -> NoDup nodes ->
  shape_ok kind gamma -> length vals = length nodes -> (exps <> [] -> (1 <= n)%nat) ->
  (degree_polynomial kind = 1%Z -> exps <> [] ->
     proper_blocks n exps /\ forall b x, In b exps -> In x nodes -> one_active b x) ->
  in_dimension n points -> extremes vals fmin fmax -> clip = ClipOff \/ ~ spans eps thr fmin fmax ->
  pending_estimates solve lstsq ScaleOff clip eps thr kind gamma n points nodes vals fmin fmax err exps = Some es ->
  (i < length points)%nat -> (j < length nodes)%nat -> nth i points [] = nth j nodes [] -> nth i es 0 = nth j vals 0.
Proof.
  intros solve lstsq clip eps thr kind gamma n points nodes vals fmin fmax err exps es i j Hs Hl Hn Ht Hd Hg Hv H1 Hc Hp Hx Hk E Hi Hj Eij.
  rewrite (pending_node solve lstsq kind gamma eps n nodes exps Hs Hl Hn Ht H1 Hc Hd Hg ScaleOff clip thr vals fmin fmax err points es i j) by auto.
  assert (C : sc_val (transform_function_values ScaleOff clip eps thr vals fmin fmax err) = vals).
  { unfold transform_function_values, clip_values. assert (D : high_dynamism clip eps thr fmin fmax = false).
    { unfold high_dynamism. destruct Hk as [-> | Hk]; [reflexivity|]. destruct clip; auto; cbn [andb]; unfold spans in Hk;
        apply Bool.orb_false_iff; split; apply Bool.andb_false_iff; unfold Rltb, Rleb;
        repeat (match goal with |- context [Rlt_dec ?a ?b] => destruct (Rlt_dec a b) | |- context [Rle_dec ?a ?b] => destruct (Rle_dec a b) end); tauto. }
    rewrite D. reflexivity. }
  rewrite C. apply rclip1_id. apply Hx. apply nth_In. lia.
Qed.
Print Assumptions C120_unscaled.
(** With affine scaling, the scaled estimates are clipped to the range of the unscaled values: if that
    range starts at 1 or above, every node gets the estimate [fmin]. *)
Theorem C120_affine_collapses : forall solve lstsq eps thr kind gamma n points nodes vals fmin fmax err exps es i,
  correct_solver solve -> correct_lstsq lstsq -> in_dimension n nodes -> no_tiny kind gamma eps nodes -> NoDup nodes ->
  shape_ok kind gamma -> length vals = length nodes -> (exps <> [] -> (1 <= n)%nat) ->
  (degree_polynomial kind = 1%Z -> exps <> [] ->
     proper_blocks n exps /\ forall b x, In b exps -> In x nodes -> one_active b x) ->
  in_dimension n points -> extremes vals fmin fmax -> 0 < eps -> eps < fmax - fmin -> 1 <= fmin ->
  pending_estimates solve lstsq ScaleAffine ClipOff eps thr kind gamma n points nodes vals fmin fmax err exps = Some es ->
  (i < length points)%nat -> In (nth i points []) nodes -> nth i es 0 = fmin.
Proof.
  intros solve lstsq eps thr kind gamma n points nodes vals fmin fmax err exps es i Hs Hl Hn Ht Hd Hg Hv H1 Hc Hp Hx He Hw Hf E Hi Hin.
  apply (In_nth _ _ []) in Hin. destruct Hin as (j & Hj & Ej).
  rewrite (pending_node solve lstsq kind gamma eps n nodes exps Hs Hl Hn Ht H1 Hc Hd Hg ScaleAffine ClipOff thr vals fmin fmax err points es i j) by auto.
  unfold transform_function_values, clip_values. cbn [high_dynamism andb].
  assert (Rltb eps (fmax - fmin) = true) as -> by (apply Rltb_lt; auto). cbn [sc_val].
  rewrite (nth_map_in _ _ _ 0) by (unfold rpoint in *; lia).
  assert (B : fmin <= nth j vals 0 <= fmax) by (apply Hx, nth_In; unfold rpoint in *; lia).
  assert (Q : (nth j vals 0 - fmin) / (fmax - fmin) <= 1).
  { apply Rmult_le_reg_r with (fmax - fmin); [lra|]. unfold Rdiv. rewrite Rmult_assoc, Rinv_l by lra. lra. }
  unfold rclip1, Rmin, Rmax. repeat destruct (Rle_dec _ _); lra.
Qed.
Print Assumptions C120_affine_collapses.
Example C120_case : exists es, extremes [1; 3; 4] 1 4 /\ correct_solver gauss /\ correct_lstsq ls2 /\ no_tiny Linear 1 eps3 xs3 /\ NoDup xs3 /\
  pending_estimates gauss ls2 ScaleOff ClipOff eps3 1000 Linear 1 1 xs3 xs3 [1; 3; 4] 1 4 [] [] = Some es /\ nth 2 es 0 = 4.
Proof.
  assert (X : extremes [1; 3; 4] 1 4) by (split; [left; auto|]; split; [right; right; left; auto|]; intros v [<-|[<-|[<-|[]]]]; lra).
  destruct (solver_succeeds Linear 1 eps3 1 xs3 []) with (solve := gauss) (vals := [1; 3; 4]) as (lam & h & S);
    auto using in_dim3, no_tiny3, xs3_distinct, gauss_complete; try discriminate; try tauto.
  assert (P : exists es, pending_estimates gauss ls2 ScaleOff ClipOff eps3 1000 Linear 1 1 xs3 xs3 [1; 3; 4] 1 4 [] [] = Some es).
  { unfold pending_estimates, bulk_compute_and_evaluate_rbf, current_coefficients. cbn [transform_function_values clip_values high_dynamism andb sc_val].
    change (length xs3) with 3%nat in *. cbn [Nat.ltb Nat.leb Nat.add orb]. rewrite S. cbn [xs3 option_map]. eauto. }
  destruct P as (es & P). exists es. do 5 (split; [auto using gauss_correct, ls2_correct, no_tiny3, xs3_distinct|]). split; [exact P|].
  change 4 with (nth 2 [1; 3; 4] 0) at 1.
  apply (C120_unscaled gauss ls2 ClipOff eps3 1000 Linear 1 1 xs3 xs3 [1; 3; 4] 1 4 [] [] es 2 2);
    auto using gauss_correct, ls2_correct, no_tiny3, xs3_distinct, in_dim3; try discriminate; try tauto.
Qed.
(** So the estimate at a position known to have the largest value can be the smallest value. *)
Theorem C120_node_value_refuted : exists solve lstsq es, correct_solver solve /\ correct_lstsq lstsq /\
  pending_estimates solve lstsq ScaleAffine ClipOff eps3 1000 Linear 1 1 xs3 xs3 [1; 3; 4] 1 4 [] [] = Some es /\
  nth 2 es 0 = 1 /\ nth 2 [1; 3; 4] 0 = 4.
Proof.
  assert (X : extremes [1; 3; 4] 1 4) by (split; [left; auto|]; split; [right; right; left; auto|]; intros v [<-|[<-|[<-|[]]]]; lra).
  set (sv := sc_val (transform_function_values ScaleAffine ClipOff eps3 1000 [1; 3; 4] 1 4 [])).
  assert (Lsv : length sv = length xs3) by (unfold sv; rewrite sc_val_length; reflexivity).
  destruct (solver_succeeds Linear 1 eps3 1 xs3 []) with (solve := gauss) (vals := sv) as (lam & h & S);
    auto using in_dim3, no_tiny3, xs3_distinct, gauss_complete; try discriminate; try tauto.
  assert (P : exists es, pending_estimates gauss ls2 ScaleAffine ClipOff eps3 1000 Linear 1 1 xs3 xs3 [1; 3; 4] 1 4 [] [] = Some es).
  { unfold pending_estimates, bulk_compute_and_evaluate_rbf, current_coefficients. fold sv.
    change (length xs3) with 3%nat in *. cbn [Nat.ltb Nat.leb Nat.add orb]. rewrite S. cbn [xs3 option_map]. eauto. }
  destruct P as (es & P). exists gauss, ls2, es. do 2 (split; [auto using gauss_correct, ls2_correct|]). split; [exact P|]. split; [|reflexivity].
  apply (C120_affine_collapses gauss ls2 eps3 1000 Linear 1 1 xs3 xs3 [1; 3; 4] 1 4 [] [] es 2);
    auto using gauss_correct, ls2_correct, no_tiny3, xs3_distinct, in_dim3; try discriminate; try tauto; try (unfold eps3; lra); try (cbn; auto; lia).
Qed.
Print Assumptions C120_node_value_refuted.

(** A point just submitted is estimated with the last model and the nodes this model was computed for, the first ones of
    the table: the estimate is between the smallest and the largest value, and it is the model's value when that is. *)
Theorem C120_submitted : forall kind gamma n nodes more vals lam h fmin fmax p, fmin <= fmax -> in_dimension n nodes ->
  length p = n -> interpolates kind gamma n nodes vals lam h ->
  let v := submitted_estimate kind gamma n (nodes ++ more) lam h fmin fmax p in let m := model_at kind gamma nodes lam h p in
  fmin <= v <= fmax /\ (fmin <= m <= fmax -> v = m) /\ (m < fmin -> v = fmin) /\ (fmax < m -> v = fmax) /\
  (forall j, (j < length nodes)%nat -> p = nth j nodes [] -> fmin <= nth j vals 0 <= fmax -> v = nth j vals 0).
Proof.
  intros kind gamma n nodes more vals lam h fmin fmax p Hf Hn Hp (L1 & L2 & L3 & _) v m.
  assert (E : v = rclip1 m fmin fmax).
  { unfold v, submitted_estimate, m. f_equal. rewrite L1, firstn_app, Nat.sub_diag, firstn_all, firstn_O, app_nil_r.
    apply evaluate_model; auto. }
  rewrite E. unfold rclip1, Rmin, Rmax. repeat split; try (repeat destruct (Rle_dec _ _); lra).
  intros j Hj -> Hv. unfold m. rewrite L3 by exact Hj. repeat destruct (Rle_dec _ _); lra.
Qed.
Print Assumptions C120_submitted.
Example C120_submitted_case : submitted_estimate Linear 1 1 (xs3 ++ [[7]; [8]]) lam3 h3 1 4 [1] = nth 1 vals3 0.
Proof.
  apply (C120_submitted Linear 1 1 xs3 [[7]; [8]] vals3 lam3 h3 1 4 [1]); try lra; auto using in_dim3; try (cbn; lia).
  - exact PropertiesPyomo.interp3.
  - unfold vals3. cbn. lra.
Qed.

(** ** C121: interpolation on distinct nodes is well posed. *)
Theorem C121_unique : forall kind gamma n nodes vals lam h lam' h',
  in_dimension n nodes -> NoDup nodes -> shape_ok kind gamma ->
  interpolates kind gamma n nodes vals lam h -> interpolates kind gamma n nodes vals lam' h' ->
  lam = lam' /\ (unisolvent kind n [] nodes -> h = h').
Proof.
  intros kind gamma n nodes vals lam h lam' h' Hn Hd Hg H H'. split; [eapply weights_unique; eauto|].
  intros U. eapply (model_unique kind gamma n []); eauto. intros ? [].
Qed.
Print Assumptions C121_unique.
Theorem C121_exists : forall kind gamma n nodes vals,
  in_dimension n nodes -> NoDup nodes -> shape_ok kind gamma -> length vals = length nodes -> unisolvent kind n [] nodes ->
  exists lam h, interpolates kind gamma n nodes vals lam h.
Proof. intros. apply model_exists; auto. Qed.
Print Assumptions C121_exists.
(** What unisolvence means: nothing for the linear, multiquadric and Gaussian basis; for the cubic and
    thin plate spline, that no linear function vanishes at all nodes. *)
Theorem C121_unisolvence : forall kind n nodes, in_dimension n nodes -> nodes <> [] ->
  (unisolvent kind n [] nodes <-> (degree_polynomial kind = 1%Z -> determining n nodes)).
Proof.
  intros kind n nodes Hn Hne. destruct (Z.eq_dec (degree_polynomial kind) 1) as [E|E].
  - rewrite unisolvent_determining by auto. tauto.
  - split; [tauto|]. intros _. apply unisolvent_low; auto. destruct kind; cbn in *; lia.
Qed.
Print Assumptions C121_unisolvence.
(** A linear solver that handles nonsingular matrices never fails on the system set up by the code, with
    or without categorical variables. *)
Theorem C121_never_fails : forall solve kind gamma eps n nodes vals exps,
  complete_solver solve -> correct_solver solve -> in_dimension n nodes -> no_tiny kind gamma eps nodes -> NoDup nodes -> nodes <> [] ->
  shape_ok kind gamma -> length vals = length nodes -> (exps <> [] -> (1 <= n)%nat) ->
  (degree_polynomial kind = 1%Z -> exps <> [] ->
     proper_blocks n exps /\ forall b x, In b exps -> In x nodes -> one_active b x) ->
  (degree_polynomial kind = 1%Z -> unisolvent kind n (map (fun e => last e 0%nat) exps) nodes) ->
  exists lam h, interpolates kind gamma n nodes vals lam h /\
    get_rbf_coefficients solve kind n (length nodes) (get_rbf_matrix kind gamma eps n nodes) vals exps = Some (lam, h).
Proof.
  intros solve kind gamma eps n nodes vals exps Hc Hs Hn Ht Hd Hne Hg Hv H1 Hcat Hu.
  destruct (solver_succeeds kind gamma eps n nodes exps) with (solve := solve) (vals := vals) as (lam & h & S); auto.
  exists lam, h. split; auto.
  destruct (coefficients_solve solve kind gamma eps n nodes vals exps lam h) as (L1 & L2 & S'); auto.
  - intros A B. destruct (Hcat B A). split; auto. apply Ht.
  - eapply solution_interpolates; eauto.
Qed.
Print Assumptions C121_never_fails.
(** Distinct nodes are needed, and so is unisolvence. *)
Theorem C121_duplicates_refuted : forall kind gamma n nodes vals lam h i j,
  (i < length nodes)%nat -> (j < length nodes)%nat -> nth i nodes [] = nth j nodes [] -> nth i vals 0 <> nth j vals 0 ->
  ~ interpolates kind gamma n nodes vals lam h.
Proof. intros kind gamma n nodes vals lam h i j Hi Hj E D (_ & _ & H & _). apply D. rewrite <- (H i Hi), <- (H j Hj). f_equal. exact E. Qed.
Print Assumptions C121_duplicates_refuted.
Theorem C121_degenerate_refuted : forall kind gamma n nodes vals lam h g,
  length g = size_P kind n -> g <> zeros (size_P kind n) -> (forall x, In x nodes -> rdot (monomials (degree_polynomial kind) x) g = 0) ->
  interpolates kind gamma n nodes vals lam h -> exists h', h' <> h /\ interpolates kind gamma n nodes vals lam h'.
Proof.
  intros kind gamma n nodes vals lam h g Lg Ng V H. exists (vadd h g). split; [|apply shifted_interpolates; auto].
  intros E. apply Ng. rewrite <- Lg. apply (vadd_self h); auto. destruct H as (_ & L & _). congruence.
Qed.
Print Assumptions C121_degenerate_refuted.
Example C121_case : complete_solver gauss /\ correct_solver gauss /\ NoDup xs3 /\ no_tiny Linear 1 eps3 xs3 /\ unisolvent Cubic 1 [] xs3 /\
  unisolvent Linear 1 [] xs3.
Proof.
  do 4 (split; [auto using gauss_complete, gauss_correct, xs3_distinct, no_tiny3|]). split.
  - apply C121_unisolvence; [exact in_dim3|discriminate|]. intros _ [|a [|]] b L V; try discriminate.
    pose proof (V [0] (or_introl eq_refl)) as V0. pose proof (V [1] (or_intror (or_introl eq_refl))) as V1.
    unfold affine in *. cbn in *. unfold zeros. cbn. split; [f_equal|]; lra.
  - apply C121_unisolvence; [exact in_dim3|discriminate|]. discriminate.
Qed.

(** ** C122: Gutmann's mu is defined, unique and positive at every point that is not a node. *)
Theorem C122_mu : forall kind gamma n nodes x,
  in_dimension n nodes -> length x = n -> NoDup nodes -> ~ In x nodes -> nodes <> [] -> shape_ok kind gamma ->
  (degree_polynomial kind = 1%Z -> determining n nodes) ->
  exists m, cardinal_weight kind gamma n nodes x m /\ 0 < gutmann_mu kind m /\
    forall m', cardinal_weight kind gamma n nodes x m' -> m' = m.
Proof.
  intros kind gamma n nodes x Hn Hx Hd Hnew Hne Hg Hu.
  assert (Hn' : in_dimension n (nodes ++ [x])) by (intros y Hy; apply in_app_or in Hy; destruct Hy as [Hy|[<-|[]]]; auto).
  assert (Hd' : NoDup (nodes ++ [x])).
  { apply NoDup_snoc; auto. }
  assert (U : degree_polynomial kind = 1%Z -> unisolvent kind n [] nodes) by (intros K; apply unisolvent_determining; auto).
  destruct (mu_exists kind gamma n nodes x Hn' Hd' Hg U Hne) as (m & Hm). exists m. split; auto.
  split; [eapply mu_positive; eauto|]. intros m' Hm'. eapply mu_unique; eauto.
Qed.
Print Assumptions C122_mu.
(** The objective of the global search: 0 at the nodes, negative everywhere else. *)
Theorem C122_objective : forall eps kind gamma n nodes lam h M target points i,
  0 < eps -> in_dimension n nodes -> in_dimension n points -> NoDup nodes -> nodes <> [] -> shape_ok kind gamma ->
  (degree_polynomial kind = 1%Z -> determining n nodes) ->
  length lam = length nodes -> length h = size_P kind n -> (i < length points)%nat ->
  undoes M (rbf_matrix_exact kind gamma n nodes) ->
  let v := nth i (hk_evaluate eps kind gamma n nodes lam h M target points) 0 in
  (In (nth i points []) nodes -> v = 0) /\ (~ In (nth i points []) nodes -> v < 0).
Proof.
  intros eps kind gamma n nodes lam h M target points i He Hn Hp Hd Hne Hg Hu Hl Hh Hi HM v. split; intros H.
  - eapply PropertiesAux.C65_zero_at_nodes; eauto.
  - destruct (C122_mu kind gamma n nodes (nth i points [])) as (m & Hm & P & _); auto; [apply Hp, nth_In; auto|].
    unfold v. rewrite (PropertiesAux.C65_bumpiness_meaning eps kind gamma n (length nodes) nodes lam h M target points i m) by auto.
    set (D := Rmax _ eps). assert (0 < D) by (unfold D; eapply Rlt_le_trans; [exact He|apply Rmax_r]).
    assert (0 < 1 / (gutmann_mu kind m * D)); [|lra]. apply Rdiv_lt_0_compat; [lra|]. apply Rmult_lt_0_compat; auto.
Qed.
Print Assumptions C122_objective.
Example C122_case : NoDup xs3 /\ ~ In [2] xs3 /\ undoes inv3 (rbf_matrix_exact Linear 1 1 xs3) /\
  nth 0 (hk_evaluate (1/100) Linear 1 1 xs3 lam3 h3 inv3 (-1) [[2]; [3]]) 0 < 0 /\
  nth 1 (hk_evaluate (1/100) Linear 1 1 xs3 lam3 h3 inv3 (-1) [[2]; [3]]) 0 = 0.
Proof.
  assert (N : ~ In [2] xs3) by (intros [E|[E|[E|[]]]]; injection E as E; lra).
  assert (P2 : in_dimension 1 [[2]; [3]]) by (intros x [<-|[<-|[]]]; reflexivity).
  split; [exact xs3_distinct|]. split; [exact N|]. split; [exact PropertiesAux.inv3_undoes|]. split.
  - apply (C122_objective (1/100) Linear 1 1 xs3 lam3 h3 inv3 (-1) [[2]; [3]] 0);
      auto using in_dim3, xs3_distinct, PropertiesAux.inv3_undoes; try discriminate; try lra; cbn; lia.
  - apply (C122_objective (1/100) Linear 1 1 xs3 lam3 h3 inv3 (-1) [[2]; [3]] 1);
      auto using in_dim3, xs3_distinct, PropertiesAux.inv3_undoes; try discriminate; try lra; try (cbn; lia).
    right. right. left. reflexivity.
Qed.

(** ** C123: refitting with noisy nodes is a convex problem with one solution. *)
Theorem C123_bumpiness_nonnegative : forall kind gamma eps n nodes vals errs lam h,
  in_dimension n nodes -> no_tiny kind gamma eps nodes -> NoDup nodes -> shape_ok kind gamma -> contains_value errs ->
  length lam = length nodes -> length h = size_P kind n ->
  let k := length nodes in
  let A := get_rbf_matrix kind gamma eps n nodes in
  bump_feasible kind n k (top_left k A) (top_right k A) vals errs lam h ->
  0 <= bump_obj kind k (top_left k A) lam /\ (bump_obj kind k (top_left k A) lam = 0 <-> lam = zeros k).
Proof. intros. eapply bump_nonneg; eauto. Qed.
Print Assumptions C123_bumpiness_nonnegative.
Theorem C123_unique_weights : forall kind gamma eps n nodes vals errs lam h lam' h',
  in_dimension n nodes -> no_tiny kind gamma eps nodes -> NoDup nodes -> shape_ok kind gamma -> contains_value errs ->
  length lam = length nodes -> length h = size_P kind n -> length lam' = length nodes -> length h' = size_P kind n ->
  let k := length nodes in
  let A := get_rbf_matrix kind gamma eps n nodes in
  let ok := bump_feasible kind n k (top_left k A) (top_right k A) vals errs in
  let bump := bump_obj kind k (top_left k A) in
  let optimal l g := ok l g /\ forall l' g', length l' = k -> length g' = size_P kind n -> ok l' g' -> bump l <= bump l' in
  optimal lam h -> optimal lam' h' -> lam = lam'.
Proof.
  intros kind gamma eps n nodes vals errs lam h lam' h' Hn Ht Hd Hg He L1 L2 L3 L4 k A ok bump optimal (F & O) (F' & O').
  apply (optimum_unique kind gamma eps n nodes vals errs Hn Ht Hd Hg He lam h lam' h'); auto.
Qed.
Print Assumptions C123_unique_weights.
(** If the error bars allow a polynomial of the degree of the basis function, the refit is a polynomial. *)
Theorem C123_polynomial : forall kind gamma eps n nodes vals errs lam h g,
  in_dimension n nodes -> no_tiny kind gamma eps nodes -> NoDup nodes -> shape_ok kind gamma -> contains_value errs ->
  length lam = length nodes -> length h = size_P kind n -> length g = size_P kind n ->
  let k := length nodes in
  let A := get_rbf_matrix kind gamma eps n nodes in
  let ok := bump_feasible kind n k (top_left k A) (top_right k A) vals errs in
  (forall i, (i < k)%nat -> nth i vals 0 + fst (nth i errs (0, 0)) <= rdot (monomials (degree_polynomial kind) (nth i nodes [])) g <=
     nth i vals 0 + snd (nth i errs (0, 0))) ->
  ok lam h -> (forall l' g', length l' = k -> length g' = size_P kind n -> ok l' g' ->
     bump_obj kind k (top_left k A) lam <= bump_obj kind k (top_left k A) l') -> lam = zeros k.
Proof.
  intros kind gamma eps n nodes vals errs lam h g Hn Ht Hd Hg He L1 L2 L3 k A ok Hp F O.
  assert (Fz : ok (zeros k) g).
  { apply PropertiesPyomo.C83_feasible_set; auto; [apply zeros_length|]. split.
    - intros i Hi. unfold model_at. rewrite rdot_zeros_r, Rplus_0_l. apply Hp. auto.
    - intros j Hj. apply rdot_zeros_r. }
  pose proof (C123_bumpiness_nonnegative kind gamma eps n nodes vals errs lam h Hn Ht Hd Hg He L1 L2 F) as [P1 P2].
  destruct (C123_bumpiness_nonnegative kind gamma eps n nodes vals errs (zeros k) g Hn Ht Hd Hg He (zeros_length _) L3 Fz) as [Q1 Q2].
  specialize (O (zeros k) g (zeros_length _) L3 Fz). fold k A in P1, P2, Q1, Q2. apply P2. apply Rle_antisym; auto.
  destruct Q2 as [_ Q2]. rewrite Q2 in O by auto. exact O.
Qed.
Print Assumptions C123_polynomial.
Example C123_case : NoDup xs3 /\ no_tiny Linear 1 eps3 xs3 /\ contains_value [(0, 0); (-3, 1); (-4, 0)] /\
  let A := get_rbf_matrix Linear 1 eps3 1 xs3 in
  bump_feasible Linear 1 3 (top_left 3 A) (top_right 3 A) vals3 [(0, 0); (-3, 1); (-4, 0)] lam3 h3 /\
  bump_feasible Linear 1 3 (top_left 3 A) (top_right 3 A) vals3 [(0, 0); (-3, 1); (-4, 0)] [0; 0; 0] [0].
Proof.
  assert (C : contains_value [(0, 0); (-3, 1); (-4, 0)]) by (intros [|[|[|[|i]]]]; cbn; lra).
  split; [exact xs3_distinct|]. split; [exact no_tiny3|]. split; [exact C|]. cbv zeta. split.
  - apply (PropertiesPyomo.C83_feasible_start Linear 1 eps3 1 xs3 vals3); auto using in_dim3, no_tiny3, PropertiesPyomo.interp3.
  - apply (PropertiesPyomo.C83_feasible_set Linear 1 eps3 1 xs3 vals3); auto using in_dim3, no_tiny3. split.
    + intros [|[|[|i]]] Hi; unfold xs3, vals3 in *; cbn [length] in Hi; try lia; unfold model_at; cbn; lra.
    + intros [|j] Hj; cbn in *; [lra|lia].
Qed.

(** ** C124: the leave-one-out formula never divides by 0 on distinct nodes, and gives the model without the node. *)
Theorem C124_leave_one_out : forall solve kind gamma eps n nodes vals i,
  let k := length nodes in let p := size_P kind n in
  let A := get_rbf_matrix kind gamma eps n nodes in
  in_dimension n nodes -> NoDup nodes -> shape_ok kind gamma -> (degree_polynomial kind = 1%Z -> determining n nodes) -> 0 <= eps ->
  length vals = k -> (i < k)%nat -> no_tiny kind gamma eps nodes ->
  (forall b, length b = (k + p)%nat -> length (solve b) = (k + p)%nat /\ mat_vec A (solve b) = b) ->
  eps < Rabs (nth i (solve (rbf_rhs p vals)) 0) ->
  nth i (solve (unit_vector (k + p) i)) 0 <> 0 /\
  (exists lam h, interpolates kind gamma n (delete_at i nodes) (delete_at i vals) lam h) /\
  (forall lam h, interpolates kind gamma n (delete_at i nodes) (delete_at i vals) lam h ->
     loo_prediction solve kind gamma eps n k nodes vals i =
     model_at kind gamma (delete_at i nodes) lam h (nth i nodes [])).
Proof.
  intros solve kind gamma eps n nodes vals i k p A Hn Hd Hg Hu He Hv Hi Ht Hs Hb. apply loo_safe; auto.
  apply C121_unisolvence; auto. intros ->. cbn in k. unfold k in Hi. lia.
Qed.
Print Assumptions C124_leave_one_out.
Example C124_case : NoDup xs3 /\ no_tiny Linear 1 eps3 xs3 /\ get_rbf_matrix Linear 1 eps3 1 xs3 = A3 /\
  (forall b, length b = 4%nat -> length (solve3 b) = 4%nat /\ mat_vec A3 (solve3 b) = b) /\
  eps3 < Rabs (nth 1 (solve3 (rbf_rhs 1 vals3)) 0).
Proof. split; [exact xs3_distinct|]. split; [exact no_tiny3|]. split; [exact A3_get|]. split; [exact solve3_ok|apply loo3]. Qed.
