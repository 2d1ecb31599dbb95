(** * Properties of the auxiliary objectives (C64, C65, C99, C100).

    Vocabulary: [SpecAux], [SpecRBF]; model: [ModelAux]. *)
From Verif Require Import AuxInverse WitnessRBF WitnessSteps.
From Coq Require Import Lra Lia.
Open Scope R_scope.

(** ** C64 *)
Theorem C64_infinite : forall eps min_dist modified w kind gamma n k nodes lam h points i,
  in_dimension n points -> length nodes = k -> length lam = k -> length h = size_P kind n -> nodes <> [] ->
  (i < length points)%nat ->
  (nth i (msrsm_evaluate eps min_dist modified w kind gamma n k nodes lam h points) None = None <->
   exists y, In y nodes /\ distance (nth i points []) y <= min_dist).
Proof. intros. apply msrsm_infinite; auto. Qed.
Print Assumptions C64_infinite.

Theorem C64_range : forall eps min_dist modified w kind gamma n k nodes lam h points i s,
  0 <= eps <= 1 -> 0 <= w <= 1 ->
  in_dimension n points -> length nodes = k -> length lam = k -> length h = size_P kind n -> nodes <> [] ->
  (i < length points)%nat ->
  nth i (msrsm_evaluate eps min_dist modified w kind gamma n k nodes lam h points) None = Some s ->
  0 <= s <= w + (if modified then 1 else 1 - w).
Proof.
  intros eps min_dist modified w kind gamma n k nodes lam h points i s He Hw Hp Hk Hl Hh Hne Hi H.
  exact (msrsm_range eps min_dist modified w kind gamma n k nodes lam h points He Hw Hp Hk Hl Hh i s Hi H).
Qed.
Print Assumptions C64_range.

(** At least as far from the nodes and at least as good: never a worse score. *)
Theorem C64_dominance : forall eps min_dist modified w kind gamma n k nodes lam h points i j,
  0 <= eps <= 1 -> 0 <= w <= 1 ->
  in_dimension n points -> length nodes = k -> length lam = k -> length h = size_P kind n -> nodes <> [] ->
  (i < length points)%nat -> (j < length points)%nat ->
  let res := msrsm_evaluate eps min_dist modified w kind gamma n k nodes lam h points in
  as_far nodes (nth i points []) (nth j points []) ->
  model_at kind gamma nodes lam h (nth i points []) <= model_at kind gamma nodes lam h (nth j points []) ->
  score_le (nth i res None) (nth j res None).
Proof. intros. apply msrsm_dominance; auto. Qed.
Print Assumptions C64_dominance.
Theorem C64_strict_dominance : forall eps min_dist modified w kind gamma n k nodes lam h points i j,
  0 <= eps <= 1 -> 0 <= w <= 1 ->
  in_dimension n points -> length nodes = k -> length lam = k -> length h = size_P kind n -> nodes <> [] ->
  (i < length points)%nat -> (j < length points)%nat ->
  let res := msrsm_evaluate eps min_dist modified w kind gamma n k nodes lam h points in
  nth i res None <> None ->
  (0 < w /\ farther nodes (nth i points []) (nth j points []) /\
     model_at kind gamma nodes lam h (nth i points []) <= model_at kind gamma nodes lam h (nth j points []) \/
   (modified = true \/ w < 1) /\ as_far nodes (nth i points []) (nth j points []) /\
     model_at kind gamma nodes lam h (nth i points []) < model_at kind gamma nodes lam h (nth j points [])) ->
  score_lt (nth i res None) (nth j res None).
Proof. intros. apply msrsm_strict; auto. Qed.
Print Assumptions C64_strict_dominance.
Theorem C64_ideal_point : forall eps min_dist modified w kind gamma n k nodes lam h points i,
  0 <= eps <= 1 -> 0 <= w <= 1 ->
  in_dimension n points -> length nodes = k -> length lam = k -> length h = size_P kind n -> nodes <> [] ->
  (i < length points)%nat ->
  let res := msrsm_evaluate eps min_dist modified w kind gamma n k nodes lam h points in
  (forall y, In y nodes -> min_dist < distance (nth i points []) y) ->
  (forall j, (j < length points)%nat -> as_far nodes (nth i points []) (nth j points []) /\
     model_at kind gamma nodes lam h (nth i points []) <= model_at kind gamma nodes lam h (nth j points [])) ->
  nth i res None = Some 0.
Proof.
  intros. apply msrsm_best; auto. intros E. apply msrsm_infinite in E; auto.
  destruct E as (y & Hy & L). match goal with H : forall y, In y nodes -> _ |- _ => specialize (H y Hy) end. lra.
Qed.
Print Assumptions C64_ideal_point.
(** The candidate set 2, 3, 9 around the nodes 0, 1, 3: the second is a node, the third scores better
    than the first because it is farther and, for a constant model, not worse. *)
Definition msrsm_case := msrsm_evaluate (1/1000) (1/100) false (1/2) Linear 1 1 3 xs3 [0;0;0] [7] [[2]; [3]; [9]].
Example C64_case : nth 1 msrsm_case None = None /\ nth 2 msrsm_case None = Some 0 /\
  score_lt (nth 2 msrsm_case None) (nth 0 msrsm_case None).
Proof.
  assert (Hp : in_dimension 1 [[2]; [3]; [9]]) by (intros x [<-|[<-|[<-|[]]]]; reflexivity).
  assert (F : farther xs3 [9] [2]).
  { exists [1]. split; [cbn; auto|]. intros a [<-|[<-|[<-|[]]]]; rewrite !distance1; abs_num; lra. }
  assert (M : forall x, model_at Linear 1 xs3 [0;0;0] [7] x = 7) by (intros; unfold model_at, xs3; cbn; ring).
  split; [|split].
  - apply C64_infinite; auto; try discriminate; [cbn; lia|]. exists [3]. split; [cbn; auto|]. cbn [nth]. rewrite distance_self. lra.
  - apply C64_ideal_point; auto; try discriminate; try lra.
    + intros y [<-|[<-|[<-|[]]]]; cbn [nth]; rewrite distance1; abs_num; lra.
    + intros j Hj. split; [|rewrite !M; lra]. destruct j as [|[|[|j]]]; cbn [nth].
      * intros a Ha. exists [1]. split; [cbn; auto|]. destruct F as (b & Hb & F).
        revert Ha. intros [<-|[<-|[<-|[]]]]; rewrite !distance1; abs_num; lra.
      * intros a Ha. exists [3]. split; [cbn; auto|]. rewrite distance_self. apply distance_nonneg.
      * intros a Ha. exists a. split; auto. lra.
      * cbn in Hj. lia.
  - apply C64_strict_dominance; auto; try discriminate; try lra; try (cbn; lia).
    + intros E. apply C64_infinite in E; auto; try discriminate.
      destruct E as (y & [<-|[<-|[<-|[]]]] & E); cbn [nth] in E; rewrite distance1 in E; revert E; abs_num; lra.
    + left. split; [lra|]. split; [exact F|]. rewrite !M. lra.
Qed.

(** ** C65 *)
Theorem C65_bumpiness_meaning : forall eps kind gamma n k nodes lam h M target points i m,
  0 < eps -> in_dimension n nodes -> in_dimension n points -> length nodes = k -> length lam = k ->
  length h = size_P kind n -> (i < length points)%nat ->
  undoes M (rbf_matrix_exact kind gamma n nodes) ->
  let x := nth i points [] in
  let s := model_at kind gamma nodes lam h x in
  cardinal_weight kind gamma n nodes x m ->
  nth i (hk_evaluate eps kind gamma n nodes lam h M target points) 0 =
  - (1 / (gutmann_mu kind m * Rmax ((s - target) * (s - target)) eps)).
Proof.
  intros eps kind gamma n k nodes lam h M target points i m He Hd Hp Hk Hl Hh Hi HM x s (lam' & h' & H).
  assert (Hx : length x = n) by (apply Hp, nth_In; auto).
  pose proof (cardinal_quad kind gamma n nodes x M Hd Hx HM _ _ _ H) as Q.
  rewrite (hk_values eps kind gamma n k nodes lam h M target points i) by auto. cbv zeta. fold x s.
  rewrite mu_sign. set (D := Rmax _ eps). assert (0 < D) by (pose proof (Rmax_r ((s - target) * (s - target)) eps); unfold D; lra).
  assert (m <> 0) by (intros ->; lra).
  replace (quad_form M (u_pi kind gamma nodes x) - rbf_function kind gamma 0) with (- (1 / m)).
  2:{ apply Rmult_eq_reg_l with m; auto. replace (m * - (1 / m)) with (-1) by (field; auto). lra. }
  destruct (sign_cases kind) as [-> | ->]; field; lra.
Qed.
Print Assumptions C65_bumpiness_meaning.

Theorem C65_zero_at_nodes : forall eps kind gamma n k nodes lam h M target points i,
  in_dimension n nodes -> in_dimension n points -> length nodes = k -> length lam = k ->
  length h = size_P kind n -> (i < length points)%nat ->
  undoes M (rbf_matrix_exact kind gamma n nodes) -> In (nth i points []) nodes ->
  nth i (hk_evaluate eps kind gamma n nodes lam h M target points) 0 = 0.
Proof.
  intros eps kind gamma n k nodes lam h M target points i Hd Hp Hk Hl Hh Hi HM Hin.
  rewrite (hk_values eps kind gamma n k nodes lam h M target points i) by auto. cbv zeta.
  apply (In_nth _ _ []) in Hin. destruct Hin as (j & Hj & E).
  rewrite (node_quad kind gamma n nodes (nth i points []) M) with (i := j); auto; [|apply Hp, nth_In; auto].
  unfold Rdiv. ring.
Qed.
Print Assumptions C65_zero_at_nodes.

(** The other objective is documented to be [-1/mu]; it is that number minus twice the sign times the
    basis function at 0. *)
Theorem C65_mu_offset : forall kind gamma n nodes M points i m,
  in_dimension n nodes -> in_dimension n points -> (i < length points)%nat ->
  undoes M (rbf_matrix_exact kind gamma n nodes) -> cardinal_weight kind gamma n nodes (nth i points []) m ->
  nth i (muk_evaluate kind gamma nodes M points) 0 =
  - (1 / gutmann_mu kind m) -
  match kind with Multiquadric => 2 * Rabs gamma | Gaussian => -2 | _ => 0 end.
Proof.
  intros kind gamma n nodes M points i m Hd Hp Hi HM (lam' & h' & H).
  assert (Hx : length (nth i points []) = n) by (apply Hp, nth_In; auto).
  pose proof (cardinal_quad kind gamma n nodes _ M Hd Hx HM _ _ _ H) as Q.
  rewrite muk_values by auto. rewrite mu_sign. assert (m <> 0) by (intros ->; lra).
  assert (E : quad_form M (u_pi kind gamma nodes (nth i points [])) = rbf_function kind gamma 0 - 1 / m).
  { apply Rmult_eq_reg_l with m; auto. replace (m * (rbf_function kind gamma 0 - 1 / m)) with (m * rbf_function kind gamma 0 - 1) by (field; auto). lra. }
  rewrite E, phi_zero. destruct kind; cbn [degree_sign]; field; auto.
Qed.
Print Assumptions C65_mu_offset.
Theorem C65_mu_documented_refuted : forall kind gamma n nodes M points i m,
  kind = Multiquadric /\ gamma <> 0 \/ kind = Gaussian ->
  in_dimension n nodes -> in_dimension n points -> (i < length points)%nat ->
  undoes M (rbf_matrix_exact kind gamma n nodes) -> cardinal_weight kind gamma n nodes (nth i points []) m ->
  nth i (muk_evaluate kind gamma nodes M points) 0 <> - (1 / gutmann_mu kind m).
Proof.
  intros kind gamma n nodes M points i m K Hd Hp Hi HM H. rewrite (C65_mu_offset kind gamma n nodes M points i m) by auto.
  destruct K as [[-> G]| ->]; [|lra]. apply Rabs_pos_lt in G. lra.
Qed.
Print Assumptions C65_mu_documented_refuted.
Theorem C65_mu_ranking : forall kind gamma n nodes M points i j mi mj,
  in_dimension n nodes -> in_dimension n points -> (i < length points)%nat -> (j < length points)%nat ->
  undoes M (rbf_matrix_exact kind gamma n nodes) ->
  cardinal_weight kind gamma n nodes (nth i points []) mi -> cardinal_weight kind gamma n nodes (nth j points []) mj ->
  let res := muk_evaluate kind gamma nodes M points in
  (nth i res 0 <= nth j res 0 <-> - (1 / gutmann_mu kind mi) <= - (1 / gutmann_mu kind mj)).
Proof.
  intros kind gamma n nodes M points i j mi mj Hd Hp Hi Hj HM H1 H2. cbv zeta.
  rewrite (C65_mu_offset kind gamma n nodes M points i mi) by auto.
  rewrite (C65_mu_offset kind gamma n nodes M points j mj) by auto. lra.
Qed.
Print Assumptions C65_mu_ranking.

Lemma inv3_undoes : undoes inv3 (rbf_matrix_exact Linear 1 1 xs3).
Proof.
  rewrite A3_exact. split; [reflexivity|]. split; [intros r [<-|[<-|[<-|[<-|[]]]]]; reflexivity|].
  intros w Hw. change (solve3 (mat_vec A3 w) = w). apply A3_inj; auto. apply solve3_ok. unfold mat_vec. rewrite map_length. reflexivity.
Qed.
Lemma cardinal2 : cardinal_weight Linear 1 1 xs3 [2] (-1).
Proof.
  exists [0; 1/2; 1/2], [0]. unfold interpolates. split; [reflexivity|]. split; [reflexivity|]. split.
  - intros j Hj. unfold xs3 in *. cbn [length app] in Hj.
    destruct j as [|[|[|[|j]]]]; try lia; unfold model_at; cbn [app nth map rdot zeros repeat length monomials degree_polynomial Z.eqb rbf_function];
      unfold ModelRBF.linear; rewrite !distance1; abs_num; lra.
  - intros j Hj. cbn [size_P] in Hj. assert (j = 0)%nat as -> by lia. cbn. lra.
Qed.
Example C65_case : nth 0 (hk_evaluate (1/1000) Linear 1 1 xs3 [0;0;0] [7] inv3 5 [[2]]) 0 = - (1/4) /\
  nth 0 (muk_evaluate Linear 1 xs3 inv3 [[2]]) 0 = -1.
Proof.
  assert (Hp : in_dimension 1 [[2]]) by (intros x [<-|[]]; reflexivity).
  pose proof (C65_bumpiness_meaning (1/1000) Linear 1 1 3 xs3 [0;0;0] [7] inv3 5 [[2]] 0 (-1) ltac:(lra) in_dim3 Hp
    eq_refl eq_refl eq_refl ltac:(cbn; lia) inv3_undoes cardinal2) as E.
  pose proof (C65_mu_offset Linear 1 1 xs3 inv3 [[2]] 0 (-1) in_dim3 Hp ltac:(cbn; lia) inv3_undoes cardinal2) as E'.
  split.
  - rewrite E. unfold model_at, xs3. cbn [nth map rdot monomials degree_polynomial Z.eqb gutmann_mu].
    match goal with |- context [Rmax ?a _] => replace a with 4 by ring end.
    unfold Rmax. destruct (Rle_dec _ _); [lra|field].
  - rewrite E'. cbn. field.
Qed.

(** ** C99 *)
Theorem C99_best_sample : forall evaluate samples, samples <> [] -> length (evaluate samples) = length samples ->
  exists i, (i < length samples)%nat /\ sampling_choice evaluate samples = nth i samples [] /\
    (forall j, (j < length samples)%nat -> score_le (nth i (evaluate samples) None) (nth j (evaluate samples) None)) /\
    (forall j, (j < i)%nat -> score_lt (nth i (evaluate samples) None) (nth j (evaluate samples) None)).
Proof.
  intros evaluate samples Hs Hl. assert (E : evaluate samples <> []) by (intros E; rewrite E in Hl; destruct samples; [congruence|discriminate]).
  destruct (xargmin_spec _ E) as (H1 & H2 & H3). rewrite Hl in *. exists (xargmin (evaluate samples)). auto.
Qed.
Print Assumptions C99_best_sample.

(** Metric SRSM by sampling: a chosen point is too close to a node only if every sample was, and then
    the first sample is chosen. *)
Theorem C99_too_close : forall eps min_dist modified w kind gamma n k nodes lam h samples,
  in_dimension n samples -> length nodes = k -> length lam = k -> length h = size_P kind n -> nodes <> [] ->
  samples <> [] ->
  let too_close x := exists y, In y nodes /\ distance x y <= min_dist in
  let x := sampling_choice (msrsm_evaluate eps min_dist modified w kind gamma n k nodes lam h) samples in
  In x samples /\
  (too_close x -> x = nth 0 samples [] /\ forall z, In z samples -> too_close z).
Proof.
  intros eps min_dist modified w kind gamma n k nodes lam h samples Hp Hk Hl Hh Hne Hs too_close x.
  assert (Len : length (msrsm_evaluate eps min_dist modified w kind gamma n k nodes lam h samples) = length samples)
    by (apply res_length; auto).
  destruct (C99_best_sample _ samples Hs Len) as (i & Hi & Ex & Hmin & Hfirst). fold x in Ex.
  split; [rewrite Ex; apply nth_In; auto|]. intros Ht. rewrite Ex in Ht.
  apply (msrsm_infinite eps min_dist modified w kind gamma n k) with (lam := lam) (h := h) in Ht; auto.
  rewrite Ht in *. split.
  - destruct i as [|i]; auto. destruct (Hfirst 0%nat ltac:(lia)).
  - intros z Hz. apply (In_nth _ _ []) in Hz. destruct Hz as (j & Hj & <-).
    apply (msrsm_infinite eps min_dist modified w kind gamma n k) with (lam := lam) (h := h); auto.
    specialize (Hmin j Hj). destruct (nth j _ None); [destruct Hmin|reflexivity].
Qed.
Print Assumptions C99_too_close.

(** Maximin by sampling: no sample is farther from the nodes than the chosen one. *)
Theorem C99_maximin : forall nodes samples, nodes <> [] -> samples <> [] ->
  let x := sampling_choice (fun s => map Some (maximin_evaluate nodes s)) samples in
  In x samples /\ forall z, In z samples -> as_far nodes x z.
Proof.
  intros nodes samples Hne Hs x.
  assert (Len : length (map Some (maximin_evaluate nodes samples)) = length samples)
    by (unfold maximin_evaluate, bulk_get_min_distance, cdist; rewrite !map_length; auto).
  destruct (C99_best_sample (fun s => map Some (maximin_evaluate nodes s)) samples Hs Len) as (i & Hi & Ex & Hmin & _). fold x in Ex.
  split; [rewrite Ex; apply nth_In; auto|]. intros z Hz. apply (In_nth _ _ []) in Hz. destruct Hz as (j & Hj & <-).
  assert (V : forall q, (q < length samples)%nat -> nth q (map Some (maximin_evaluate nodes samples)) None =
              Some (- get_min_distance (nth q samples []) nodes)).
  { intros q Hq. rewrite map_length in Len. rewrite (nth_map_in Some _ q 0) by (rewrite Len; auto). f_equal.
    unfold maximin_evaluate. destruct (bulk_min_distance_spec samples nodes) as [L1 L2].
    rewrite (nth_map_in Ropp _ q 0) by (rewrite L1; auto). rewrite L2 by auto. reflexivity. }
  specialize (Hmin j Hj). cbv beta in Hmin. rewrite !V in Hmin by auto. cbn [score_le] in Hmin. rewrite Ex.
  intros a Ha. destruct (min_dist_spec _ nodes eq_refl Hne (nth j samples [])) as [(b & Hb & E) _].
  destruct (min_dist_spec _ nodes eq_refl Hne (nth i samples [])) as [_ G]. exists b. split; auto. specialize (G a Ha). unfold rpoint in *. lra.
Qed.
Print Assumptions C99_maximin.
Example C99_case : as_far xs3 [5] [2] /\
  sampling_choice (fun s => map Some (maximin_evaluate xs3 s)) [[2]; [5]; [3]] = [5].
Proof.
  split.
  - intros a [<-|[<-|[<-|[]]]]; exists [1]; (split; [cbn; auto|]); rewrite !distance1; abs_num; lra.
  - destruct (C99_maximin xs3 [[2]; [5]; [3]]) as [H1 H2]; try discriminate.
    set (x := sampling_choice _ _) in *. destruct H1 as [E|[E|[E|[]]]]; try congruence; exfalso.
    + specialize (H2 [5] ltac:(cbn; auto)). rewrite <- E in H2. destruct (H2 [1] ltac:(cbn; auto)) as (b & Hb & L).
      revert L. destruct Hb as [<-|[<-|[<-|[]]]]; rewrite !distance1; abs_num; lra.
    + specialize (H2 [5] ltac:(cbn; auto)). rewrite <- E in H2. destruct (H2 [3] ltac:(cbn; auto)) as (b & Hb & L).
      revert L. destruct Hb as [<-|[<-|[<-|[]]]]; rewrite !distance1; abs_num; lra.
Qed.

(** ** C100 *)
(** Without categorical variables (or with a lower-degree tail) the result is an inverse. *)
Theorem C100_inverse : forall inv kind gamma eps n nodes exps M,
  correct_inverse inv -> in_dimension n nodes ->
  exps = [] \/ degree_polynomial kind <> 1%Z /\ (1 <= n)%nat ->
  let A := rbf_matrix_exact kind gamma n nodes in
  (forall M0, inv A = Some M0 -> entries_not_tiny eps M0) ->
  get_matrix_inverse inv kind eps n (length nodes) A exps = Some M -> undoes M A.
Proof.
  intros inv kind gamma eps n nodes exps M Hinv Hd Hc A Ht HM. eapply inverse_plain; eauto.
  unfold reduces. destruct Hc as [-> |[Hc Hn]]; [apply Bool.andb_false_r|].
  replace (size_P kind n =? n + 1)%nat with false; [reflexivity|]. symmetry. apply Nat.eqb_neq.
  destruct kind; cbn in Hc |- *; try congruence; lia.
Qed.
Print Assumptions C100_inverse.

(** With categorical variables and a degree-1 tail: zero in the dropped coordinates, and it
    still undoes the full matrix on the vectors that do not use them. *)
Theorem C100_categorical : forall inv kind gamma eps n nodes exps M,
  correct_inverse inv -> in_dimension n nodes -> degree_polynomial kind = 1%Z -> exps <> [] ->
  (forall e, In e exps -> (last e 0%nat < n)%nat) ->
  let A := rbf_matrix_exact kind gamma n nodes in
  let k := length nodes in
  let mask := column_mask (length A) k exps in
  (forall M0, inv (masked mask (map (masked mask) A)) = Some M0 -> entries_not_tiny eps M0) ->
  get_matrix_inverse inv kind eps n k A exps = Some M ->
  length M = length A /\ (forall r, In r M -> length r = length A) /\
  (forall e j, In e exps -> ent M (k + last e 0%nat) j = 0 /\ ent M j (k + last e 0%nat) = 0) /\
  (forall w, length w = length A -> (forall e, In e exps -> nth (k + last e 0%nat) w 0 = 0) -> mat_vec M (mat_vec A w) = w).
Proof.
  intros inv kind gamma eps n nodes exps M Hinv Hd Hdeg Hex Hlast A k mask Ht HM.
  assert (Hr : reduces (size_P kind n) n exps = true).
  { unfold reduces. destruct kind; cbn in *; try discriminate; rewrite Nat.eqb_refl; destruct exps; auto; congruence. }
  destruct (M_shape inv kind gamma eps n nodes exps M Hinv Hd HM Hr Ht) as [S1 S2].
  assert (L : length A = (k + size_P kind n)%nat) by (apply exact_length; auto).
  assert (P : (size_P kind n = n + 1)%nat) by (destruct kind; cbn in *; try discriminate; auto).
  split; [rewrite L; exact S1|]. split; [rewrite L; exact S2|]. split.
  - intros e j He. apply (reduced_zero inv kind gamma eps n nodes exps M Hinv Hd HM Hr Ht).
    + exists e; auto.
    + specialize (Hlast e He). lia.
  - intros w Hw Hz. rewrite L in Hw. apply (reduced_undoes inv kind gamma eps n nodes exps M Hinv Hd HM Hr Ht); auto.
Qed.
Print Assumptions C100_categorical.
(** So the bumpiness objectives keep their meaning with categorical variables. *)
Theorem C100_bumpiness : forall inv kind gamma eps eps' n nodes exps M lam h target points i lam' m h',
  correct_inverse inv -> in_dimension n nodes -> in_dimension n points -> degree_polynomial kind = 1%Z -> exps <> [] ->
  length lam = length nodes -> length h = size_P kind n -> (i < length points)%nat -> 0 < eps' ->
  let A := rbf_matrix_exact kind gamma n nodes in
  let mask := column_mask (length A) (length nodes) exps in
  (forall M0, inv (masked mask (map (masked mask) A)) = Some M0 -> entries_not_tiny eps M0) ->
  get_matrix_inverse inv kind eps n (length nodes) A exps = Some M ->
  let x := nth i points [] in
  let s := model_at kind gamma nodes lam h x in
  interpolates kind gamma n (nodes ++ [x]) (zeros (length nodes) ++ [1]) (lam' ++ [m]) h' ->
  (forall e, In e exps -> nth (last e 0%nat) h' 0 = 0) ->
  nth i (hk_evaluate eps' kind gamma n nodes lam h M target points) 0 =
  - (1 / (m * Rmax ((s - target) * (s - target)) eps')).
Proof.
  intros inv kind gamma eps eps' n nodes exps M lam h target points i lam' m h' Hinv Hd Hp Hdeg Hex Hl Hh Hi He A mask Ht HM x s H Hz.
  assert (Hr : reduces (size_P kind n) n exps = true).
  { unfold reduces. destruct kind; cbn in *; try discriminate; rewrite Nat.eqb_refl; destruct exps; auto; congruence. }
  assert (Hx : length x = n) by (apply Hp, nth_In; auto).
  pose proof (reduced_cardinal inv kind gamma eps n nodes exps M Hinv Hd HM Hr Ht x lam' m h' Hx H Hz) as Q.
  rewrite (hk_values eps' kind gamma n (length nodes) nodes lam h M target points i) by auto. cbv zeta. fold x s.
  set (D := Rmax _ eps'). assert (0 < D) by (pose proof (Rmax_r ((s - target) * (s - target)) eps'); unfold D; lra).
  assert (m <> 0) by (intros ->; lra).
  replace (quad_form M (u_pi kind gamma nodes x) - rbf_function kind gamma 0) with (- (1 / m)).
  2:{ apply Rmult_eq_reg_l with m; auto. replace (m * - (1 / m)) with (-1) by (field; auto). lra. }
  assert (S : degree_sign kind = -1) by (destruct kind; cbn in *; try discriminate; auto). rewrite S. field. lra.
Qed.
Print Assumptions C100_bumpiness.

(** One categorical variable with two values, one node for each. *)
Definition nodes_cat : list rpoint := [[1; 0]; [0; 1]].
Definition c_cat : R := cubic (distance [1; 0] [0; 1]).
Definition red_cat : mat := [[0; c_cat; 1; 1]; [c_cat; 0; 0; 1]; [1; 0; 0; 0]; [1; 1; 0; 0]].
Definition inv_cat (A : mat) : option mat :=
  if list_eq_dec (list_eq_dec Req_EM_T) A red_cat
  then Some [[0; 0; 1; 0]; [0; 0; -1; 1]; [1; -1; 2 * c_cat; - c_cat]; [0; 1; - c_cat; 0]] else None.
Lemma inv_cat_correct : correct_inverse inv_cat.
Proof.
  intros A M. unfold inv_cat. destruct (list_eq_dec _ _ _) as [->|]; [|discriminate]. intros E. injection E as <-.
  split; [reflexivity|]. split; [intros r [<-|[<-|[<-|[<-|[]]]]]; reflexivity|].
  intros w Hw. destruct w as [|w0 [|w1 [|w2 [|w3 [|]]]]]; cbn in Hw; try discriminate.
  unfold red_cat. cbn. repeat (f_equal; try ring).
Qed.
Lemma A_cat : rbf_matrix_exact Cubic 1 2 nodes_cat =
  [[0; c_cat; 1; 0; 1]; [c_cat; 0; 0; 1; 1]; [1; 0; 0; 0; 0]; [0; 1; 0; 0; 0]; [1; 1; 0; 0; 0]].
Proof.
  unfold rbf_matrix_exact, Phi_matrix, cdist, cdist_row, nodes_cat, vstack, hstack, P_matrix.
  cbn [size_P Nat.add Nat.eqb Nat.ltb Nat.leb map map2 rbf_function].
  rewrite !distance_self, (distance_sym [0; 1] [1; 0]). fold c_cat. unfold cubic at 1 2.
  replace (0 * 0 * 0) with 0 by ring. reflexivity.
Qed.
Example C100_case : exists M, get_matrix_inverse inv_cat Cubic 0 2 2 (rbf_matrix_exact Cubic 1 2 nodes_cat) [[0; 1]%nat] = Some M /\
  mat_vec M (mat_vec (rbf_matrix_exact Cubic 1 2 nodes_cat) [2; 3; 4; 0; 5]) = [2; 3; 4; 0; 5].
Proof.
  assert (E : exists M, get_matrix_inverse inv_cat Cubic 0 2 2 (rbf_matrix_exact Cubic 1 2 nodes_cat) [[0; 1]%nat] = Some M).
  { rewrite A_cat. unfold get_matrix_inverse. cbn [size_P Nat.add reduces Nat.eqb andb length column_mask fold_left last set_at repeat map masked].
    unfold inv_cat. destruct (list_eq_dec _ _ _) as [_|N]; [|exfalso; apply N; reflexivity]. cbn [option_map]. eexists; reflexivity. }
  destruct E as [M E]. exists M. split; [exact E|].
  refine (proj2 (proj2 (proj2 (C100_categorical inv_cat Cubic 1 0 2 nodes_cat [[0; 1]%nat] M inv_cat_correct _ eq_refl _ _ _ E))) _ _ _).
  - intros x [<-|[<-|[]]]; reflexivity.
  - discriminate.
  - intros e [<-|[]]. cbn. lia.
  - intros M0 _ r a _ _. right. apply Rabs_pos.
  - rewrite A_cat. reflexivity.
  - intros e [<-|[]]. reflexivity.
Qed.
