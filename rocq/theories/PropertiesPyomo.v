(** * Properties of the optimization problems handed to the solvers (C66, C83, C101 - C104).

    Vocabulary: [SpecPyomo], [SpecAux], [SpecRBF]; model: [ModelPyomo]. *)
From Verif Require Import PyomoGlue WitnessRBF WitnessSteps PropertiesAux.
From Coq Require Import Lra Lia.
Open Scope R_scope.

(** ** C66 *)
Theorem C66_triangular : forall q (M : mat) (u : nat -> R), symmetric_mat q M ->
  sumn q (fun i => sumn q (fun j => Ainv_param M i j * (u i * u j))) =
  sumn q (fun i => sumn q (fun j => ent M i j * (u i * u j))).
Proof. intros. apply triangular_eq; auto. Qed.
Print Assumptions C66_triangular.
Theorem C66_only_symmetric : forall q (M : mat),
  (forall u : nat -> R,
     sumn q (fun i => sumn q (fun j => Ainv_param M i j * (u i * u j))) =
     sumn q (fun i => sumn q (fun j => ent M i j * (u i * u j)))) ->
  symmetric_mat q M.
Proof. intros q M H. apply triangular_only. exact H. Qed.
Print Assumptions C66_only_symmetric.
(** The matrix the code passes is symmetric. *)
Theorem C66_inverse_symmetric : forall kind gamma n nodes M, in_dimension n nodes ->
  undoes M (rbf_matrix_exact kind gamma n nodes) -> symmetric_mat (length nodes + size_P kind n) M.
Proof. intros. eapply inverse_symmetric; eauto. Qed.
Print Assumptions C66_inverse_symmetric.
Example C66_case : symmetric_mat 4 inv3 /\ ~ symmetric_mat 2 [[1; 2]; [3; 4]].
Proof.
  split.
  - apply (C66_inverse_symmetric Linear 1 1 xs3 inv3 in_dim3 inv3_undoes).
  - intros H. specialize (H 0%nat 1%nat ltac:(lia) ltac:(lia)). cbn in H. lra.
Qed.

(** ** C104 *)
Theorem C104_one_over_mu : forall sh kind gamma n nodes M x m,
  in_dimension n nodes -> length x = n -> (kind = Multiquadric -> 0 <= gamma) ->
  undoes M (rbf_matrix_exact kind gamma n nodes) -> cardinal_weight kind gamma n nodes x m ->
  sh = 0 \/ kind = Multiquadric \/ kind = Gaussian ->
  one_over_mu_obj sh kind gamma n nodes M x = 1 / gutmann_mu kind m.
Proof.
  intros sh kind gamma n nodes M x m Hd Hx Hg U (lam & h & H) Hsh.
  assert (E : one_over_mu_obj sh kind gamma n nodes M x = one_over_mu_obj 0 kind gamma n nodes M x)
    by (destruct Hsh as [-> |[-> | ->]]; reflexivity).
  rewrite E. pose proof (cardinal_quad kind gamma n nodes x M Hd Hx U _ _ _ H) as Q.
  destruct U as (U1 & U2 & U3) eqn:EU.
  rewrite one_over_mu_sign; auto.
  - rewrite mu_sign. assert (m <> 0) by (intros ->; lra).
    replace (quad_form M (u_pi kind gamma nodes x) - rbf_function kind gamma 0) with (- (1 / m)).
    2:{ apply Rmult_eq_reg_l with m; auto. replace (m * - (1 / m)) with (-1) by (field; auto). lra. }
    destruct (sign_cases kind) as [-> | ->]; field; auto.
  - rewrite U1. apply exact_length; auto.
  - intros r Hr. rewrite U2 by auto. apply exact_length; auto.
  - exact (inverse_symmetric kind gamma n nodes M Hd U).
Qed.
Print Assumptions C104_one_over_mu.
Theorem C104_bumpiness : forall sh kind gamma n nodes lam h M target x m,
  in_dimension n nodes -> length x = n -> (kind = Multiquadric -> 0 <= gamma) ->
  length lam = length nodes -> length h = size_P kind n ->
  undoes M (rbf_matrix_exact kind gamma n nodes) -> cardinal_weight kind gamma n nodes x m ->
  sh = 0 \/ kind = Multiquadric \/ kind = Gaussian ->
  let s := model_at kind gamma nodes lam h x in s <> target ->
  h_k_obj sh kind gamma n nodes lam h M target x = 1 / (gutmann_mu kind m * ((s - target) * (s - target))).
Proof.
  intros sh kind gamma n nodes lam h M target x m Hd Hx Hg Hl Hh U C Hsh s Hs. unfold h_k_obj. cbv zeta.
  rewrite (C104_one_over_mu sh kind gamma n nodes M x m) by auto.
  assert (Em : min_rbf_obj sh kind gamma n nodes lam h x = s).
  { unfold s. rewrite <- (min_rbf_exact kind gamma n) by auto. destruct Hsh as [-> |[-> | ->]]; reflexivity. }
  rewrite Em. assert (gutmann_mu kind m <> 0).
  { destruct C as (l' & h' & H). pose proof (cardinal_quad kind gamma n nodes x M Hd Hx U _ _ _ H) as Q.
    assert (m <> 0) by (intros ->; lra). rewrite mu_sign. destruct (sign_cases kind) as [-> | ->]; lra. }
  field. split; auto. lra.
Qed.
Print Assumptions C104_bumpiness.
Example C104_case : one_over_mu_obj 0 Linear 1 1 xs3 inv3 [2] = 1 /\
  h_k_obj 0 Linear 1 1 xs3 [0;0;0] [7] inv3 5 [2] = 1/4.
Proof.
  assert (M : model_at Linear 1 xs3 [0;0;0] [7] [2] = 7) by (unfold model_at, xs3; cbn; ring).
  split.
  - rewrite (C104_one_over_mu 0 Linear 1 1 xs3 inv3 [2] (-1)); auto using in_dim3, inv3_undoes, cardinal2; [|discriminate].
    cbn. field.
  - rewrite (C104_bumpiness 0 Linear 1 1 xs3 [0;0;0] [7] inv3 5 [2] (-1)); auto using in_dim3, inv3_undoes, cardinal2;
      rewrite ?M; try discriminate; cbn; try field. lra.
Qed.

(** ** C101 *)
Theorem C101_surrogate_error : forall sh kind gamma n nodes lam h x,
  0 <= sh -> in_dimension n nodes -> length x = n -> length lam = length nodes -> length h = size_P kind n ->
  Rabs (min_rbf_obj sh kind gamma n nodes lam h x - model_at kind gamma nodes lam h x) <=
  sumn (length nodes) (fun i =>
    let r := distance x (nth i nodes []) in
    Rabs (nth i lam 0) *
    match kind with
    | Cubic => 3/2 * sh * sqrt (sh + r * r) | ThinPlate => sh / 2 | Linear => sqrt sh
    | Multiquadric | Gaussian => 0
    end).
Proof.
  intros. eapply Rle_trans; [apply min_rbf_shift; auto|]. apply Req_le, sumn_ext. intros i Hi. cbv zeta.
  rewrite <- sq_dist_distance; [reflexivity|].
  match goal with H : in_dimension _ _ |- _ => rewrite (H (nth i nodes [])) by (apply nth_In; auto) end. auto.
Qed.
Print Assumptions C101_surrogate_error.
Theorem C101_surrogate_exact : forall kind gamma n nodes lam h x,
  in_dimension n nodes -> length x = n -> length lam = length nodes -> length h = size_P kind n ->
  min_rbf_obj 0 kind gamma n nodes lam h x = model_at kind gamma nodes lam h x.
Proof. intros. apply min_rbf_exact; auto. Qed.
Print Assumptions C101_surrogate_exact.
(** The MSRSM objective: lower model value and larger distance never score worse. *)
Theorem C101_msrsm_dominance : forall sh eps kind gamma n nodes lam h modified w dmin dmax fmin fmax x y s t,
  0 <= eps -> 0 <= w <= 1 -> 0 <= t -> t <= s ->
  min_rbf_obj sh kind gamma n nodes lam h x <= min_rbf_obj sh kind gamma n nodes lam h y ->
  msrsm_obj sh eps kind gamma n nodes lam h modified w dmin dmax fmin fmax x s <=
  msrsm_obj sh eps kind gamma n nodes lam h modified w dmin dmax fmin fmax y t.
Proof.
  intros sh eps kind gamma n nodes lam h modified w dmin dmax fmin fmax x y s t He Hw Ht Hst Hm.
  unfold msrsm_obj. cbv zeta.
  set (f' := if Rleb fmax (fmin + eps) then _ else _). set (d' := if Rleb dmax (dmin + eps) then _ else _).
  assert (Hf : 0 < f' - fmin).
  { unfold f'. destruct (Rleb fmax (fmin + eps)) eqn:E; [lra|]. apply Rleb_gt in E. lra. }
  assert (Hd : 0 < dmax - d').
  { unfold d'. destruct (Rleb dmax (dmin + eps)) eqn:E; [lra|]. apply Rleb_gt in E. lra. }
  assert (0 <= obj_weight modified w) by (unfold obj_weight; destruct modified; lra).
  pose proof (sqrt_le_1_alt t s Hst).
  apply Rplus_le_compat; apply Rmult_le_compat_r; try (left; apply Rinv_0_lt_compat; auto);
    apply Rmult_le_compat_l; lra.
Qed.
Print Assumptions C101_msrsm_dominance.
Example C101_case : Rabs (min_rbf_obj (/ 10 ^ 14) Linear 1 1 xs3 [1; -2; 1] [7] [2] -
  model_at Linear 1 xs3 [1; -2; 1] [7] [2]) <= 4 / 10 ^ 7.
Proof.
  eapply Rle_trans; [apply C101_surrogate_error; auto using in_dim3|].
  - left. apply Rinv_0_lt_compat, pow_lt. lra.
  - unfold sumn. cbn [length xs3 seq map rsum fold_right nth].
    replace (sqrt (/ 10 ^ 14)) with (/ 10 ^ 7).
    2:{ symmetry. apply sqrt_lem_1; try (left; apply Rinv_0_lt_compat, pow_lt; lra). field. }
    cbv zeta. unfold rsum. cbn [fold_right]. rewrite Rabs_R1, (Rabs_left (-2)) by lra. right. field.
Qed.

(** ** C102 *)
Theorem C102_feasible_set : forall kind pb min_dist lo up ints blocks nodes x s,
  (forall i, In i ints -> (i < length x)%nat) -> binary_blocks lo up ints blocks (length x) ->
  pb = MinRbf \/ pb = MaxOneOverMu \/ pb = MaxHk /\ degree_polynomial kind <> 1%Z ->
  (feasible kind pb min_dist lo up ints blocks nodes x s <-> valid_point lo up ints blocks x).
Proof.
  intros kind pb min_dist lo up ints blocks nodes x s Hi Hb Hp. rewrite feasible_iff by auto.
  destruct Hp as [-> |[-> |[-> Hd]]].
  - cbn. tauto.
  - cbn. tauto.
  - assert (has_categorical kind MaxHk = true) as -> by (destruct kind; cbn in *; auto; congruence). tauto.
Qed.
Print Assumptions C102_feasible_set.
(** Maximizing h_k with a cubic or thin plate spline model: the categorical constraints are missing, so
    every valid point can have a block switched off and stay feasible. *)
Theorem C102_categorical_missing : forall kind min_dist lo up ints blocks nodes x s,
  degree_polynomial kind = 1%Z ->
  (forall i, In i ints -> (i < length x)%nat) -> binary_blocks lo up ints blocks (length x) ->
  (feasible kind MaxHk min_dist lo up ints blocks nodes x s <-> valid_point lo up ints [] x).
Proof.
  intros kind min_dist lo up ints blocks nodes x s Hd Hi Hb. rewrite feasible_iff by auto.
  assert (has_categorical kind MaxHk = false) as -> by (destruct kind; cbn in *; auto; discriminate). tauto.
Qed.
Print Assumptions C102_categorical_missing.
Theorem C102_valid_point_refuted : exists kind min_dist lo up ints blocks nodes x s,
  binary_blocks lo up ints blocks (length x) /\ (forall i, In i ints -> (i < length x)%nat) /\
  feasible kind MaxHk min_dist lo up ints blocks nodes x s /\ ~ valid_point lo up ints blocks x.
Proof.
  exists Cubic, (1/1000), [0; 0], [1; 1], [0; 1]%nat, [[0; 1]]%nat, [], [0; 0], 0.
  assert (B : binary_blocks [0; 0] [1; 1] [0; 1]%nat [[0; 1]]%nat 2).
  { intros b j [<-|[]] [<-|[<-|[]]]; cbn; repeat split; auto; lia. }
  assert (I2 : forall i, In i [0; 1]%nat -> (i < 2)%nat) by (intros i [<-|[<-|[]]]; lia).
  split; [exact B|]. split; [exact I2|]. split.
  - apply (C102_categorical_missing Cubic); auto. split; [|split].
    + intros [|[|i]] Hi; cbn in *; try lia; lra.
    + intros i [<-|[<-|[]]]; exists 0%Z; reflexivity.
    + intros b [].
  - intros (_ & _ & H). destruct (H [0; 1]%nat (or_introl eq_refl)) as (b & [<-|[<-|[]]] & E & _); cbn in E; lra.
Qed.
Print Assumptions C102_valid_point_refuted.
Example C102_case : valid_point [0; 0; -2] [1; 1; 5] [0; 1]%nat [[0; 1]]%nat [0; 1; 1/2] /\
  feasible Linear MinRbf 0 [0; 0; -2] [1; 1; 5] [0; 1]%nat [[0; 1]]%nat xs3 [0; 1; 1/2] 0.
Proof.
  assert (V : valid_point [0; 0; -2] [1; 1; 5] [0; 1]%nat [[0; 1]]%nat [0; 1; 1/2]).
  { split; [|split].
    - intros [|[|[|i]]] Hi; cbn in *; try lia; lra.
    - intros i [<-|[<-|[]]]; [exists 0%Z|exists 1%Z]; reflexivity.
    - intros b [<-|[]]. exists 1%nat. split; [right; left; auto|]. split; [reflexivity|].
      intros c [<-|[<-|[]]] Hc; [reflexivity|congruence]. }
  split; [exact V|]. apply C102_feasible_set; auto.
  - intros i [<-|[<-|[]]]; cbn; lia.
  - intros b j [<-|[]] [<-|[<-|[]]]; cbn; repeat split; auto; lia.
Qed.

(** ** C103 *)
Theorem C103_distance_constraint : forall kind pb min_dist lo up ints blocks n nodes x,
  pb = MaximinDist \/ pb = MinMsrsm -> 0 <= min_dist -> in_dimension n nodes -> length x = n ->
  (forall i, In i ints -> (i < n)%nat) -> binary_blocks lo up ints blocks n ->
  ((exists s, feasible kind pb min_dist lo up ints blocks nodes x s) <->
   valid_point lo up ints blocks x /\ forall y, In y nodes -> min_dist <= distance x y * distance x y).
Proof.
  intros kind pb min_dist lo up ints blocks n nodes x Hp Hm Hd Hx Hi Hb. subst n.
  assert (F : forall s, feasible kind pb min_dist lo up ints blocks nodes x s <->
    valid_point lo up ints blocks x /\ mindist_ok min_dist nodes x s).
  { intros s. rewrite feasible_iff by auto. destruct Hp as [-> | ->]; cbn; tauto. }
  rewrite <- (mindist_exists (length x) nodes x min_dist Hd eq_refl Hm). split.
  - intros (s & Hs). apply F in Hs. destruct Hs. split; eauto.
  - intros (V & s & Hs). exists s. apply F. auto.
Qed.
Print Assumptions C103_distance_constraint.
(** For [min_dist] at most 1 every feasible point is at least [min_dist] away from all nodes ... *)
Theorem C103_far_enough : forall kind pb min_dist lo up ints blocks n nodes x s y,
  pb = MaximinDist \/ pb = MinMsrsm -> 0 <= min_dist <= 1 -> in_dimension n nodes -> length x = n ->
  (forall i, In i ints -> (i < n)%nat) -> binary_blocks lo up ints blocks n ->
  feasible kind pb min_dist lo up ints blocks nodes x s -> In y nodes -> min_dist <= distance x y.
Proof.
  intros kind pb min_dist lo up ints blocks n nodes x s y Hp Hm Hd Hx Hi Hb F Hy.
  destruct (proj1 (C103_distance_constraint kind pb min_dist lo up ints blocks n nodes x Hp ltac:(lra) Hd Hx Hi Hb) (ex_intro _ s F)) as (_ & H).
  specialize (H y Hy). pose proof (distance_nonneg x y). destruct (Rle_lt_dec 1 (distance x y)); [lra|]. nra.
Qed.
Print Assumptions C103_far_enough.
(** ... but a point that far can be infeasible, because the bound is put on the squared distance. *)
Theorem C103_far_enough_suffices_refuted : exists kind pb min_dist lo up nodes x,
  0 < min_dist < 1 /\ in_dimension 1 nodes /\ valid_point lo up [] [] x /\ length x = 1%nat /\
  (forall y, In y nodes -> 100 * min_dist <= distance x y) /\
  forall s, ~ feasible kind pb min_dist lo up [] [] nodes x s.
Proof.
  exists Linear, MaximinDist, (1/100000), [0], [1], [[0]], [1/1000].
  assert (D : distance [1/1000] [0] = 1/1000) by (rewrite distance1; abs_num; lra).
  split; [lra|]. split; [intros x [<-|[]]; reflexivity|]. split; [split; [|split]|split; [reflexivity|split]].
  - intros [|i] Hi; cbn in *; [lra|lia].
  - intros i [].
  - intros b [].
  - intros y [<-|[]]. rewrite D. lra.
  - intros s F. destruct (proj1 (C103_distance_constraint Linear MaximinDist (1/100000) [0] [1] [] [] 1 [[0]] [1/1000]
      (or_introl eq_refl) ltac:(lra) ltac:(intros x [<-|[]]; reflexivity) eq_refl ltac:(intros i []) ltac:(intros b j [])) (ex_intro _ s F)) as (_ & H).
    specialize (H [0] (or_introl eq_refl)). rewrite D in H. lra.
Qed.
Print Assumptions C103_far_enough_suffices_refuted.
(** The optimum of the maximin problem is as far from its nearest node as any admissible point. *)
Theorem C103_maximin : forall kind min_dist lo up ints blocks n nodes x s,
  0 <= min_dist -> in_dimension n nodes -> length x = n -> nodes <> [] ->
  (forall i, In i ints -> (i < n)%nat) -> binary_blocks lo up ints blocks n ->
  feasible kind MaximinDist min_dist lo up ints blocks nodes x s ->
  (forall x' s', length x' = n -> feasible kind MaximinDist min_dist lo up ints blocks nodes x' s' -> s' <= s) ->
  valid_point lo up ints blocks x /\
  forall x', length x' = n -> valid_point lo up ints blocks x' ->
    (forall y, In y nodes -> min_dist <= distance x' y * distance x' y) -> as_far nodes x x'.
Proof.
  intros kind min_dist lo up ints blocks n nodes x s Hm Hd Hx Hne Hi Hb F Opt. subst n.
  assert (Fi : forall z s, length z = length x -> (feasible kind MaximinDist min_dist lo up ints blocks nodes z s <->
    valid_point lo up ints blocks z /\ mindist_ok min_dist nodes z s)).
  { intros z t Hz. rewrite feasible_iff; [cbn; tauto|rewrite Hz; auto|rewrite Hz; auto]. }
  apply Fi in F; auto. destruct F as (V & S). split; auto.
  intros x' Lx' V' Far a Ha.
  destruct (proj2 (mindist_exists (length x) nodes x' min_dist Hd Lx' Hm) Far) as (s' & S').
  destruct (mindist_max (length x) nodes x' min_dist Hd Lx' s' Hne S') as (b & Hb' & _ & Sb & _).
  exists b. split; auto.
  assert (L : distance x' b * distance x' b <= s) by (apply (Opt x'); auto; apply Fi; auto).
  apply (mindist_ok_iff (length x)) in S; auto. destruct S as (_ & _ & S). specialize (S a Ha).
  apply Rsqr_incr_0_var; [unfold Rsqr; lra|apply distance_nonneg].
Qed.
Print Assumptions C103_maximin.
Example C103_case : feasible Linear MaximinDist (1/100) [0] [3] [] [] xs3 [2] 1 /\
  (forall x' s', length x' = 1%nat -> feasible Linear MaximinDist (1/100) [0] [3] [] [] xs3 x' s' -> s' <= 1).
Proof.
  split.
  - split; [|split; [|split]].
    + intros [|i] Hi; cbn in *; [lra|lia].
    + intros i [].
    + intros _ b [].
    + split; [lra|]. split; [lra|]. intros i Hi. unfold xs3 in *. destruct i as [|[|[|i]]]; unfold sq_dist, sumn, rsum; cbn in *; try lia; lra.
  - intros [|a [|]] s' L; try discriminate. intros (B & _ & _ & (_ & _ & H)).
    specialize (B 0%nat ltac:(cbn; lia)). cbn in B.
    pose proof (H 0%nat ltac:(cbn; lia)) as H0. pose proof (H 1%nat ltac:(cbn; lia)) as H1. pose proof (H 2%nat ltac:(cbn; lia)) as H2.
    unfold xs3, sq_dist, sumn, rsum in H0, H1, H2. cbn in H0, H1, H2.
    destruct (Rle_lt_dec a 2); [|nra]. destruct (Rle_lt_dec a 1); nra.
Qed.

(** ** C83 *)
Theorem C83_feasible_set : forall kind gamma eps n nodes vals errs lam h,
  in_dimension n nodes -> no_tiny kind gamma eps nodes ->
  length lam = length nodes -> length h = size_P kind n -> contains_value errs ->
  let k := length nodes in
  let A := get_rbf_matrix kind gamma eps n nodes in
  (bump_feasible kind n k (top_left k A) (top_right k A) vals errs lam h <->
   respects_errors kind gamma nodes vals errs lam h /\ side_conditions kind n nodes lam).
Proof. intros. apply bump_iff; auto. Qed.
Print Assumptions C83_feasible_set.
(** The exact interpolant is a feasible start. *)
Theorem C83_feasible_start : forall kind gamma eps n nodes vals errs lam h,
  in_dimension n nodes -> no_tiny kind gamma eps nodes -> contains_value errs ->
  interpolates kind gamma n nodes vals lam h ->
  let k := length nodes in
  let A := get_rbf_matrix kind gamma eps n nodes in
  bump_feasible kind n k (top_left k A) (top_right k A) vals errs lam h.
Proof.
  intros kind gamma eps n nodes vals errs lam h Hd Ht He (Hl & Hh & Hi & Hs) k A.
  apply C83_feasible_set; auto. split; [|exact Hs].
  intros i Hlt. rewrite Hi by auto. specialize (He i). lra.
Qed.
Print Assumptions C83_feasible_start.
(** Whatever the solver does (fail, or return some feasible point), the coefficients used keep every
    node value inside its error interval, and accurate nodes are interpolated. *)
Theorem C83_refit : forall kind gamma eps n nodes vals errs lam h solve,
  in_dimension n nodes -> no_tiny kind gamma eps nodes -> contains_value errs ->
  interpolates kind gamma n nodes vals lam h ->
  let k := length nodes in
  let A := get_rbf_matrix kind gamma eps n nodes in
  (forall lam' h', solve (lam, h) = Some (lam', h') -> length lam' = k /\ length h' = size_P kind n /\
     bump_feasible kind n k (top_left k A) (top_right k A) vals errs lam' h') ->
  forall lam' h', get_noisy_rbf_coefficients solve (lam, h) = (lam', h') ->
  respects_errors kind gamma nodes vals errs lam' h' /\ side_conditions kind n nodes lam' /\
  forall i, (i < length nodes)%nat -> nth i errs (0, 0) = (0, 0) ->
    model_at kind gamma nodes lam' h' (nth i nodes []) = nth i vals 0.
Proof.
  intros kind gamma eps n nodes vals errs lam h solve Hd Ht He Hint k A Hsol lam' h' E.
  assert (B : bump_feasible kind n k (top_left k A) (top_right k A) vals errs lam' h' /\ length lam' = k /\ length h' = size_P kind n).
  { unfold get_noisy_rbf_coefficients in E. destruct (solve (lam, h)) as [[l1 h1]|] eqn:Es.
    - injection E as <- <-. destruct (Hsol l1 h1 eq_refl) as (? & ? & ?). auto.
    - injection E as <- <-. split; [apply C83_feasible_start; auto|]. destruct Hint as (? & ? & _). auto. }
  destruct B as (B & L1 & L2). apply C83_feasible_set in B; auto. destruct B as (B1 & B2).
  split; auto. split; auto. intros i Hi Ei. specialize (B1 i Hi). rewrite Ei in B1. cbn in B1. lra.
Qed.
Print Assumptions C83_refit.
(** An optimal answer is at most as bumpy as the exact interpolant. *)
Theorem C83_smoother : forall kind gamma eps n nodes vals errs lam h solve,
  in_dimension n nodes -> no_tiny kind gamma eps nodes -> contains_value errs ->
  interpolates kind gamma n nodes vals lam h ->
  let k := length nodes in
  let A := get_rbf_matrix kind gamma eps n nodes in
  let ok := bump_feasible kind n k (top_left k A) (top_right k A) vals errs in
  (forall lam' h', solve (lam, h) = Some (lam', h') ->
     forall l1 h1, length l1 = k -> length h1 = size_P kind n -> ok l1 h1 ->
       bump_obj kind k (top_left k A) lam' <= bump_obj kind k (top_left k A) l1) ->
  bump_obj kind k (top_left k A) (fst (get_noisy_rbf_coefficients solve (lam, h))) <=
  bump_obj kind k (top_left k A) lam.
Proof.
  intros kind gamma eps n nodes vals errs lam h solve Hd Ht He Hint k A ok Hopt.
  unfold get_noisy_rbf_coefficients. destruct (solve (lam, h)) as [[l1 h1]|] eqn:Es; [|cbn [fst]; lra].
  cbn [fst]. apply (Hopt l1 h1 eq_refl lam h).
  - destruct Hint as (? & _). auto.
  - destruct Hint as (_ & ? & _). auto.
  - apply C83_feasible_start; auto.
Qed.
Print Assumptions C83_smoother.
Lemma interp3 : interpolates Linear 1 1 xs3 vals3 lam3 h3.
Proof.
  unfold interpolates. split; [reflexivity|]. split; [reflexivity|]. split.
  - intros j Hj. unfold xs3 in *. cbn [length] in Hj.
    destruct j as [|[|[|j]]]; try lia; unfold model_at, lam3, h3, vals3; cbn [nth map rdot monomials degree_polynomial Z.eqb rbf_function];
      unfold ModelRBF.linear; rewrite !distance1; abs_num; lra.
  - intros j Hj. cbn [size_P] in Hj. assert (j = 0)%nat as -> by lia. unfold lam3. cbn. lra.
Qed.
Example C83_case : interpolates Linear 1 1 xs3 vals3 lam3 h3 /\ no_tiny Linear 1 eps3 xs3 /\
  contains_value [(0, 0); (-(1/2), 1/2); (0, 0)].
Proof.
  split; [exact interp3|]. split; [exact no_tiny3|]. intros [|[|[|[|i]]]]; cbn; lra.
Qed.
