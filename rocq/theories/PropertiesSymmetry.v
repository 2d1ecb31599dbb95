(** * C155: symmetries of the surrogate. *)
From Coq Require Import Reals Lra Lia List Permutation QArith Qreals.
From Verif Require GeomProofs.
From Verif Require Import BaseLemmas SymmetryProofs LinAlg KernelNodes GaussSolver WitnessRBF WitnessLinear.
From Verif Require Import ModelBase SpecSymmetry.
Import ListNotations.
Open Scope R_scope.


(** The order in which the points were evaluated does not matter. *)
Theorem C155_order_of_points solve kind gamma eps n nodes vals nodes2 vals2 x :
  complete_solver solve -> correct_solver solve ->
  well_posed kind gamma eps n nodes vals -> well_posed kind gamma eps n nodes2 vals2 -> length x = n ->
  Permutation (combine nodes vals) (combine nodes2 vals2) ->
  surrogate solve kind gamma eps n nodes2 vals2 x = surrogate solve kind gamma eps n nodes vals x.
Proof. intros Hc Hs. apply order_of_points; auto. Qed.
Print Assumptions C155_order_of_points.

(** Another unit, and for models with a constant another origin, of the objective. *)
Theorem C155_values solve kind gamma eps n nodes vals x a b : complete_solver solve -> correct_solver solve ->
  well_posed kind gamma eps n nodes vals -> length x = n -> (kind = Gaussian -> b = 0) ->
  surrogate solve kind gamma eps n nodes (map (fun v => a * v + b) vals) x =
    option_map (fun v => a * v + b) (surrogate solve kind gamma eps n nodes vals x).
Proof. intros Hc Hs W L H. apply values; auto. destruct kind; cbn; auto; discriminate. Qed.
Print Assumptions C155_values.

(** The surrogate of a sum is the sum of the surrogates. *)
Theorem C155_superposition solve kind gamma eps n nodes vals vals' x : complete_solver solve -> correct_solver solve ->
  well_posed kind gamma eps n nodes vals -> length vals' = length vals -> length x = n ->
  exists u u', surrogate solve kind gamma eps n nodes vals x = Some u /\
    surrogate solve kind gamma eps n nodes vals' x = Some u' /\
    surrogate solve kind gamma eps n nodes (map2 Rplus vals vals') x = Some (u + u').
Proof. intros Hc Hs. apply superposition; auto. Qed.
Print Assumptions C155_superposition.

(** An objective that is affine is found exactly, everywhere, by cubic and thin plate splines ... *)
Theorem C155_affine_objective solve kind gamma eps n nodes slope b x : complete_solver solve -> correct_solver solve ->
  kind = Cubic \/ kind = ThinPlate -> length slope = n -> length x = n ->
  well_posed kind gamma eps n nodes (map (affine slope b) nodes) ->
  surrogate solve kind gamma eps n nodes (map (affine slope b) nodes) x = Some (affine slope b x).
Proof.
  intros Hc Hs K Lg Lx W.
  assert (E : forall y, length y = n -> affine slope b y = rdot (monomials (degree_polynomial kind) y) (slope ++ [b])).
  { intros y Ly. unfold affine. destruct K as [-> | ->]; cbn [degree_polynomial monomials Z.eqb Pos.eqb];
      rewrite rdot_snoc by lia; rewrite GeomProofs.rdot_comm; lra. }
  rewrite (map_ext_in _ (fun y => rdot (monomials (degree_polynomial kind) y) (slope ++ [b]))) in *
    by (intros y Hy; apply E, W, Hy).
  rewrite (E x Lx). apply reproduces; auto. rewrite app_length. destruct K as [-> | ->]; cbn; lia.
Qed.
Print Assumptions C155_affine_objective.

(** ... and a constant one by every basis function but the Gaussian. *)
Theorem C155_constant_objective solve kind gamma eps n nodes b x : complete_solver solve -> correct_solver solve ->
  kind <> Gaussian -> length x = n -> well_posed kind gamma eps n nodes (map (fun _ => b) nodes) ->
  surrogate solve kind gamma eps n nodes (map (fun _ => b) nodes) x = Some b.
Proof.
  intros Hc Hs K Lx W.
  set (g := match kind with Cubic | ThinPlate => zeros n ++ [b] | _ => [b] end).
  assert (E : forall y, length y = n -> b = rdot (monomials (degree_polynomial kind) y) g).
  { intros y Ly. unfold g. destruct kind; try congruence; cbn [degree_polynomial monomials Z.eqb Pos.eqb];
      try (rewrite rdot_snoc by (unfold zeros; rewrite repeat_length; lia); rewrite LinAlg.rdot_zeros_r; lra); cbn; lra. }
  rewrite (map_ext_in _ (fun y => rdot (monomials (degree_polynomial kind) y) g)) in *
    by (intros y Hy; apply E, W, Hy).
  rewrite (reproduces solve kind gamma eps n Hc Hs nodes g x W); auto; [f_equal; symmetry; apply E; exact Lx|].
  unfold g. destruct kind; try congruence; cbn; rewrite ?app_length; unfold zeros; rewrite ?repeat_length; cbn; lia.
Qed.
Print Assumptions C155_constant_objective.

(** The whole problem moved. *)
Theorem C155_moved solve kind gamma eps n nodes vals t x : complete_solver solve -> correct_solver solve ->
  well_posed kind gamma eps n nodes vals -> well_posed kind gamma eps n (map (move t) nodes) vals ->
  length t = n -> length x = n ->
  surrogate solve kind gamma eps n (map (move t) nodes) vals (move t x) = surrogate solve kind gamma eps n nodes vals x.
Proof. intros Hc Hs. apply moved; auto. Qed.
Print Assumptions C155_moved.

(** The variables in another order. *)
Theorem C155_variables solve kind gamma eps n nodes vals p x : complete_solver solve -> correct_solver solve ->
  well_posed kind gamma eps n nodes vals -> well_posed kind gamma eps n (map (reorder p) nodes) vals ->
  Permutation p (seq 0 n) -> length x = n ->
  surrogate solve kind gamma eps n (map (reorder p) nodes) vals (reorder p x) = surrogate solve kind gamma eps n nodes vals x.
Proof. intros Hc Hs. apply variables; auto. Qed.
Print Assumptions C155_variables.

(** Another unit of length: nothing changes for the cubic, thin plate and linear basis functions. *)
Theorem C155_unit_of_length solve kind gamma gamma' eps n nodes vals c x : complete_solver solve -> correct_solver solve ->
  scale_free kind -> well_posed kind gamma eps n nodes vals -> well_posed kind gamma' eps n (map (rescale c) nodes) vals ->
  0 < c -> length x = n ->
  surrogate solve kind gamma' eps n (map (rescale c) nodes) vals (rescale c x) = surrogate solve kind gamma eps n nodes vals x.
Proof. intros Hc Hs. apply unit_of_length; auto. Qed.
Print Assumptions C155_unit_of_length.

(** Domain scaling of a box whose sides have one length [w]: the model in the scaled space is the model
    in the original space. *)
Definition scaled (lo up : point) (p : point) : rpoint := Q2Rp (transform_domain true lo up [] p false).
Lemma scaled_moved lo up w p : (0 < w)%Q -> Forall2 (fun l u => (u - l == w)%Q) lo up -> length p = length lo ->
  scaled lo up p = rescale (/ Q2R w) (move (map Ropp (Q2Rp lo)) (Q2Rp p)).
Proof.
  intros Hw H. assert (Hr : 0 < Q2R w) by (rewrite <- RMicromega.Q2R_0; apply Qlt_Rlt, Hw).
  unfold scaled. cbn [transform_domain scaling_on andb]. unfold Q2Rp. revert p.
  induction H as [|l u lo up E H IH]; intros [|a p] L; cbn in L; try discriminate; [reflexivity|].
  cbn [map3 map move map2 rescale]. f_equal; [|apply IH; lia].
  unfold scale1. destruct (Qeq_bool (u - l) 0) eqn:Z.
  - apply Qeq_bool_iff in Z. rewrite E in Z. rewrite Z in Hw. discriminate Hw.
  - assert (N : ~ (u - l == 0)%Q) by (intros Z'; apply Qeq_bool_iff in Z'; congruence).
    rewrite Q2R_div by exact N. rewrite (Qeq_eqR _ _ E), Q2R_minus. field. lra.
Qed.
Theorem C155_domain_scaling solve kind gamma gamma' eps lo up w pts vals x : complete_solver solve -> correct_solver solve ->
  scale_free kind -> (0 < w)%Q -> Forall2 (fun l u => (u - l == w)%Q) lo up ->
  (forall p, In p pts -> length p = length lo) -> length x = length lo ->
  well_posed kind gamma eps (length lo) (map Q2Rp pts) vals ->
  well_posed kind gamma' eps (length lo) (map (scaled lo up) pts) vals ->
  surrogate solve kind gamma' eps (length lo) (map (scaled lo up) pts) vals (scaled lo up x) =
  surrogate solve kind gamma eps (length lo) (map Q2Rp pts) vals (Q2Rp x).
Proof.
  intros Hc Hs K Hw HF Hl Lx W W2. assert (Hr : 0 < / Q2R w).
  { apply Rinv_0_lt_compat. rewrite <- RMicromega.Q2R_0. apply Qlt_Rlt, Hw. }
  set (t := map Ropp (Q2Rp lo)). assert (Lt : length t = length lo) by (unfold t, Q2Rp; rewrite !map_length; reflexivity).
  assert (E : map (scaled lo up) pts = map (rescale (/ Q2R w)) (map (move t) (map Q2Rp pts))).
  { rewrite !map_map. apply map_ext_in. intros p Hp. apply scaled_moved; auto. }
  rewrite E in *. rewrite (scaled_moved lo up w x) by auto. fold t.
  destruct (fits kind gamma eps (length lo) _ _ W) as (lam & h & I).
  assert (Hn : in_dimension (length lo) (map Q2Rp pts)) by apply W. assert (Hv : length vals = length (map Q2Rp pts)) by apply W.
  assert (Lx' : length (Q2Rp x) = length lo) by (unfold Q2Rp; rewrite map_length; exact Lx).
  pose proof (move_fit kind gamma _ _ _ _ _ t Hn Hv I Lt) as I2.
  assert (Hn2 : in_dimension (length lo) (map (move t) (map Q2Rp pts))).
  { intros y Hy. apply in_map_iff in Hy as (z & <- & Hz). rewrite move_len; rewrite (Hn z Hz); auto. }
  assert (Hv2 : length vals = length (map (move t) (map Q2Rp pts))) by (rewrite map_length; exact Hv).
  pose proof (rescale_fit kind gamma gamma' _ _ _ _ _ _ K Hn2 Hv2 I2 Hr) as I3.
  rewrite (fitted solve kind gamma' eps _ Hc Hs _ _ _ _ _ W2 I3) by (unfold rescale; rewrite map_length, move_len; lia).
  rewrite (fitted solve kind gamma eps _ Hc Hs _ _ _ _ _ W I Lx'). f_equal.
  rewrite (rescale_model kind gamma gamma' (length lo) _ vals) by (auto; rewrite move_len; lia).
  apply (move_model kind gamma (length lo) _ vals); auto.
Qed.
Print Assumptions C155_domain_scaling.

(** ** What fails *)
Lemma one_point_posed eps : 0 < eps < 1 -> well_posed Gaussian 1 eps 1 [[0]] [1].
Proof.
  intros He. split; [intros x [<-|[]]; reflexivity|]. split; [repeat constructor; intros []|]. split; [discriminate|].
  split; [reflexivity|]. split; [intros _; lra|]. split; [|discriminate].
  split; [lra|]. split; [|discriminate].
  intros x y [<-|[]] [<-|[]]. right. cbn [rbf_function]. unfold distance. cbv zeta. cbn [map2 rdot].
  match goal with |- context [sqrt ?a] => replace a with 0 by ring end. rewrite sqrt_0.
  unfold gaussian. match goal with |- context [exp ?a] => replace a with 0 by ring end. rewrite exp_0, Rabs_R1. lra.
Qed.
Lemma one_point x : model_at Gaussian 1 [[0]] [1] [] [x] = exp (- (x * x)).
Proof.
  unfold model_at. cbn [map rdot rbf_function degree_polynomial monomials Z.eqb]. unfold distance. cbv zeta. cbn [map2 rdot].
  unfold gaussian. match goal with |- context [sqrt ?a] => replace a with (Rsqr x) by (unfold Rsqr; ring) end.
  rewrite sqrt_Rsqr_abs. match goal with |- context [exp ?a] => replace a with (- (x * x)) end.
  - cbn. lra.
  - unfold Rabs. destruct (Rcase_abs x); ring.
Qed.
Lemma one_point_fits : interpolates Gaussian 1 1 [[0]] [1] [1] [].
Proof.
  split; [reflexivity|]. split; [reflexivity|]. split.
  - intros [|j] Hj; [|cbn in Hj; lia]. cbn [nth]. rewrite one_point. rewrite Rmult_0_l, Ropp_0, exp_0. reflexivity.
  - intros j Hj. cbn in Hj. lia.
Qed.
Lemma gaussian_one_point eps x : 0 < eps < 1 -> surrogate gauss Gaussian 1 eps 1 [[0]] [1] [x] = Some (exp (- (x * x))).
Proof.
  intros He. rewrite (fitted gauss Gaussian 1 eps 1 gauss_complete gauss_correct _ _ _ _ [x] (one_point_posed eps He) one_point_fits eq_refl).
  f_equal. apply one_point.
Qed.
(** The Gaussian has a scale of its own: in another unit of length the surrogate is another function. *)
Theorem C155_unit_of_length_refuted : exists eps nodes vals c x,
  well_posed Gaussian 1 eps 1 nodes vals /\ well_posed Gaussian 1 eps 1 (map (rescale c) nodes) vals /\ 0 < c /\ length x = 1%nat /\
  surrogate gauss Gaussian 1 eps 1 (map (rescale c) nodes) vals (rescale c x) <> surrogate gauss Gaussian 1 eps 1 nodes vals x.
Proof.
  exists (1/2), [[0]], [1], 2, [1].
  assert (E : map (rescale 2) [[0]] = [[0]]) by (cbn; do 2 f_equal; ring). rewrite E. change (rescale 2 [1]) with [2 * 1].
  assert (He : 0 < 1/2 < 1) by lra.
  split; [apply one_point_posed, He|]. split; [apply one_point_posed, He|]. split; [lra|]. split; [reflexivity|].
  rewrite !gaussian_one_point by exact He. intros X. injection X as X. apply exp_inv in X. lra.
Qed.
Print Assumptions C155_unit_of_length_refuted.
(** A constant objective is not reproduced by the Gaussian, and adding a constant to all values does more
    than add it to the surrogate. *)
Theorem C155_constant_objective_refuted : exists eps nodes x,
  well_posed Gaussian 1 eps 1 nodes (map (fun _ => 1) nodes) /\ length x = 1%nat /\
  surrogate gauss Gaussian 1 eps 1 nodes (map (fun _ => 1) nodes) x <> Some 1.
Proof.
  exists (1/2), [[0]], [1]. assert (He : 0 < 1/2 < 1) by lra.
  split; [apply one_point_posed, He|]. split; [reflexivity|]. cbn [map]. rewrite gaussian_one_point by exact He.
  intros X. injection X as X. apply (eq_trans (z := exp 0)) in X; [|symmetry; apply exp_0]. apply exp_inv in X. lra.
Qed.
Print Assumptions C155_constant_objective_refuted.

(** ** A case: three points on a line, the linear basis function *)
Lemma xs3_posed vals : length vals = 3%nat -> well_posed Linear 1 eps3 1 xs3 vals.
Proof.
  intros L. split; [exact in_dim3|]. split; [exact xs3_distinct|]. split; [discriminate|]. split; [exact L|].
  split; [discriminate|]. split; [exact no_tiny3|discriminate].
Qed.
Definition xs3_back : list rpoint := [[3]; [1]; [0]].
Lemma xs3_back_posed vals : length vals = 3%nat -> well_posed Linear 1 eps3 1 xs3_back vals.
Proof.
  intros L. destruct (xs3_posed vals L) as (A & B & D & E & F & G & H).
  assert (P : Permutation xs3_back xs3) by (apply (Permutation_rev [[3]; [1]; [0]])).
  split; [intros x Hx; apply A, (Permutation_in _ P Hx)|]. split; [apply (Permutation_NoDup (Permutation_sym P) B)|].
  split; [discriminate|]. split; [exact L|]. split; [exact F|]. split; [|discriminate].
  destruct G as (G1 & G2 & G3). split; [exact G1|]. split; [|discriminate].
  intros x y Hx Hy. apply G2; apply (Permutation_in _ P); assumption.
Qed.
Example C155_case :
  surrogate gauss Linear 1 eps3 1 xs3_back [4; 3; 1] [2] = surrogate gauss Linear 1 eps3 1 xs3 [1; 3; 4] [2] /\
  surrogate gauss Linear 1 eps3 1 xs3 [12; 16; 18] [2] = option_map (fun v => 2 * v + 10) (surrogate gauss Linear 1 eps3 1 xs3 [1; 3; 4] [2]) /\
  surrogate gauss Linear 1 eps3 1 xs3 [7; 7; 7] [2] = Some 7 /\
  exists u, surrogate gauss Linear 1 eps3 1 xs3 [1; 3; 4] [2] = Some u.
Proof.
  split; [|split; [|split]].
  - apply C155_order_of_points; auto using gauss_complete, gauss_correct, xs3_posed, xs3_back_posed.
    apply (Permutation_rev [([0], 1); ([1], 3); ([3], 4)]).
  - rewrite <- C155_values by (auto using gauss_complete, gauss_correct, xs3_posed; discriminate).
    f_equal. cbn. repeat f_equal; ring.
  - apply (C155_constant_objective gauss Linear 1 eps3 1 xs3 7 [2]); auto using gauss_complete, gauss_correct, xs3_posed; discriminate.
  - destruct (C155_superposition gauss Linear 1 eps3 1 xs3 [1; 3; 4] [0; 0; 0] [2]) as (u & _ & U & _); eauto using gauss_complete, gauss_correct, xs3_posed.
Qed.
(** Moved by 5, and in a unit of length half as long. *)
Lemma line_posed gamma vals : length vals = 3%nat -> forall a b c, a < b < c -> eps3 <= b - a -> eps3 <= c - b ->
  well_posed Linear gamma eps3 1 [[a]; [b]; [c]] vals.
Proof.
  intros L a b c H1 H2 H3. split; [intros x [<-|[<-|[<-|[]]]]; reflexivity|]. split.
  { repeat constructor; cbn; intros H; repeat (destruct H as [H|H]); try tauto; injection H as H; lra. }
  split; [discriminate|]. split; [exact L|]. split; [discriminate|]. split; [|discriminate].
  split; [apply no_tiny3|]. split; [|discriminate].
  intros x y Hx Hy. cbn [rbf_function ModelRBF.linear].
  destruct Hx as [<-|[<-|[<-|[]]]], Hy as [<-|[<-|[<-|[]]]]; cbn zeta; rewrite distance1; unfold ModelRBF.linear;
    match goal with |- Rabs ?a = 0 \/ _ => unfold Rabs; repeat destruct (Rcase_abs _); lra end.
Qed.
Example C155_moved_case :
  surrogate gauss Linear 1 eps3 1 [[5]; [6]; [8]] [1; 3; 4] [7] = surrogate gauss Linear 1 eps3 1 xs3 [1; 3; 4] [2] /\
  surrogate gauss Linear 1 eps3 1 [[0]; [2]; [6]] [1; 3; 4] [4] = surrogate gauss Linear 1 eps3 1 xs3 [1; 3; 4] [2] /\
  surrogate gauss Linear 1 eps3 1 (map (scaled [0%Q] [4%Q]) [[0%Q]; [1%Q]; [3%Q]]) [1; 3; 4] (scaled [0%Q] [4%Q] [2%Q]) =
  surrogate gauss Linear 1 eps3 1 (map Q2Rp [[0%Q]; [1%Q]; [3%Q]]) [1; 3; 4] (Q2Rp [2%Q]).
Proof.
  assert (P : eps3 = 1/100) by reflexivity.
  split; [|split].
  - assert (E : map (move [5]) xs3 = [[5]; [6]; [8]]) by (cbn; repeat f_equal; ring).
    rewrite <- (C155_moved gauss Linear 1 eps3 1 xs3 [1; 3; 4] [5] [2]); auto using gauss_complete, gauss_correct, xs3_posed.
    + rewrite E. f_equal; cbn; f_equal; ring.
    + rewrite E. apply line_posed; auto; lra.
  - assert (E : map (rescale 2) xs3 = [[0]; [2]; [6]]) by (cbn; repeat f_equal; ring).
    rewrite <- (C155_unit_of_length gauss Linear 1 1 eps3 1 xs3 [1; 3; 4] 2 [2]); auto using gauss_complete, gauss_correct, xs3_posed; try lra.
    + rewrite E. f_equal; cbn; f_equal; ring.
    + right. right. reflexivity.
    + rewrite E. apply line_posed; auto; lra.
  - apply (C155_domain_scaling gauss Linear 1 1 eps3 [0%Q] [4%Q] 4%Q); auto using gauss_complete, gauss_correct.
    + right. right. reflexivity.
    + reflexivity.
    + repeat constructor.
    + intros p [<-|[<-|[<-|[]]]]; reflexivity.
    + cbn [length map Q2Rp]. apply line_posed; auto; rewrite ?P; unfold Q2R; cbn; lra.
    + cbn [length map scaled Q2Rp transform_domain scaling_on andb map3]. apply line_posed; auto; rewrite ?P; unfold Q2R; cbn; lra.
Qed.
