(** * The cross validation that selects the surrogate model (C141, C142). *)
From Verif Require Import WitnessLinear QualityProofs GaussFactor SpecQuality.
From Verif Require PropertiesLinear.
From Verif Require Import SpecSelect PropertiesSelect.
From Coq Require Import Permutation.
From Coq Require Import Reals Lra Lia List.
Import ListNotations.
Open Scope R_scope.

(** ** C141: what the quality estimate measures *)
(** On distinct nodes that determine the model, with exact arithmetic, the estimate never fails.  It is the sum, over the
    best [m] nodes, of the distance between the rank of the node and the rank among all values of the value predicted for
    it by the model of the other nodes. *)
Theorem C141_estimate : forall factor perm kind gamma eps n nodes vals m,
  exact_factor factor -> complete_factor factor ->
  in_dimension n nodes -> NoDup nodes -> shape_ok kind gamma -> (degree_polynomial kind = 1%Z -> determining n nodes) ->
  0 <= eps -> no_tiny kind gamma eps nodes -> length vals = length nodes -> by_value perm vals ->
  (n + 2 < length nodes)%nat -> (m <= length nodes)%nat ->
  let nodes' := map (fun j => nth j nodes []) perm in
  let vals' := map (fun j => nth j vals 0) perm in
  exists preds : nat -> R,
    (forall i, (i < m)%nat -> predicted_from_others kind gamma eps n nodes' vals' i (preds i)) /\
    get_model_quality_estimate factor perm eps n (length nodes) nodes vals m (kind, gamma) =
    Some (fold_right Z.add 0%Z (map (fun i => Z.abs (Z.of_nat (below (preds i) vals) - Z.of_nat i)) (seq 0 m))).
Proof.
  intros factor perm kind gamma eps n nodes vals m Hex Hco Hn Hd Hg Hu He Ht Hv Hp Hk Hm nodes' vals'.
  assert (Hne : nodes <> []) by (intros ->; cbn in Hk; lia).
  destruct (factor_ok factor perm kind gamma eps n nodes vals Hn Hd Hg Hu Ht Hv Hp Hco Hne) as (s & Es).
  pose proof (A_is_len perm kind gamma eps n nodes vals Hn Ht Hv Hp) as LA.
  assert (Hs : forall b, length b = (length nodes + size_P kind n)%nat -> length (s b) = (length nodes + size_P kind n)%nat /\
             mat_vec (get_rbf_matrix kind gamma eps n (take ([] : rpoint) perm nodes)) (s b) = b).
  { intros b Lb. rewrite <- LA in *. apply (Hex _ s Es b Lb). }
  assert (T : forall i, exists v, (i < m)%nat -> predicted_from_others kind gamma eps n nodes' vals' i v /\
     loo_term s kind gamma eps n (length nodes) nodes' vals' i = Some (Z.abs (Z.of_nat (below v vals) - Z.of_nat i))).
  { intros i. destruct (Nat.lt_ge_cases i m) as [L|L]; [|exists 0; lia].
    destruct (term_ok perm kind gamma eps n nodes vals Hn Hd Hg Hu He Ht Hv Hp s Hs i) as (v & V); [lia|].
    exists v. intros _. exact V. }
  assert (C : exists preds, forall i, (i < m)%nat -> predicted_from_others kind gamma eps n nodes' vals' i (preds i) /\
     loo_term s kind gamma eps n (length nodes) nodes' vals' i = Some (Z.abs (Z.of_nat (below (preds i) vals) - Z.of_nat i))).
  { clear -T. induction m as [|m IH]; [exists (fun _ => 0); lia|].
    destruct IH as (pr & IH); [intros i; destruct (T i) as (v & V); exists v; intros L; apply V; lia|].
    destruct (T m) as (v & V). exists (fun i => if Nat.eq_dec i m then v else pr i). intros i Hi.
    destruct (Nat.eq_dec i m) as [->|N]; [apply V; lia|apply IH; lia]. }
  destruct C as (preds & C). exists preds. split; [intros i Hi; apply C, Hi|].
  unfold get_model_quality_estimate. rewrite Hv, Nat.eqb_refl. cbn [andb].
  rewrite (proj2 (Nat.leb_le _ _) Hm), (proj2 (Nat.ltb_lt _ _) Hk). cbn [andb]. rewrite Es.
  rewrite loo_sum_all.
  - f_equal. rewrite Z.add_0_l. f_equal. apply map_ext_in. intros i Hi. apply in_seq in Hi.
    unfold take. fold nodes' vals'. rewrite (proj2 (C i ltac:(lia))). reflexivity.
  - intros i Hi. apply in_seq in Hi. unfold take. fold nodes' vals'. rewrite (proj2 (C i ltac:(lia))). eauto.
Qed.
Print Assumptions C141_estimate.
(** The predictions are determined by the nodes and values. *)
Theorem C141_predictions_determined : forall kind gamma eps n nodes vals i v w,
  in_dimension n nodes -> NoDup nodes -> shape_ok kind gamma -> (degree_polynomial kind = 1%Z -> determining n nodes) ->
  0 <= eps -> no_tiny kind gamma eps nodes -> length vals = length nodes -> (i < length nodes)%nat ->
  predicted_from_others kind gamma eps n nodes vals i v -> predicted_from_others kind gamma eps n nodes vals i w -> v = w.
Proof.
  intros kind gamma eps n nodes vals i v w Hn Hd Hg Hu He Ht Hv Hi (lam & h & I & P) (lam2 & h2 & I2 & P2).
  assert (El : lam = lam2) by exact (proj1 (PropertiesLinear.C121_unique kind gamma n nodes vals lam h lam2 h2 Hn Hd Hg I I2)). subst lam2.
  destruct P as [[S ->]|[S (l1 & g1 & J1 & ->)]], P2 as [[S2 ->]|[S2 (l2 & g2 & J2 & ->)]]; try lra.
  assert (Hne : nodes <> []) by (intros ->; cbn in Hi; lia).
  assert (U : unisolvent kind n [] nodes) by (apply PropertiesLinear.C121_unisolvence; auto).
  assert (INJ : forall x, length x = (length nodes + size_P kind n)%nat ->
     mat_vec (get_rbf_matrix kind gamma eps n nodes) x = zeros (length nodes + size_P kind n) -> x = zeros (length nodes + size_P kind n)).
  { intros x Lx Ex. rewrite (clean_matrix kind gamma eps) in Ex by auto.
    destruct (kernel_vector kind gamma n nodes (firstn (length nodes) x) (skipn (length nodes) x)) as [Z1 Z2]; auto.
    - rewrite firstn_length; lia.
    - rewrite skipn_length; lia.
    - rewrite firstn_skipn. exact Ex.
    - rewrite <- (firstn_skipn (length nodes) x), Z1. rewrite (U (skipn (length nodes) x)); auto; [apply zeros_app|rewrite skipn_length; lia|intros ? []]. }
  assert (LA : length (get_rbf_matrix kind gamma eps n nodes) = (length nodes + size_P kind n)%nat).
  { rewrite (clean_matrix kind gamma eps) by auto. apply exact_length; auto. }
  destruct (gauss_factor_complete (get_rbf_matrix kind gamma eps n nodes)) as (s & Es).
  { rewrite LA, (clean_matrix kind gamma eps) by auto. apply (SystemProofs.A_is_rows kind gamma n nodes); auto. }
  { rewrite LA. exact INJ. }
  assert (Hs : forall b, length b = (length nodes + size_P kind n)%nat -> length (s b) = (length nodes + size_P kind n)%nat /\
             mat_vec (get_rbf_matrix kind gamma eps n nodes) (s b) = b).
  { intros b Lb. rewrite <- LA in *. apply (gauss_factor_exact _ s Es b Lb). }
  set (base := s (rbf_rhs (size_P kind n) vals)).
  assert (LB : length (rbf_rhs (size_P kind n) vals) = (length nodes + size_P kind n)%nat)
    by (unfold rbf_rhs; rewrite app_length, zeros_length; lia).
  destruct (Hs _ LB) as [B1 B2]. fold base in B1, B2.
  assert (IB : interpolates kind gamma n nodes vals (firstn (length nodes) base) (skipn (length nodes) base)).
  { apply (solution_interpolates kind gamma eps); auto; [rewrite firstn_length; lia|rewrite skipn_length; lia|].
    rewrite firstn_skipn. exact B2. }
  assert (Eb : firstn (length nodes) base = lam) by exact (proj1 (PropertiesLinear.C121_unique kind gamma n nodes vals _ _ lam h Hn Hd Hg IB I)).
  assert (W : nth i base 0 = nth i lam 0).
  { rewrite <- Eb. rewrite <- (firstn_skipn (length nodes) base) at 1. rewrite app_nth1; auto. rewrite firstn_length. lia. }
  destruct (loo_safe s kind gamma eps n nodes vals i) as (_ & _ & Q); auto; [fold base; rewrite W; exact S|].
  rewrite <- (Q _ _ J1), <- (Q _ _ J2). reflexivity.
Qed.
Print Assumptions C141_predictions_determined.
(** The selection returns a candidate with the smallest estimate, and leaves the settings as they were. *)
Theorem C141_selection : forall factor perm eps n nodes vals m settings,
  exact_factor factor -> complete_factor factor -> in_dimension n nodes -> NoDup nodes -> determining n nodes ->
  0 <= eps -> (forall kind gamma, In (kind, gamma) candidates -> no_tiny kind gamma eps nodes) ->
  length vals = length nodes -> by_value perm vals -> (n + 2 < length nodes)%nat -> (m <= length nodes)%nat ->
  let quality := get_model_quality_estimate factor perm eps n (length nodes) nodes vals m in
  exists c e, cross_validate factor perm eps n (length nodes) nodes vals m settings = (c, settings) /\
    In c candidates /\ quality c = Some e /\
    forall t, In t candidates -> exists e', quality t = Some e' /\ (e <= e')%Z.
Proof.
  intros factor perm eps n nodes vals m settings Hex Hco Hn Hd Hu He Ht Hv Hp Hk Hm quality.
  assert (Hall : forall t, In t candidates -> exists e, quality t = Some e).
  { intros (kind, gamma) Hc. destruct (C141_estimate factor perm kind gamma eps n nodes vals m) as (pr & _ & E); auto; [|eauto].
    intros ->. cbn in Hc. repeat (destruct Hc as [Hc|Hc]; [try discriminate; injection Hc as <-; lra|]). destruct Hc. }
  destruct (selection_success quality settings Hall) as (before & c & after & e & C1 & C2 & C3 & C4 & C5).
  exists c, e. split; [exact C2|]. split; [rewrite C1; apply in_or_app; right; left; auto|]. split; [exact C3|].
  intros t Hin. destruct (Hall t Hin) as (e' & E'). exists e'. split; [exact E'|].
  rewrite C1 in Hin. apply in_app_or in Hin. destruct Hin as [Hin|[->|Hin]].
  - apply Z.lt_le_incl. exact (C4 t e' Hin E').
  - assert (e = e') by congruence. lia.
  - exact (C5 t e' Hin E').
Qed.
Print Assumptions C141_selection.
Definition xs4 : list rpoint := [[0]; [1]; [3]; [4]].
Definition vals4 : list R := [2; 0; 3; 1].
Definition perm4 : list nat := [1; 3; 0; 2]%nat.
Lemma dist4 x y : In x xs4 -> In y xs4 -> let r := distance x y in r = 0 \/ r = 1 \/ 2 <= r <= 4.
Proof.
  intros Hx Hy. unfold xs4 in *. cbn zeta.
  destruct Hx as [<-|[<-|[<-|[<-|[]]]]], Hy as [<-|[<-|[<-|[<-|[]]]]]; rewrite distance1;
    unfold Rabs; destruct (Rcase_abs _); try lra; auto.
  all: try (left; lra); try (right; left; lra); right; right; lra.
Qed.
Lemma tiny4 kind gamma : In (kind, gamma) candidates -> no_tiny kind gamma (1/1000000) xs4.
Proof.
  intros Hc. split; [lra|]. split.
  - intros x y Hx Hy a. pose proof (dist4 x y Hx Hy) as D. cbn zeta in D. unfold a. clear a. set (r := distance x y) in *.
    assert (Hr : 0 <= r <= 4) by lra.
    assert (G : forall g, 0 <= g -> g <= 1/100 -> 1/1000000 <= Rabs (gaussian g r)).
    { intros g G1 G2. unfold gaussian. assert (B : - g * r * r >= - (16/100)).
      { assert (r * r <= 16) by nra. replace (- g * r * r) with (- (g * (r * r))) by ring.
        assert (0 <= r * r) by nra. nra. }
      pose proof (exp_ineq1_le (- g * r * r)) as E. rewrite Rabs_right; lra. }
    assert (Q : forall g, 1/10 <= g -> 1/1000000 <= Rabs (multiquadric g r)).
    { intros g Hg. unfold multiquadric. assert (K : g <= sqrt (r * r + g * g)).
      { rewrite <- (sqrt_square g) at 1 by lra. apply sqrt_le_1_alt. nra. }
      rewrite Rabs_right; lra. }
    destruct Hc as [Hc|[Hc|[Hc|[Hc|[Hc|[Hc|[Hc|[]]]]]]]]; injection Hc as <- <-; cbn [rbf_function].
    + destruct D as [-> |D]; [left; unfold cubic; ring|right]. unfold cubic. rewrite Rabs_right by nra.
      assert (1 <= r) by lra. nra.
    + destruct D as [-> |[-> |D]]; [left; apply tps_0|left; rewrite tps_pos by lra; rewrite ln_1; ring|right].
      rewrite tps_pos by lra. pose proof ln_lt_2 as L. pose proof (ln_mono 2 r ltac:(lra) ltac:(lra)) as M.
      rewrite Rabs_right by nra. nra.
    + right. apply Q. lra.
    + right. apply Q. lra.
    + unfold ModelRBF.linear. destruct D as [-> |D]; [left; auto|right]. rewrite Rabs_right; lra.
    + right. apply G; lra.
    + right. apply G; lra.
  - intros _ x c Hx Hc'. unfold xs4 in Hx.
    destruct Hx as [<-|[<-|[<-|[<-|[]]]]]; destruct Hc' as [<-|[]]; try (left; lra); right; rewrite Rabs_right; lra.
Qed.
Lemma det4 : determining 1 xs4.
Proof.
  intros [|a [|]] b L V; try discriminate.
  pose proof (V [0] (or_introl eq_refl)) as V0. pose proof (V [1] (or_intror (or_introl eq_refl))) as V1.
  unfold affine in *. cbn in *. unfold zeros. cbn. split; [f_equal|]; lra.
Qed.
Lemma by_value4 : by_value perm4 vals4.
Proof.
  split.
  - unfold vals4, perm4. cbn. apply perm_trans with [1; 0; 2; 3]%nat; [apply perm_swap|]. apply perm_skip.
    apply perm_trans with [0; 3; 2]%nat; [apply perm_skip, perm_swap|apply perm_swap].
  - intros i j Hij Hj. unfold perm4 in *. cbn [length] in Hj.
    destruct j as [|[|[|[|j]]]]; try lia; destruct i as [|[|[|[|i]]]]; try lia; cbn; lra.
Qed.
Example C141_case : exact_factor gauss_factor /\ complete_factor gauss_factor /\ in_dimension 1 xs4 /\ NoDup xs4 /\ determining 1 xs4 /\
  (forall kind gamma, In (kind, gamma) candidates -> no_tiny kind gamma (1/1000000) xs4 /\ shape_ok kind gamma) /\
  by_value perm4 vals4 /\ (1 + 2 < length xs4)%nat.
Proof.
  split; [exact gauss_factor_exact|]. split; [exact gauss_factor_complete|].
  split; [intros x [<-|[<-|[<-|[<-|[]]]]]; reflexivity|].
  split; [unfold xs4; repeat constructor; cbn; intros H; repeat (destruct H as [H|H]); try tauto; injection H as H; lra|].
  split; [exact det4|]. split; [|split; [exact by_value4|cbn; lia]].
  intros kind gamma Hc. split; [apply tiny4; auto|]. intros ->. cbn in Hc.
  repeat (destruct Hc as [Hc|Hc]; [try discriminate; injection Hc as <-; lra|]). destruct Hc.
Qed.

(** ** C142: categorical variables and the systems set up without them *)
(** With a categorical variable, the full system of the cubic and thin plate spline models is singular. *)
Theorem C142_full_system_singular : forall kind gamma eps n nodes blocks,
  in_dimension n nodes -> degree_polynomial kind = 1%Z -> eps <= 1 -> proper_blocks n blocks -> blocks <> [] ->
  (forall b x, In b blocks -> In x nodes -> one_active b x) -> singular (get_rbf_matrix kind gamma eps n nodes).
Proof.
  intros kind gamma eps n nodes [|b blocks] Hn Hd He Hb Hne Ho; [congruence|].
  apply (categorical_singular kind gamma eps n nodes b); auto.
  - apply (proj1 Hb). left. auto.
  - intros x Hx. apply Ho; [left; auto|auto].
Qed.
Print Assumptions C142_full_system_singular.
(** Hence the cross validation, which sets up the full system, never succeeds: it returns the model in use, and leaves the
    settings at the first candidate (cubic, 0.1) whatever they were. *)
Theorem C142_selection_blind : forall factor perm eps n nodes vals m blocks settings,
  reports_singular factor -> in_dimension n nodes -> eps <= 1 -> proper_blocks n blocks -> blocks <> [] ->
  (forall b x, In b blocks -> In x nodes -> one_active b x) ->
  Permutation (seq 0 (length nodes)) perm ->
  cross_validate factor perm eps n (length nodes) nodes vals m settings = (settings, (Cubic, 1/10)).
Proof.
  intros factor perm eps n nodes vals m blocks settings Hr Hn He Hb Hne Ho Hp.
  assert (Q : get_model_quality_estimate factor perm eps n (length nodes) nodes vals m (Cubic, 1/10) = None).
  { unfold get_model_quality_estimate. destruct (_ && _)%bool; [|reflexivity].
    assert (I : forall x, In x (take ([] : rpoint) perm nodes) -> In x nodes).
    { intros x. apply Permutation_in, Permutation_sym, take_perm, Hp. }
    rewrite Hr; [reflexivity|]. apply C142_full_system_singular with blocks; auto. intros x Hx. apply Hn, I, Hx. }
  unfold cross_validate, get_best_rbf_model, trials. cbn. rewrite Q. reflexivity.
Qed.
Print Assumptions C142_selection_blind.
(** Over a whole run with [rbf = 'auto']: only the initial model and the cubic one are ever used. *)
Theorem C142_run : forall factor eps n blocks (c : sel_cfg (rbf_kind * R)) os,
  reports_singular factor -> eps <= 1 -> proper_blocks n blocks -> blocks <> [] ->
  (forall i, exists perm nodes vals m m', in_dimension n nodes /\ Permutation (seq 0 (length nodes)) perm /\
     (forall b x, In b blocks -> In x nodes -> one_active b x) /\
     o_local (os i) = cross_validate factor perm eps n (length nodes) nodes vals m /\
     o_global (os i) = cross_validate factor perm eps n (length nodes) nodes vals m') ->
  forall t, used_at model_eqb c os t = c_init c \/ used_at model_eqb c os t = (Cubic, 1/10).
Proof.
  intros factor eps n blocks c os Hr He Hb Hne H.
  induction t as [t IH] using lt_wf_ind.
  destruct (C135_origin _ model_eqb model_eqb_ok c os t) as [E|(i & Hi & _ & E)]; [auto|].
  rewrite E. destruct (H i) as (perm & nodes & vals & m & m' & Hn & Hp & Ho & El & Eg).
  unfold found_for, found_local, found_global. rewrite El, Eg.
  rewrite !(C142_selection_blind factor perm eps n nodes vals _ blocks) by auto. cbn [fst snd].
  destruct (local_side c (os t)); [|auto].
  destruct i as [|i]; cbn [previous]; [auto|]. apply IH. lia.
Qed.
Print Assumptions C142_run.
(** The systems of the accurate phase of noisy optimization (moving a known node, adding a node) are set up without the
    categorical variables too: the solver fails on them, although it solves the system of the current model. *)
Theorem C142_accurate_phase : forall solve kind gamma eps n nodes blocks vals vals' new,
  complete_solver solve -> correct_solver solve -> (forall b, reports_singular (fun A => solve A b)) ->
  in_dimension n nodes -> no_tiny kind gamma eps nodes -> NoDup nodes -> degree_polynomial kind = 1%Z ->
  proper_blocks n blocks -> blocks <> [] -> (forall b x, In b blocks -> In x (nodes ++ [new]) -> one_active b x) ->
  length new = n -> nodes <> [] -> length vals = length nodes ->
  unisolvent kind n (map (fun e => last e 0%nat) blocks) nodes ->
  (exists lam h, get_rbf_coefficients solve kind n (length nodes) (get_rbf_matrix kind gamma eps n nodes) vals blocks = Some (lam, h)) /\
  get_rbf_coefficients solve kind n (length nodes) (get_rbf_matrix kind gamma eps n nodes) vals [] = None /\
  get_rbf_coefficients solve kind n (length nodes + 1) (get_rbf_matrix kind gamma eps n (nodes ++ [new])) vals' [] = None.
Proof.
  intros solve kind gamma eps n nodes blocks vals vals' new Hc Hs Hr Hn Ht Hd Hdeg Hb Hne Ho Ln Hnn Hv Hu.
  assert (R0 : forall q, reduces q n [] = false) by (intros q; unfold reduces; apply Bool.andb_false_r).
  assert (F : forall nodes1 k v, in_dimension n nodes1 -> (forall b x, In b blocks -> In x nodes1 -> one_active b x) ->
     get_rbf_coefficients solve kind n k (get_rbf_matrix kind gamma eps n nodes1) v [] = None).
  { intros nodes1 k v D O. unfold get_rbf_coefficients, rbf_solution. rewrite R0.
    rewrite (Hr _ (get_rbf_matrix kind gamma eps n nodes1)); [reflexivity|].
    apply C142_full_system_singular with blocks; auto. apply Ht. }
  split; [|split].
  - destruct (PropertiesLinear.C121_never_fails solve kind gamma eps n nodes vals blocks) as (lam & h & _ & E); auto.
    + intros ->. discriminate.
    + intros _. destruct blocks as [|b bs]; [congruence|]. destruct (proj1 Hb b (or_introl eq_refl)) as (B1 & _ & B2).
      destruct b as [|j b]; [congruence|]. specialize (B2 j (or_introl eq_refl)). lia.
    + intros _ _. split; [auto|]. intros b x B X. apply Ho; auto. apply in_or_app. auto.
    + eauto.
  - apply F; auto. intros b x B X. apply Ho; auto. apply in_or_app. auto.
  - apply F; [|intros b x B X; apply Ho; auto]. intros x X. apply in_app_or in X. destruct X as [X|[<-|[]]]; auto.
Qed.
Print Assumptions C142_accurate_phase.
(** Six points: a continuous variable and a categorical one with two values. *)
Definition xs6 : list rpoint := [[0; 1; 0]; [1; 1; 0]; [3; 1; 0]; [0; 0; 1]; [1; 0; 1]; [3; 0; 1]].
Definition blocks6 : list (list nat) := [[1; 2]]%nat.
Lemma dist6 x y : In x xs6 -> In y xs6 -> distance x y = 0 \/ 1 <= distance x y.
Proof.
  intros Hx Hy. assert (G : forall a b c u v w, let s := (a - u) * (a - u) + ((b - v) * (b - v) + ((c - w) * (c - w) + 0)) in
    s = 0 \/ 1 <= s -> distance [a; b; c] [u; v; w] = 0 \/ 1 <= distance [a; b; c] [u; v; w]).
  { intros a b c u v w s [S|S]; unfold distance; cbn; fold s.
    - left. rewrite S. apply sqrt_0.
    - right. rewrite <- sqrt_1. apply sqrt_le_1_alt. exact S. }
  unfold xs6 in *. destruct Hx as [<-|[<-|[<-|[<-|[<-|[<-|[]]]]]]], Hy as [<-|[<-|[<-|[<-|[<-|[<-|[]]]]]]]; apply G; cbv zeta; lra.
Qed.
Lemma tiny6 gamma : no_tiny Cubic gamma eps3 xs6.
Proof.
  split; [unfold eps3; lra|]. split.
  - intros x y Hx Hy. cbv zeta. cbn [rbf_function]. unfold cubic. destruct (dist6 x y Hx Hy) as [-> |D]; [left; ring|right].
    rewrite Rabs_right by nra. unfold eps3. nra.
  - intros _ x c Hx Hc. unfold xs6 in Hx.
    destruct Hx as [<-|[<-|[<-|[<-|[<-|[<-|[]]]]]]]; destruct Hc as [<-|[<-|[<-|[]]]]; try (left; reflexivity); right; rewrite Rabs_right; unfold eps3; lra.
Qed.
Lemma blocks6_ok : proper_blocks 3 blocks6 /\ forall b x, In b blocks6 -> In x (xs6 ++ [[2; 0; 1]]) -> one_active b x.
Proof.
  split; [split|].
  - intros b [<-|[]]. split; [discriminate|]. split.
    + constructor; [intros [H|[]]; discriminate|]. constructor; [intros []|constructor].
    + intros j [<-|[<-|[]]]; lia.
  - intros [|i] [|j] Hi Hj Hd; cbn in *; lia.
  - intros b x [<-|[]] Hx. unfold xs6 in Hx. cbn in Hx.
    destruct Hx as [<-|[<-|[<-|[<-|[<-|[<-|[<-|[]]]]]]]].
    1-3: exists 1%nat; split; [left; auto|]; split; [reflexivity|]; intros c [<-|[<-|[]]] Hc; [congruence|reflexivity].
    all: exists 2%nat; split; [right; left; auto|]; split; [reflexivity|]; intros c [<-|[<-|[]]] Hc; [reflexivity|congruence].
Qed.
Example C142_case : reports_singular gauss_factor /\ complete_solver strict_gauss /\ correct_solver strict_gauss /\
  (forall b, reports_singular (fun A => strict_gauss A b)) /\ in_dimension 3 xs6 /\ NoDup xs6 /\
  no_tiny Cubic (1/10) eps3 xs6 /\ proper_blocks 3 blocks6 /\ (forall b x, In b blocks6 -> In x (xs6 ++ [[2; 0; 1]]) -> one_active b x) /\
  unisolvent Cubic 3 (map (fun e => last e 0%nat) blocks6) xs6 /\ (3 + 2 < length xs6)%nat.
Proof.
  split; [exact gauss_factor_reports|]. destruct strict_gauss_ok as (G1 & G2 & G3).
  split; [exact G2|]. split; [exact G1|]. split; [exact G3|].
  split; [unfold xs6; intros x [<-|[<-|[<-|[<-|[<-|[<-|[]]]]]]]; reflexivity|].
  split; [unfold xs6; repeat constructor; cbn; intros H; repeat (destruct H as [H|H]); try tauto; injection H; intros; lra|].
  split; [apply tiny6|]. split; [apply blocks6_ok|]. split; [apply blocks6_ok|]. split; [|cbn; lia].
  intros h L D V. destruct h as [|a [|b [|c [|d [|]]]]]; cbn in L; try discriminate.
  pose proof (D 2%nat (or_introl eq_refl)) as D2. cbn in D2.
  pose proof (V [0; 1; 0] (or_introl eq_refl)) as V0. pose proof (V [1; 1; 0] (or_intror (or_introl eq_refl))) as V1.
  pose proof (V [0; 0; 1] ltac:(unfold xs6; cbn; tauto)) as V2. cbn in V0, V1, V2.
  unfold zeros. cbn. repeat f_equal; lra.
Qed.
Example C142_run_case : let cv m := cross_validate gauss_factor (seq 0 6) eps3 3 6 xs6 [5; 4; 3; 2; 1; 0] m in
  let os := fun _ : nat => mkSelIn 6 0 (cv 1%nat) (cv 5%nat) false in
  let c := mkSelCfg true 3 0 6 50 (ThinPlate, 1/10) (Cubic, 1/10) in
  (forall i, exists perm nodes vals m m', in_dimension 3 nodes /\ Permutation (seq 0 (length nodes)) perm /\
     (forall b x, In b blocks6 -> In x nodes -> one_active b x) /\
     o_local (os i) = cross_validate gauss_factor perm eps3 3 (length nodes) nodes vals m /\
     o_global (os i) = cross_validate gauss_factor perm eps3 3 (length nodes) nodes vals m') /\
  used_at model_eqb c os 0 = (Cubic, 1/10).
Proof.
  assert (D : in_dimension 3 xs6) by (unfold xs6; intros x [<-|[<-|[<-|[<-|[<-|[<-|[]]]]]]]; reflexivity).
  assert (O : forall b x, In b blocks6 -> In x xs6 -> one_active b x) by (intros b x Hb Hx; apply blocks6_ok; [auto|apply in_or_app; auto]).
  assert (B : forall m s, cross_validate gauss_factor (seq 0 6) eps3 3 6 xs6 [5; 4; 3; 2; 1; 0] m s = (s, (Cubic, 1/10))).
  { intros m s. apply (C142_selection_blind gauss_factor (seq 0 6) eps3 3 xs6 _ m blocks6); auto using gauss_factor_reports.
    all: try (unfold eps3; lra); try apply blocks6_ok; try discriminate. }
  cbv zeta. split.
  - intros i. exists (seq 0 6), xs6, [5; 4; 3; 2; 1; 0], 1%nat, 5%nat.
    split; [exact D|]. split; [apply Permutation_refl|]. split; [exact O|]. split; reflexivity.
  - unfold used_at, sel_before, serial_at, sel_start, sel_due, select, use_model.
    cbn [c_auto c_n o_k c_first o_step local_list c_maxcv length Nat.add Nat.ltb Nat.leb andb o_local o_global current].
    rewrite !B. reflexivity.
Qed.
