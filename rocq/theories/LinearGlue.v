(** * Solver answers, starting points, estimates for pending points; a concrete complete solver. *)
From Coq Require Import Reals Lra Lia List.
From Verif Require Import LinAlg KernelNodes SystemProofs LstsqProofs.
From Verif Require Import RBFProofs RBFSolve RBFGlue AuxProofs AuxInverse SpecAux SpecLinear RefineProofs RefineGlue SpecRefine.
Import ListNotations.
Open Scope R_scope.

(** ** Rounding of solver answers *)
Lemma rriv_length x ints : length (rround_integer_vars x ints) = length x.
Proof. unfold rround_integer_vars. apply mapi_len. Qed.
Lemma rriv_nth x ints j : (j < length x)%nat ->
  nth j (rround_integer_vars x ints) 0 = if memb ints j then Raround (nth j x 0) else nth j x 0.
Proof. intros H. unfold rround_integer_vars. rewrite (nth_mapi _ x 0 0 j) by auto. reflexivity. Qed.
Lemma Raround_near x y : whole y -> Rabs (x - y) < 1/2 -> Raround x = y.
Proof.
  intros (z & ->) H. unfold Raround. pose proof (base_Int_part x) as [B1 B2].
  assert (Int_part x = z \/ Int_part x = (z - 1)%Z) as [E|E].
  { unfold Rabs in H. destruct (Rcase_abs _) in H.
    - right. assert (IZR (Int_part x) < IZR z) by lra. assert (IZR (z - 2) < IZR (Int_part x)) by (rewrite minus_IZR; lra).
      apply lt_IZR in H0, H1. lia.
    - left. assert (IZR (Int_part x) < IZR (z + 1)) by (rewrite plus_IZR; lra).
      assert (IZR (z - 1) < IZR (Int_part x)) by (rewrite minus_IZR; lra). apply lt_IZR in H0, H1. lia. }
  - rewrite E in *. unfold Rltb. unfold Rabs in H. destruct (Rcase_abs _) in H; destruct (Rlt_dec _ _); try lra.
  - rewrite E in *. rewrite minus_IZR in *. unfold Rltb. unfold Rabs in H.
    destruct (Rcase_abs _) in H; destruct (Rlt_dec (x - (IZR z - 1)) (1/2)); try lra.
    destruct (Rlt_dec (1/2) _); try lra. f_equal. lia.
Qed.
Lemma answer_box lo up ints x p : solver_point ints (SolverOptimal x) = Some p -> rin_box x lo up ->
  (forall j, In j ints -> whole (nth j lo 0) /\ whole (nth j up 0)) ->
  rin_box p lo up /\ (forall j, In j ints -> whole (nth j p 0)) /\ forall j, ~ In j ints -> nth j p 0 = nth j x 0.
Proof.
  cbn. intros E (L1 & L2 & B) W. injection E as <-. split; [|split].
  - split; [rewrite rriv_length; auto|]. split; [rewrite rriv_length; auto|]. rewrite rriv_length. intros j Hj.
    rewrite rriv_nth by auto. destruct (memb ints j) eqn:M; [|apply B; auto]. apply memb_in in M.
    destruct (W j M). apply Raround_between; auto.
  - intros j Hj. destruct (Nat.lt_ge_cases j (length x)) as [H|H].
    + rewrite rriv_nth by auto. apply memb_in in Hj. rewrite Hj. apply Raround_whole.
    + rewrite nth_overflow by (rewrite rriv_length; auto). exists 0%Z. auto.
  - intros j Hj. destruct (Nat.lt_ge_cases j (length x)) as [H|H].
    + rewrite rriv_nth by auto. destruct (memb ints j) eqn:M; auto. apply memb_in in M. tauto.
    + rewrite !nth_overflow; auto. rewrite rriv_length. auto.
Qed.
Lemma answer_recovers ints x y p : solver_point ints (SolverOptimal x) = Some p -> length x = length y ->
  (forall j, In j ints -> whole (nth j y 0) /\ Rabs (nth j x 0 - nth j y 0) < 1/2) ->
  (forall j, ~ In j ints -> nth j x 0 = nth j y 0) -> p = y.
Proof.
  cbn. intros E L H1 H2. injection E as <-. apply nth_ext with 0 0; [rewrite rriv_length; auto|].
  rewrite rriv_length. intros j Hj. rewrite rriv_nth by auto. destruct (memb ints j) eqn:M.
  - apply memb_in in M. destruct (H1 j M). apply Raround_near; auto.
  - apply H2. rewrite <- memb_in. congruence.
Qed.

(** ** Starting points *)
Lemma start_inside lo up u : length lo = length up -> length u = length lo ->
  (forall j, (j < length lo)%nat -> nth j lo 0 <= nth j up 0 /\ 0 <= nth j u 0 < 1) ->
  length (start_values lo up None u) = length lo /\
  forall j, (j < length lo)%nat -> nth j lo 0 <= nth j (start_values lo up None u) 0 <= nth j up 0 /\
    (nth j lo 0 < nth j up 0 -> nth j (start_values lo up None u) 0 < nth j up 0).
Proof.
  intros L1 L2 H. cbn [start_values]. split.
  - apply map3_length; lia.
  - intros j Hj. rewrite (nth_map3 _ lo up u j 0 0 0) by lia. destruct (H j Hj) as [H1 H2]. split; nra.
Qed.
Lemma start_distance nodes x s : nodes <> [] ->
  (forall i, (i < length nodes)%nat -> s <= sq_dist x (nth i nodes [])) <-> s <= start_mindistsq nodes x.
Proof.
  intros Hn. unfold start_mindistsq. assert (Hm : map (sq_dist x) nodes <> []) by (destruct nodes; [tauto|discriminate]).
  destruct (amin_spec _ Hm) as [I B]. split.
  - intros H. apply in_map_iff in I. destruct I as (y & <- & Hy). apply (In_nth _ _ []) in Hy. destruct Hy as (i & Hi & <-). auto.
  - intros H i Hi. eapply Rle_trans; [exact H|]. apply B. apply in_map. apply nth_In. auto.
Qed.

(** ** Estimates for points under evaluation *)
Section Pending.
  Variables (solve : mat -> list R -> option (list R)) (lstsq : lstsq_fun) (kind : rbf_kind) (gamma eps : R) (n : nat)
    (nodes : list rpoint) (exps : list (list nat)).
  Hypothesis Hs : correct_solver solve.
  Hypothesis Hls : correct_lstsq lstsq.
  Hypothesis Hn : in_dimension n nodes.
  Hypothesis Ht : no_tiny kind gamma eps nodes.
  Hypothesis Hn1 : exps <> [] -> (1 <= n)%nat.
  Hypothesis Hcat : degree_polynomial kind = 1%Z -> exps <> [] ->
    proper_blocks n exps /\ forall b x, In b exps -> In x nodes -> one_active b x.
  Hypothesis Hd : NoDup nodes.
  Hypothesis Hg : shape_ok kind gamma.
  Hypothesis Hne : nodes <> [].
  Variable vals : list R.
  Hypothesis Hv : length vals = length nodes.
  Lemma current_interpolates forced lam h :
    current_coefficients solve lstsq forced kind n (length nodes) (get_rbf_matrix kind gamma eps n nodes) vals exps = Some (lam, h) ->
    interpolates kind gamma n nodes vals lam h.
  Proof.
    unfold current_coefficients. destruct (_ || _)%bool.
    - intros E. eapply underdet_interpolates; eauto.
    - intros E. destruct (coefficients_solve solve kind gamma eps n nodes vals exps lam h) as (L1 & L2 & S); auto.
      + intros A B. destruct (Hcat B A). split; auto. apply Ht.
      + eapply solution_interpolates; eauto.
  Qed.
End Pending.
Lemma bulk_length kind gamma xs n k nodes lam h : length (bulk_evaluate_rbf kind gamma xs n k nodes lam h) = length xs.
Proof.
  unfold bulk_evaluate_rbf. cbv zeta. rewrite GeomProofs.map2_len.
  - rewrite mat_vec_length, map_length. unfold cdist. apply map_length.
  - rewrite mat_vec_length, map_length. unfold cdist. rewrite map_length. destruct (_ =? _)%Z.
    + rewrite mat_vec_length. auto.
    + rewrite zeros_length. auto.
Qed.
Lemma pending_range solve lstsq fs clip eps thr kind gamma n points nodes vals fmin fmax err exps es : fmin <= fmax ->
  pending_estimates solve lstsq fs clip eps thr kind gamma n points nodes vals fmin fmax err exps = Some es ->
  length es = length points /\ forall v, In v es -> fmin <= v <= fmax.
Proof.
  intros Hf. unfold pending_estimates. destruct (bulk_compute_and_evaluate_rbf _ _ _ _ _ _ _ _ _ _ _ _ _ _ _ _) as [l|] eqn:E; [|discriminate].
  cbn. intros H. injection H as <-. split.
  - rewrite map_length. unfold bulk_compute_and_evaluate_rbf in E. destruct points as [|q points]; [injection E as <-; auto|].
    destruct (current_coefficients _ _ _ _ _ _ _ _ _) as [[lam h]|]; [|discriminate]. injection E as <-. apply bulk_length.
  - intros v Hv. apply in_map_iff in Hv. destruct Hv as (w & <- & _). apply rclip1_in. auto.
Qed.
Lemma sc_val_length fs clip eps thr vals fmin fmax err : length (sc_val (transform_function_values fs clip eps thr vals fmin fmax err)) = length vals.
Proof.
  unfold transform_function_values, clip_values. cbv zeta.
  destruct (high_dynamism _ _ _ _ _); destruct clip; destruct fs; cbn [sc_val]; rewrite ?map_length; auto.
Qed.
Section Pending2.
  Variables (solve : mat -> list R -> option (list R)) (lstsq : lstsq_fun) (kind : rbf_kind) (gamma eps : R) (n : nat)
    (nodes : list rpoint) (exps : list (list nat)).
  Hypothesis Hs : correct_solver solve.
  Hypothesis Hls : correct_lstsq lstsq.
  Hypothesis Hn : in_dimension n nodes.
  Hypothesis Ht : no_tiny kind gamma eps nodes.
  Hypothesis Hn1 : exps <> [] -> (1 <= n)%nat.
  Hypothesis Hcat : degree_polynomial kind = 1%Z -> exps <> [] ->
    proper_blocks n exps /\ forall b x, In b exps -> In x nodes -> one_active b x.
  Hypothesis Hd : NoDup nodes.
  Hypothesis Hg : shape_ok kind gamma.
  Lemma pending_node fs clip thr vals fmin fmax err points es i j : length vals = length nodes -> in_dimension n points ->
    pending_estimates solve lstsq fs clip eps thr kind gamma n points nodes vals fmin fmax err exps = Some es ->
    (i < length points)%nat -> (j < length nodes)%nat -> nth i points [] = nth j nodes [] ->
    nth i es 0 = rclip1 (nth j (sc_val (transform_function_values fs clip eps thr vals fmin fmax err)) 0) fmin fmax.
  Proof.
    intros Hv Hp. unfold pending_estimates. destruct (bulk_compute_and_evaluate_rbf _ _ _ _ _ _ _ _ _ _ _ _ _ _ _ _) as [l|] eqn:E; [|discriminate].
    cbn [option_map]. intros H Hi Hj Eij. injection H as <-. unfold bulk_compute_and_evaluate_rbf in E.
    destruct points as [|q points]; [cbn in Hi; lia|]. set (pts := q :: points) in *. cbv zeta in E.
    destruct (current_coefficients _ _ _ _ _ _ _ _ _) as [[lam h]|] eqn:C; [|discriminate]. injection E as <-.
    assert (Hne : nodes <> []) by (intros ->; cbn in Hj; lia).
    apply (current_interpolates solve lstsq kind gamma eps n nodes exps) in C; auto; [|rewrite sc_val_length; auto].
    destruct C as (L1 & L2 & L3 & L4).
    rewrite (nth_map_in _ _ _ 0) by (rewrite bulk_length; auto). f_equal.
    rewrite bulk_spec by auto. rewrite (nth_map_in _ _ _ ([] : rpoint)) by auto.
    rewrite evaluate_model by (auto; apply Hp, nth_In; auto). rewrite Eij. apply L3. auto.
  Qed.
End Pending2.

(** ** Unisolvent sets *)
Lemma unisolvent_determining kind n nodes : in_dimension n nodes -> degree_polynomial kind = 1%Z ->
  unisolvent kind n [] nodes <-> determining n nodes.
Proof.
  intros Hn Hk. assert (Sp : size_P kind n = (n + 1)%nat) by (destruct kind; cbn in *; auto; lia).
  assert (M : forall x h b, In x nodes -> length h = n -> rdot (monomials (degree_polynomial kind) x) (h ++ [b]) = affine h b x).
  { intros x h b Hx Lh. rewrite Hk. cbn. rewrite rdot_snoc by (rewrite Hn; auto). unfold affine. rewrite GeomProofs.rdot_comm. ring. }
  split.
  - intros U h b Lh V. assert (E : h ++ [b] = zeros (size_P kind n)).
    { apply U; [rewrite app_length, Lh; auto|intros ? []|]. intros x Hx. rewrite M; auto. }
    rewrite Sp in E. replace (zeros (n + 1)) with (zeros n ++ [0]) in E by (unfold zeros; rewrite repeat_app; auto).
    apply app_inj_tail in E. tauto.
  - intros U g Lg _ V. rewrite Sp in *. rewrite (split_vec n g Lg) in *.
    assert (Lf : length (firstn n g) = n) by (rewrite firstn_length; lia).
    destruct (U (firstn n g) (last g 0) Lf) as [E1 E2].
    + intros x Hx. rewrite <- M; auto.
    + rewrite E1, E2. unfold zeros. rewrite repeat_app. auto.
Qed.
Lemma shifted_interpolates kind gamma n nodes vals lam h g : length g = size_P kind n ->
  (forall x, In x nodes -> rdot (monomials (degree_polynomial kind) x) g = 0) ->
  interpolates kind gamma n nodes vals lam h -> interpolates kind gamma n nodes vals lam (vadd h g).
Proof.
  intros Lg V (L1 & L2 & L3 & L4). split; auto. split; [unfold vadd; rewrite LinAlg.map2_len; lia|]. split; auto.
  intros j Hj. rewrite <- L3 by auto. unfold model_at. rewrite rdot_vadd by lia.
  pose proof (V (nth j nodes []) (nth_In _ _ Hj)) as E. rewrite E. ring.
Qed.
Lemma vadd_self h : forall g, length h = length g -> vadd h g = h -> g = zeros (length g).
Proof.
  induction h as [|a h IH]; intros [|b g] L E; cbn in *; try discriminate; auto. injection E as E1 E2.
  unfold zeros. cbn. f_equal; [lra|]. apply IH; auto.
Qed.
Lemma NoDup_snoc {A} (l : list A) x : NoDup l -> ~ In x l -> NoDup (l ++ [x]).
Proof.
  intros H N. induction H as [|a l Ha H IH]; cbn; [repeat constructor; intros []|].
  constructor; [|apply IH; intros E; apply N; right; auto].
  intros E. apply in_app_or in E. destruct E as [E|[->|[]]]; auto. apply N. left. auto.
Qed.
