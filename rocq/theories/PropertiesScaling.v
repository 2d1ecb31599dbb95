(** * Properties of domain scaling, function scaling and the optimality gap (C29, C31 - C36, C91).

    Only statements, each closed by a lemma proved elsewhere; beside each an [Example].
    Vocabulary: [SpecScaling]; [in_box], [box_ok]: [BaseLemmas]. *)
From Verif Require Import ScalingProofs DomainProofs Witness.
From Coq Require Import Lra Lia.
Open Scope R_scope.

(** ** C29 *)
Theorem C29_round_trip : forall lo up p, in_box p lo up ->
  agree (transform_domain true lo up [] (transform_domain true lo up [] p false) true) p /\
  in_box (transform_domain true lo up [] p false) (zeros_for lo) (ones_for up).
Proof. intros lo up p H. split; [apply round_trip; auto|apply to_unit; auto]. Qed.
Print Assumptions C29_round_trip.
Theorem C29_unit_cube_to_box : forall lo up p, box_ok lo up -> in_box p (zeros_for lo) (ones_for up) ->
  in_box (transform_domain true lo up [] p true) lo up /\
  ((forall j, (j < length lo)%nat -> (nth j lo 0 < nth j up 0)%Q) ->
   agree (transform_domain true lo up [] (transform_domain true lo up [] p true) false) p).
Proof.
  intros lo up p B H. split; [apply from_unit; auto|]. intros L. destruct B as [B _], H as (H1 & H2 & _).
  unfold zeros_for, ones_for in *. rewrite map_length in *. apply round_trip_back; auto; lia.
Qed.
Print Assumptions C29_unit_cube_to_box.
Theorem C29_corners : forall lo up, box_ok lo up ->
  agree (transform_domain true lo up [] (zeros_for lo) true) lo /\
  agree (transform_domain true lo up [] (ones_for lo) true) up /\
  agree (transform_domain true lo up [] lo false) (zeros_for lo) /\
  ((forall j, (j < length lo)%nat -> (nth j lo 0 < nth j up 0)%Q) ->
   agree (transform_domain true lo up [] up false) (ones_for lo)) /\
  transform_domain_bounds true lo up = (zeros_for lo, ones_for up).
Proof.
  intros lo up H. destruct (corners lo up H) as (A & B & C & D). repeat (split; auto).
Qed.
Print Assumptions C29_corners.
(** Off, or with integer variables, points are not moved. *)
Theorem C29_identity : forall lo up ints p reverse,
  transform_domain false lo up ints p reverse = p /\
  (ints <> [] -> transform_domain true lo up ints p reverse = p).
Proof. intros. split; [reflexivity|]. intros H. unfold transform_domain. destruct ints; [congruence|reflexivity]. Qed.
Print Assumptions C29_identity.
(** But the bounds are scaled although the points are not: with affine scaling requested and an
    integer variable, the (unmoved) points of the box are outside the scaled box. *)
Theorem C29_scaled_bounds_with_integers_refuted : exists lo up ints p,
  box_ok lo up /\ in_box p lo up /\
  let (slo, sup) := transform_domain_bounds true lo up in
  ~ in_box (transform_domain true lo up ints p false) slo sup.
Proof.
  exists [2%Q], [5%Q], [0%nat], [3%Q]. split; [|split].
  - split; [reflexivity|]. intros [|j] Hj; cbn in *; [discriminate|lia].
  - split; [reflexivity|]. split; [reflexivity|]. intros [|j] Hj; cbn in *; [split; discriminate|lia].
  - cbn. intros (_ & _ & H). specialize (H 0%nat ltac:(cbn; lia)). cbn in H. destruct H as [_ H]. apply H. reflexivity.
Qed.
Print Assumptions C29_scaled_bounds_with_integers_refuted.
Example C29_case : in_box [3; -1]%Q [0; -2]%Q [4; 2]%Q /\ box_ok [0; -2]%Q [4; 2]%Q /\
  agree (transform_domain true [0; -2]%Q [4; 2]%Q [] [3; -1]%Q false) [3#4; 1#4]%Q.
Proof.
  split; [|split].
  - split; [reflexivity|]. split; [reflexivity|]. intros [|[|j]] Hj; cbn in *; [split; discriminate|split; discriminate|lia].
  - split; [reflexivity|]. intros [|[|j]] Hj; cbn in *; [discriminate|discriminate|lia].
  - split; [reflexivity|]. intros [|[|j]] Hj; [reflexivity|reflexivity|cbn in Hj; lia].
Qed.

(** ** C31.  [fmin], [fmax]: smallest and largest node value; [S]: what the function returns. *)
Theorem C31_order : forall fs clip eps thr vals fmin fmax err,
  0 < eps -> eps <= 1 -> 1 <= thr -> extremes vals fmin fmax -> proper_errors vals err ->
  let S := transform_function_values fs clip eps thr vals fmin fmax err in
  length (sc_val S) = length vals /\
  (forall i j, (i < length vals)%nat -> (j < length vals)%nat -> nth i vals 0 <= nth j vals 0 ->
     nth i (sc_val S) 0 <= nth j (sc_val S) 0) /\
  (forall i, (i < length vals)%nat -> nth i vals 0 = fmin -> nth i (sc_val S) 0 = sc_fmin S) /\
  (forall w, In w (sc_val S) -> sc_fmin S <= w) /\
  (clip = ClipOff \/ ~ spans eps thr fmin fmax ->
   forall i j, (i < length vals)%nat -> (j < length vals)%nat -> nth i vals 0 < nth j vals 0 ->
     nth i (sc_val S) 0 < nth j (sc_val S) 0).
Proof.
  intros fs clip eps thr vals fmin fmax err He He1 Ht X Pe S.
  split; [unfold S; rewrite sc_val_spec by auto; apply map_length|].
  split; [intros; apply scaled_order; auto|].
  destruct (scaled_extremes fs clip eps thr vals fmin fmax err He He1 Ht X Pe) as (I1 & I2 & B).
  split; [|split].
  - intros i Hi E. destruct (In_nth _ _ 0 I1) as (j & Hj & Ej). fold S in Ej, Hj.
    unfold S in Hj. rewrite sc_val_spec, map_length in Hj by auto.
    assert (Vj : fmin <= nth j vals 0) by (apply X, nth_In; auto).
    assert (Q1 : nth i (sc_val S) 0 <= nth j (sc_val S) 0) by (apply scaled_order; auto; lra).
    assert (In (nth i (sc_val S) 0) (sc_val S)).
    { apply nth_In. unfold S. rewrite sc_val_spec by auto. rewrite map_length. auto. }
    apply B in H. fold S in H. lra.
  - intros w Hw. apply B in Hw. tauto.
  - intros N i j Hi Hj L. apply scaled_strict; auto. tauto.
Qed.
Print Assumptions C31_order.
Example C31_case : extremes [3; 1; 5000] 1 5000 /\ proper_errors [3; 1; 5000] [(0, 0); (-1/2, 1/2); (0, 0)] /\
  spans (1/1000) 1000 1 5000 /\ ~ spans (1/1000) 1000 1 3.
Proof.
  split; [|split; [|split]].
  - split; [cbn; auto|]. split; [cbn; auto|]. intros v [<-|[<-|[<-|[]]]]; lra.
  - split; [reflexivity|]. intros e [<-|[<-|[<-|[]]]]; cbn; lra.
  - left. rewrite !Rabs_right by lra. split; lra.
  - intros [[_ H]|[H _]]; rewrite ?Rabs_right in H by lra; lra.
Qed.

(** ** C32 *)
Theorem C32_affine_range : forall clip eps thr vals fmin fmax err,
  0 < eps -> eps <= 1 -> 1 <= thr -> extremes vals fmin fmax -> proper_errors vals err ->
  let S := transform_function_values ScaleAffine clip eps thr vals fmin fmax err in
  sc_fmin S = 0 /\
  exists top, extremes (sc_val S) 0 top /\
    ((top = 1 /\ sc_fmax S = 1) \/ (top <= eps /\ sc_fmax S = 0)) /\
    (clip = ClipOff \/ ~ spans eps thr fmin fmax -> (top = 1 <-> eps < fmax - fmin \/ (eps = 1 /\ fmax - fmin = 1))).
Proof.
  intros clip eps thr vals fmin fmax err He He1 Ht X Pe S.
  assert (E0 : sc_fmin S = 0) by (unfold S, transform_function_values; destruct (clip_values _ _ _ _ _ _); reflexivity).
  split; auto.
  destruct (scaled_extremes ScaleAffine clip eps thr vals fmin fmax err He He1 Ht X Pe) as (I1 & I2 & B).
  fold S in I1, I2, B. rewrite E0 in I1, B.
  exists (base_fun ScaleAffine clip eps thr vals fmin fmax err (snd (clip_values clip eps thr vals fmin fmax))).
  split; [split; auto|]. clear I1 I2 B.
  destruct (cap_facts clip eps thr vals fmin fmax He He1 Ht X) as (Bc & _).
  unfold S, transform_function_values, base_fun.
  assert (NC : clip = ClipOff \/ ~ spans eps thr fmin fmax -> snd (clip_values clip eps thr vals fmin fmax) = fmax).
  { intros N. unfold clip_values. destruct (high_dynamism clip eps thr fmin fmax) eqn:E; auto. apply high_spec in E. tauto. }
  destruct (clip_values clip eps thr vals fmin fmax) as [cv fm]. cbn [snd sc_fmax] in *.
  unfold Rltb. destruct (Rlt_dec eps (fm - fmin)) as [L|L].
  - replace ((fm - fmin) / (fm - fmin)) with 1 by (field; lra). split; [left; auto|].
    intros N. rewrite <- (NC N) in *. split; auto.
  - replace ((fm - fmin) / 1) with (fm - fmin) by field. split; [right; split; auto; lra|].
    intros N. rewrite <- (NC N) in *. split; intros H; lra.
Qed.
Print Assumptions C32_affine_range.
Example C32_case : extremes [3; 1; 2] 1 3 /\
  sc_val (transform_function_values ScaleAffine ClipOff (1/10) 1000 [3; 1; 2] 1 3 [(0,0);(0,0);(0,0)]) = [1; 0; 1/2].
Proof.
  split; [split; [cbn; auto|]; split; [cbn; auto|]; intros v [<-|[<-|[<-|[]]]]; lra|].
  unfold transform_function_values, clip_values, high_dynamism. cbn [andb sc_val map].
  replace (Rltb (1/10) (3 - 1)) with true by (symmetry; apply Rltb_lt; lra).
  f_equal; [field|f_equal; [field|f_equal; field]].
Qed.

(** ** C33 *)
Theorem C33_log_arguments : forall clip eps thr vals fmin fmax err,
  0 < eps -> extremes vals fmin fmax -> proper_errors vals err ->
  clip = ClipOff \/ ~ spans eps thr fmin fmax ->
  forall a, In a (log_args clip eps thr vals fmin fmax err) -> 0 < a.
Proof. intros. eapply log_args_positive; eauto. tauto. Qed.
Print Assumptions C33_log_arguments.
(** With clipping, an argument can be negative although the input is as above. *)
Theorem C33_log_arguments_with_clipping_refuted : exists clip eps thr vals fmin fmax err,
  0 < eps /\ eps <= 1 /\ 1 <= thr /\ extremes vals fmin fmax /\ proper_errors vals err /\
  exists a, In a (log_args clip eps thr vals fmin fmax err) /\ a < 0.
Proof.
  exists ClipAtDyn, (1/1000), 1000, [1; 5000], 1, 5000, [(0, 0); (-2000, 0)].
  split; [lra|]. split; [lra|]. split; [lra|].
  split; [split; [cbn; auto|]; split; [cbn; auto|]; intros v [<-|[<-|[]]]; lra|].
  split; [split; [reflexivity|]; intros e [<-|[<-|[]]]; cbn; lra|].
  unfold log_args, clip_values.
  replace (high_dynamism ClipAtDyn (1 / 1000) 1000 1 5000) with true.
  2:{ symmetry. apply high_spec. split; [discriminate|]. left. rewrite !Rabs_right by lra. lra. }
  replace (Rltb (1/1000) (Rabs 1)) with true by (symmetry; apply Rltb_lt; rewrite Rabs_R1; lra).
  rewrite Rabs_R1. cbn [map fst map2 app].
  assert (Es : log_shift (1/1000) [1; 5000] [0; -2000] = 0).
  { unfold log_shift. cbn [map2 amin fold_left].
    replace (Rmin (1 + 0) (5000 + -2000)) with 1 by (unfold Rmin; destruct (Rle_dec (1 + 0) (5000 + -2000)); lra).
    replace (Rmax 0 (1 - 1)) with 0 by (unfold Rmax; destruct (Rle_dec 0 (1 - 1)); lra).
    replace (Rltb 0 0) with false by (symmetry; apply Rltb_ge; lra). reflexivity. }
  rewrite Es. exists ((-2000 + Rmin 5000 (1000 * 1) + 0) / (Rmin 5000 (1000 * 1) + 0)).
  split; [right; right; right; left; reflexivity|].
  rewrite Rmin_right by lra. apply Ropp_lt_cancel. rewrite Ropp_0.
  replace (- ((-2000 + 1000 * 1 + 0) / (1000 * 1 + 0))) with 1 by field. lra.
Qed.
Print Assumptions C33_log_arguments_with_clipping_refuted.
Example C33_case : extremes [-3; 1] (-3) 1 /\ proper_errors [-3; 1] [(-2, 1); (0, 0)] /\
  ClipOff = ClipOff /\ 1 + 5 <= log_shift (1/2) [-3; 1] [-2; 0].
Proof.
  split; [split; [cbn; auto|]; split; [cbn; auto|]; intros v [<-|[<-|[]]]; lra|].
  split; [split; [reflexivity|]; intros e [<-|[<-|[]]]; cbn; lra|]. split; [reflexivity|].
  unfold log_shift. cbn [map2 amin fold_left].
  replace (Rmin (-3 + -2) (1 + 0)) with (-5) by (unfold Rmin; destruct (Rle_dec (-3 + -2) (1 + 0)); lra).
  replace (Rmax 0 (1 - -5)) with 6 by (unfold Rmax; destruct (Rle_dec 0 (1 - -5)); lra).
  destruct (_ && _); lra.
Qed.

(** ** C34.  [clip_values] returns the clipped values and the largest value reported. *)
Theorem C34_clipping : forall clip eps thr vals fmin fmax,
  0 < eps -> eps <= 1 -> 1 <= thr -> extremes vals fmin fmax ->
  let (clipped, top) := clip_values clip eps thr vals fmin fmax in
  clipped = map (fun v => Rmin v top) vals /\ extremes clipped fmin top /\ top <= fmax /\
  (clip = ClipOff \/ ~ spans eps thr fmin fmax -> clipped = vals /\ top = fmax) /\
  (clip = ClipMedian -> spans eps thr fmin fmax -> is_median vals top) /\
  (clip = ClipAtDyn -> spans eps thr fmin fmax ->
     (eps < Rabs fmin -> top = thr * Rabs fmin) /\ (Rabs fmin <= eps -> top = thr)).
Proof.
  intros clip eps thr vals fmin fmax He He1 Ht X.
  destruct (clip_extremes clip eps thr vals fmin fmax He He1 Ht X) as (E & L & M).
  destruct (clip_values clip eps thr vals fmin fmax) as [cv fm] eqn:C. cbn [fst snd] in *.
  split; [auto|]. split; [auto|]. split; [auto|]. unfold clip_values in C. split; [|split].
  - intros N. destruct (high_dynamism clip eps thr fmin fmax) eqn:H; [apply high_spec in H; tauto|]. injection C as <- <-. auto.
  - intros -> Sp. assert (H : high_dynamism ClipMedian eps thr fmin fmax = true) by (apply high_spec; split; auto; discriminate).
    rewrite H in C. injection C as <- <-. apply median_spec. eapply extremes_nonempty; eauto.
  - intros -> Sp. assert (H : high_dynamism ClipAtDyn eps thr fmin fmax = true) by (apply high_spec; split; auto; discriminate).
    rewrite H in C. injection C as <- <-. split; intros F.
    + replace (Rltb eps (Rabs fmin)) with true by (symmetry; apply Rltb_lt; auto). reflexivity.
    + replace (Rltb eps (Rabs fmin)) with false by (symmetry; apply Rltb_ge; auto). ring.
Qed.
Print Assumptions C34_clipping.
Example C34_case : extremes [3; 1; 5000; 7] 1 5000 /\ spans (1/1000) 1000 1 5000 /\
  is_median [3; 1; 5000; 7] 5 /\ ~ is_median [3; 1; 5000; 7] 7.
Proof.
  split; [split; [cbn; auto|]; split; [cbn; auto|]; intros v [<-|[<-|[<-|[<-|[]]]]]; lra|].
  split; [left; rewrite !Rabs_right by lra; split; lra|]. split.
  - exists 3, 7. split; [cbn; auto|]. split; [cbn; auto|]. split; [lra|]. cbn [count_le count_ge length].
    repeat destruct (Rle_dec _ _); try lra. lia.
  - intros (a & b & Ha & Hb & E & C1 & C2 & _).
    destruct Ha as [<-|[<-|[<-|[<-|[]]]]], Hb as [<-|[<-|[<-|[<-|[]]]]]; try lra.
    cbn [count_ge length] in C2. repeat destruct (Rle_dec _ _) in C2; try lra; lia.
Qed.

(** ** C35 *)
Theorem C35_gap : forall c f g, (0 < eps_zero c)%Q ->
  (compute_gap c f == 0 <-> f == target_objval c)%Q /\
  (f < g <-> compute_gap c f < compute_gap c g)%Q /\
  (eps_zero c <= Qabs (target_objval c) ->
     (compute_gap c f <= eps_opt c <-> f <= target_objval c + eps_opt c * Qabs (target_objval c)))%Q /\
  (Qabs (target_objval c) < eps_zero c ->
     (compute_gap c f <= eps_opt c <-> f <= target_objval c + eps_opt c))%Q.
Proof.
  intros c f g H. split; [apply gap_zero; auto|]. split; [apply gap_mono; auto|].
  pose proof (gap_le c f (eps_opt c) H) as G. destruct (gap_den_cases c) as [[L E]|[L E]]; rewrite E in G.
  - split; [auto|]. intros F. exfalso. apply (Qlt_not_le _ _ F L).
  - split; [intros F; exfalso; apply (Qlt_not_le _ _ L F)|]. intros _. rewrite G.
    rewrite Qmult_1_r. reflexivity.
Qed.
Print Assumptions C35_gap.
Definition c35 : cfg := wcfg kn0.
Example C35_case : (0 < eps_zero c35)%Q /\ (compute_gap c35 (-50) == 1 # 2)%Q /\ (target_objval c35 == -100)%Q.
Proof. repeat split; reflexivity. Qed.

(** ** C36: a noisy value whose optimistic estimate [v] would satisfy the stopping test. *)
Theorem C36_potential_optimum : forall c s v, (0 < eps_zero c)%Q -> (eps_zero c <= Qabs (target_objval c))%Q ->
  (compute_gap c v <= eps_opt c)%Q -> require_accurate c s v = true.
Proof.
  intros c s v H L G. apply (gap_le c v (eps_opt c) H) in G. unfold require_accurate.
  destruct (gap_den_cases c) as [[_ E]|[F _]]; [|exfalso; apply (Qlt_not_le _ _ F L)].
  rewrite E in G. apply Qle_bool_iff in G. rewrite G. apply Bool.orb_true_r.
Qed.
Print Assumptions C36_potential_optimum.
Theorem C36_target_zero_refuted : exists c s v, (0 < eps_zero c)%Q /\ (target_objval c == 0)%Q /\ (0 < eps_opt c)%Q /\
  (compute_gap c v <= eps_opt c)%Q /\ require_accurate c s v = false.
Proof.
  exists (wcfg (mkKnobs false true [] [0%Q] [10%Q] 30 40 (1#1000000) (1#1000) 0 [] [] 2 20 2 false true 10 2 100 true)).
  exists (init_st (wcfg kn0)), (1#1000)%Q. repeat split; try reflexivity; discriminate.
Qed.
Print Assumptions C36_target_zero_refuted.
Example C36_case : (0 < eps_zero c35)%Q /\ (eps_zero c35 <= Qabs (target_objval c35))%Q /\
  (compute_gap c35 (- (995 # 10)) <= eps_opt c35)%Q /\ ~ (compute_gap c35 (-90) <= eps_opt c35)%Q.
Proof. repeat split; try reflexivity; try discriminate. intros H. vm_compute in H. apply H. reflexivity. Qed.

(** ** C91: the scaled error bounds and the function applied to later values. *)
Theorem C91_scaled_errors : forall fs clip eps thr vals fmin fmax err i,
  let S := transform_function_values fs clip eps thr vals fmin fmax err in
  0 < eps -> extremes vals fmin fmax -> proper_errors vals err ->
  clip = ClipOff \/ ~ spans eps thr fmin fmax -> (i < length vals)%nat ->
  nth i (sc_val S) 0 = sc_fun S (nth i vals 0) /\
  nth i (sc_val S) 0 + fst (nth i (sc_err S) (0, 0)) = sc_fun S (nth i vals 0 + fst (nth i err (0, 0))) /\
  nth i (sc_val S) 0 + snd (nth i (sc_err S) (0, 0)) = sc_fun S (nth i vals 0 + snd (nth i err (0, 0))).
Proof. intros. apply scaled_errors; auto. tauto. Qed.
Print Assumptions C91_scaled_errors.
Theorem C91_rescale_order : forall fs clip eps thr vals fmin fmax err x y,
  let S := transform_function_values fs clip eps thr vals fmin fmax err in
  0 < eps -> x < y -> fs <> ScaleLog \/ 0 < x + log_shift eps vals (map fst err) -> sc_fun S x < sc_fun S y.
Proof.
  intros fs clip eps thr vals fmin fmax err x y S He L H. unfold S, transform_function_values.
  destruct (clip_values clip eps thr vals fmin fmax) as [cv fm]. destruct fs; cbn [sc_fun]; auto.
  - unfold Rdiv. apply Rmult_lt_compat_r; [|lra]. apply Rinv_0_lt_compat. unfold Rltb. destruct (Rlt_dec eps (fm - fmin)); lra.
  - destruct H as [H|H]; [congruence|].
    replace (Rltb 0 (x + _)) with true by (symmetry; apply Rltb_lt; auto).
    replace (Rltb 0 (y + _)) with true by (symmetry; apply Rltb_lt; lra). apply ln_increasing; lra.
Qed.
Print Assumptions C91_rescale_order.
(** Log scaling applied to a later value below all the recorded ones: the order can be reversed. *)
Theorem C91_rescale_order_refuted : exists vals fmin fmax err x y,
  extremes vals fmin fmax /\ proper_errors vals err /\
  let S := transform_function_values ScaleLog ClipOff (1/1000) 1000 vals fmin fmax err in
  x < y /\ sc_fun S y < sc_fun S x.
Proof.
  exists [1; 2], 1, 2, [(0, 0); (0, 0)], 0, (exp (-1)).
  split; [split; [cbn; auto|]; split; [cbn; auto|]; intros v [<-|[<-|[]]]; lra|].
  split; [split; [reflexivity|]; intros e [<-|[<-|[]]]; cbn; lra|].
  unfold transform_function_values, clip_values, high_dynamism. cbn [andb sc_fun map fst].
  assert (Es : log_shift (1/1000) [1; 2] [0; 0] = 0).
  { unfold log_shift. cbn [map2 amin fold_left].
    replace (Rmin (1 + 0) (2 + 0)) with 1 by (unfold Rmin; destruct (Rle_dec (1 + 0) (2 + 0)); lra).
    replace (Rmax 0 (1 - 1)) with 0 by (unfold Rmax; destruct (Rle_dec 0 (1 - 1)); lra).
    replace (Rltb 0 0) with false by (symmetry; apply Rltb_ge; lra). reflexivity. }
  rewrite Es, !Rplus_0_r. pose proof (exp_pos (-1)). split; auto.
  replace (Rltb 0 (exp (-1))) with true by (symmetry; apply Rltb_lt; auto).
  replace (Rltb 0 0) with false by (symmetry; apply Rltb_ge; lra). rewrite ln_exp. lra.
Qed.
Print Assumptions C91_rescale_order_refuted.
Example C91_case : extremes [3; 1; 2] 1 3 /\ proper_errors [3; 1; 2] [(0, 0); (-1/2, 1/2); (0, 0)] /\ (1 < 3)%nat.
Proof.
  split; [split; [cbn; auto|]; split; [cbn; auto|]; intros v [<-|[<-|[<-|[]]]]; lra|].
  split; [split; [reflexivity|]; intros e [<-|[<-|[<-|[]]]]; cbn; lra|lia].
Qed.
