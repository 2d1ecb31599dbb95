(** * Proofs: the stopping test and proposed points in double arithmetic *)
From Coq Require Import Reals Lra Lia.
From Flocq Require Import Core Plus_error Relative.
From Verif Require Export FloatProofs NanProofs ModelFloatRun.
Open Scope R_scope.

(** ** Rounding with overflow *)
Definition rext (r : R) : ext := if Rlt_bool (Rabs (rnd r)) big then Fin (rnd r) else if Rlt_bool 0 r then PInf else MInf.
Lemma big_pos : 0 < big.
Proof. apply bpow_gt_0. Qed.
Lemma rnd_sign r : (0 <= r -> 0 <= rnd r) /\ (r <= 0 -> rnd r <= 0).
Proof. split; intros H; rewrite <- rnd_0; apply rnd_le; exact H. Qed.
Lemma rext_mono r s : r <= s -> ele (rext r) (rext s).
Proof.
  intros H. pose proof (rnd_le r s H) as L. destruct (rnd_sign r) as [R1 R2]. destruct (rnd_sign s) as [S1 S2]. pose proof big_pos as B.
  unfold rext. destruct (Rlt_bool_spec (Rabs (rnd r)) big) as [A|A]; destruct (Rlt_bool_spec (Rabs (rnd s)) big) as [A'|A'].
  - exact L.
  - destruct (Rlt_bool_spec 0 s); [exact I|]. exfalso. apply Rabs_def2 in A. unfold Rabs in A'. destruct (Rcase_abs (rnd s)); lra.
  - destruct (Rlt_bool_spec 0 r); [|exact I]. exfalso. apply Rabs_def2 in A'. unfold Rabs in A. destruct (Rcase_abs (rnd r)); lra.
  - destruct (Rlt_bool_spec 0 r); [|exact I]. rewrite Rlt_bool_true by lra. exact I.
Qed.
Lemma fin_ext (x : b64) : is_finite x = true -> ext_of x = Fin (B2R x) /\ is_nan x = false.
Proof. destruct x as [|[|]| |]; intros H; try discriminate H; auto. Qed.
Lemma fsub_ext x y : is_finite x = true -> is_finite y = true -> is_nan (fsub x y) = false /\ ext_of (fsub x y) = rext (B2R x - B2R y).
Proof.
  intros Hx Hy. unfold fsub, rext. pose proof (Bminus_correct 53 1024 _ _ mode_NE x y Hx Hy) as C. unfold big.
  destruct (Rlt_bool_spec (Rabs (rnd (B2R x - B2R y))) (bpow radix2 1024)) as [L|L].
  - destruct C as (C1 & C2 & _). destruct (fin_ext _ C2) as (E1 & E2). rewrite E1, C1. auto.
  - destruct C as (C & S). assert (E : Bminus mode_NE x y = B754_infinity (Bsign x)) by (apply B2SF_inj; rewrite C; reflexivity).
    rewrite E. split; [reflexivity|]. pose proof big_pos as BP. unfold big in BP.
    assert (NZ : B2R x - B2R y <> 0). { intros Z. rewrite Z, rnd_0, Rabs_R0 in L. lra. }
    destruct (Bsign x) eqn:SX; symmetry in S.
    + pose proof (sign_pos x SX Hx). apply (f_equal negb) in S. rewrite negb_involutive in S. pose proof (sign_neg y S Hy). rewrite Rlt_bool_false by lra. reflexivity.
    + pose proof (sign_neg x SX Hx). apply (f_equal negb) in S. rewrite negb_involutive in S. pose proof (sign_pos y S Hy). rewrite Rlt_bool_true by lra. reflexivity.
Qed.
Lemma pos_sign (y : b64) : 0 < B2R y -> Bsign y = false /\ is_finite y = true.
Proof.
  intros H. destruct y as [s|s| |s m e B]; cbn in H; try lra. destruct s; [|auto]. exfalso.
  pose proof (F2R_lt_0 radix2 (Float radix2 (Z.neg m) e) ltac:(reflexivity)). cbn in *. lra.
Qed.
Lemma fdiv_ext x y : is_finite x = true -> 0 < B2R y -> is_nan (fdiv x y) = false /\ ext_of (fdiv x y) = rext (B2R x / B2R y).
Proof.
  intros Hx Hy. destruct (pos_sign y Hy) as (SY & FY). unfold fdiv, rext.
  pose proof (Bdiv_correct 53 1024 _ _ mode_NE x y ltac:(lra)) as C. unfold big.
  destruct (Rlt_bool_spec (Rabs (rnd (B2R x / B2R y))) (bpow radix2 1024)) as [L|L].
  - destruct C as (C1 & C2 & _). rewrite Hx in C2. destruct (fin_ext _ C2) as (E1 & E2). rewrite E1, C1. auto.
  - rewrite SY, xorb_false_r in C. assert (E : Bdiv mode_NE x y = B754_infinity (Bsign x)) by (apply B2SF_inj; rewrite C; reflexivity).
    rewrite E. split; [reflexivity|]. pose proof big_pos as BP. unfold big in BP. pose proof (Rinv_0_lt_compat _ Hy) as IP.
    assert (NZ : B2R x <> 0). { intros Z. rewrite Z in L. unfold Rdiv in L. rewrite Rmult_0_l, rnd_0, Rabs_R0 in L. lra. }
    destruct (Bsign x) eqn:SX.
    + pose proof (sign_pos x SX Hx). rewrite Rlt_bool_false; [reflexivity|]. unfold Rdiv. nra.
    + pose proof (sign_neg x SX Hx). rewrite Rlt_bool_true; [reflexivity|]. unfold Rdiv. nra.
Qed.
Lemma inf_sub s y : is_finite y = true -> fsub (B754_infinity s) y = B754_infinity s.
Proof. destruct y as [a|a| |a m e B]; intros H; try discriminate H; destruct s; reflexivity. Qed.
Lemma inf_div s y : 0 < B2R y -> fdiv (B754_infinity s) y = B754_infinity s.
Proof. intros H. destruct (pos_sign y H) as (A & _). destruct y as [a|a| |a m e B]; cbn in H; try lra. cbn in A. subst a. unfold fdiv. cbn. now rewrite xorb_false_r. Qed.

(** Subtraction of a finite number and division by a positive one keep the order. *)
Lemma not_nan_cases (x : b64) : is_nan x = false -> is_finite x = true \/ exists s, x = B754_infinity s.
Proof. destruct x as [|s| |]; intros H; try discriminate H; auto. right. eauto. Qed.
Lemma sub_mono x x' y : Bleb x x' = true -> is_finite y = true -> Bleb (fsub x y) (fsub x' y) = true.
Proof.
  intros H Hy. destruct (leb_real x x' H) as (N & N'). apply leb_ext in H; auto.
  destruct (not_nan_cases x N) as [F|(s & ->)]; destruct (not_nan_cases x' N') as [F'|(s' & ->)].
  - destruct (fsub_ext x y F Hy) as (A1 & A2). destruct (fsub_ext x' y F' Hy) as (B1 & B2). apply leb_ext; auto. rewrite A2, B2. apply rext_mono.
    destruct (fin_ext x F) as (-> & _) in H. destruct (fin_ext x' F') as (E & _). rewrite E in H. cbn in H. lra.
  - rewrite inf_sub by exact Hy. destruct (fsub_ext x y F Hy) as (A1 & A2). apply leb_ext; auto.
    destruct s'; [destruct (fin_ext x F) as (E & _); rewrite E in H; destruct H|]. cbn. destruct (ext_of (fsub x y)); exact I.
  - rewrite inf_sub by exact Hy. destruct (fsub_ext x' y F' Hy) as (A1 & A2). apply leb_ext; auto.
    destruct s; [exact I|]. destruct (fin_ext x' F') as (E & _); rewrite E in H; destruct H.
  - rewrite !inf_sub by exact Hy. apply leb_ext; auto.
Qed.
Lemma div_mono x x' y : Bleb x x' = true -> 0 < B2R y -> Bleb (fdiv x y) (fdiv x' y) = true.
Proof.
  intros H Hy. destruct (leb_real x x' H) as (N & N'). apply leb_ext in H; auto.
  destruct (not_nan_cases x N) as [F|(s & ->)]; destruct (not_nan_cases x' N') as [F'|(s' & ->)].
  - destruct (fdiv_ext x y F Hy) as (A1 & A2). destruct (fdiv_ext x' y F' Hy) as (B1 & B2). apply leb_ext; auto. rewrite A2, B2. apply rext_mono.
    destruct (fin_ext x F) as (E0 & _). destruct (fin_ext x' F') as (E & _). rewrite E0, E in H. cbn in H.
    unfold Rdiv. apply Rmult_le_compat_r; [apply Rlt_le, Rinv_0_lt_compat; exact Hy|exact H].
  - rewrite inf_div by exact Hy. destruct (fdiv_ext x y F Hy) as (A1 & A2). apply leb_ext; auto.
    destruct s'; [destruct (fin_ext x F) as (E & _); rewrite E in H; destruct H|]. cbn. destruct (ext_of (fdiv x y)); exact I.
  - rewrite inf_div by exact Hy. destruct (fdiv_ext x' y F' Hy) as (A1 & A2). apply leb_ext; auto.
    destruct s; [exact I|]. destruct (fin_ext x' F') as (E & _); rewrite E in H; destruct H.
  - rewrite !inf_div by exact Hy. apply leb_ext; auto.
Qed.

(** ** The gap *)
Lemma abs_R (t : b64) : B2R (Babs t) = Rabs (B2R t).
Proof. apply B2R_Babs. Qed.
Lemma den_pos t e : is_finite t = true -> Bltb f0 e = true -> 0 < B2R (gap_den t e) /\ is_finite (gap_den t e) = true.
Proof.
  intros Ft He. unfold gap_den. destruct (Bleb e (Babs t)) eqn:E.
  - assert (FA : is_finite (Babs t) = true) by (rewrite is_finite_Babs; exact Ft). split; [|exact FA].
    destruct (leb_real _ _ E) as (NE & NA). assert (N0 : is_nan f0 = false) by reflexivity.
    rewrite ltb_leb in He by assumption. apply negb_true_iff in He.
    destruct (Rlt_le_dec 0 (B2R (Babs t))) as [X|X]; [exact X|exfalso].
    assert (Z : Bleb (Babs t) f0 = true) by (apply leb_R; auto). rewrite (leb_trans _ _ _ E Z) in He. discriminate.
  - assert (E1 : B2R f1 = 1) by apply Bone_correct. rewrite E1. split; [lra|reflexivity].
Qed.
Lemma gap_mono t e f g : is_finite t = true -> Bltb f0 e = true -> Bleb f g = true -> Bleb (fgap t e f) (fgap t e g) = true.
Proof. intros Ft He H. unfold fgap. apply div_mono; [apply sub_mono; assumption|]. apply den_pos; assumption. Qed.
Lemma gap_at_target t e : is_finite t = true -> Bltb f0 e = true -> fgap t e t = f0 \/ Beqb (fgap t e t) f0 = true.
Proof.
  intros Ft He. right. destruct (den_pos t e Ft He) as (P & F). destruct (fsub_ext t t Ft Ft) as (A1 & A2).
  replace (B2R t - B2R t) with 0 in A2 by ring. unfold rext in A2. rewrite rnd_0, Rabs_R0, Rlt_bool_true in A2 by apply big_pos.
  assert (FS : is_finite (fsub t t) = true /\ B2R (fsub t t) = 0).
  { destruct (not_nan_cases _ A1) as [X|(s & X)].
    - split; [exact X|]. destruct (fin_ext _ X) as (E & _). rewrite E in A2. congruence.
    - rewrite X in A2. destruct s; discriminate. }
  destruct FS as (FS & V). destruct (fdiv_fits (fsub t t) (gap_den t e) FS ltac:(lra)) as (B1 & B2).
  { rewrite V. unfold Rdiv. rewrite Rmult_0_l, rnd_0, Rabs_R0. apply big_pos. }
  unfold fgap. rewrite (Beqb_correct 53 1024 _ f0 B1 eq_refl), B2, V. unfold Rdiv. rewrite Rmult_0_l, rnd_0. now apply Req_bool_true.
Qed.
Lemma goes_on_needs t e o f : Bltb f0 e = true -> Bleb f0 o = true -> gap_goes_on t e o f = true ->
  is_finite t = true /\ is_nan f = false /\ Bltb t f = true.
Proof.
  intros He Ho H. unfold gap_goes_on in H.
  assert (NG : is_nan (fgap t e f) = false).
  { destruct (is_nan (fgap t e f)) eqn:E; [|reflexivity]. rewrite nan_ltb in H by tauto. discriminate. }
  assert (NF : is_nan f = false).
  { destruct f; try reflexivity. exfalso. unfold fgap in NG. unfold fsub, fdiv in NG. cbn in NG. destruct (gap_den t e) as [|[|]| |[|]]; discriminate. }
  assert (FT : is_finite t = true).
  { destruct t as [|s| |]; try reflexivity; exfalso; unfold fgap in NG.
    - assert (D : gap_den (B754_infinity s) e = B754_infinity false).
      { unfold gap_den. change (Babs (B754_infinity s : b64)) with finf. rewrite leb_pinf; [reflexivity|]. destruct e; try reflexivity. rewrite nan_ltb in He by (right; reflexivity). discriminate. }
      rewrite D in NG. destruct f as [a|a| |a m x B]; try discriminate NF; destruct s; try discriminate NG; destruct a; discriminate NG.
    - destruct f as [a|a| |a m x B]; try discriminate NF; unfold fsub in NG; cbn in NG; destruct (gap_den B754_nan e) as [|[|]| |[|]]; discriminate NG. }
  split; [exact FT|]. split; [exact NF|].
  assert (NT : is_nan t = false) by apply (fin_ext t FT).
  rewrite ltb_leb by assumption. apply negb_true_iff. destruct (Bleb f t) eqn:E; [|reflexivity]. exfalso.
  pose proof (gap_mono t e f t FT He E) as M. destruct (gap_at_target t e FT He) as [Z|Z].
  - rewrite Z in M. pose proof (leb_trans _ _ _ M Ho) as X. destruct (leb_real _ _ X). rewrite ltb_leb in H by assumption. rewrite X in H. discriminate.
  - assert (M0 : Bleb (fgap t e t) f0 = true).
    { destruct (leb_real _ _ M) as (_ & N2). apply leb_ext; [exact N2|reflexivity|]. destruct (not_nan_cases _ N2) as [X|(s & X)].
      - rewrite (Beqb_correct 53 1024 _ f0 X eq_refl) in Z. destruct (fin_ext _ X) as (-> & _). cbn. destruct (Req_bool_spec (B2R (fgap t e t)) (B2R f0)); [cbn in *; lra|discriminate].
      - rewrite X in Z. destruct s; discriminate. }
    pose proof (leb_trans _ _ _ (leb_trans _ _ _ M M0) Ho) as X. destruct (leb_real _ _ X). rewrite ltb_leb in H by assumption. rewrite X in H. discriminate.
Qed.

(** Accuracy: the test agrees with the exact one up to relative errors of 2^-53 and the underflow threshold. *)
Notation u53 := (bpow radix2 (-53)).
Notation eta := (bpow radix2 (-1075)).
Lemma u53_pos : 0 < u53 < 1.
Proof. split; [apply bpow_gt_0|]. change 1 with (bpow radix2 0). apply bpow_lt. reflexivity. Qed.
Lemma eta_pos : 0 < eta.
Proof. apply bpow_gt_0. Qed.
Lemma rnd_error r : 0 <= r -> r * (1 - u53) - eta <= rnd r <= r * (1 + u53) + eta.
Proof.
  intros Hr. destruct (error_N_FLT radix2 (-1074) 53 ltac:(reflexivity) (fun z => negb (Z.even z)) r) as (e & h & E1 & E2 & _ & E4).
  change (round radix2 (FLT_exp (-1074) 53) (Znearest (fun z => negb (Z.even z))) r) with (rnd r) in E4. rewrite E4.
  replace (/ 2 * bpow radix2 (- (53) + 1)) with u53 in E1 by (change (/ 2) with (bpow radix2 (-1)); rewrite <- bpow_plus; reflexivity).
  replace (/ 2 * bpow radix2 (-1074)) with eta in E2 by (change (/ 2) with (bpow radix2 (-1)); rewrite <- bpow_plus; reflexivity).
  apply Rabs_le_inv in E1, E2. nra.
Qed.
Lemma sub_error (x y : b64) : 0 <= B2R x - B2R y ->
  (B2R x - B2R y) * (1 - u53) <= rnd (B2R x - B2R y) <= (B2R x - B2R y) * (1 + u53).
Proof.
  intros H. pose proof (sum_error (B2R x) (- B2R y) (fmt x) (generic_format_opp _ _ _ (fmt y))) as E.
  change (B2R x + - B2R y) with (B2R x - B2R y) in E. rewrite (Rabs_pos_eq (B2R x - B2R y)) in E by exact H. apply Rabs_le_inv in E. lra.
Qed.
Lemma rext_pos r : 0 <= r -> (rext r = Fin (rnd r) /\ rnd r < big) \/ (rext r = PInf /\ big <= rnd r).
Proof.
  intros H. destruct (rnd_sign r) as [A _]. specialize (A H). unfold rext. rewrite Rabs_pos_eq by exact A.
  destruct (Rlt_bool_spec (rnd r) big) as [L|L]; [left; auto|right]. split; [|exact L].
  rewrite Rlt_bool_true; [reflexivity|]. destruct H as [H|H]; [exact H|]. rewrite <- H, rnd_0 in L. pose proof big_pos. lra.
Qed.
Lemma ext_fin (x : b64) r : is_nan x = false -> ext_of x = Fin r -> is_finite x = true /\ B2R x = r.
Proof.
  intros N E. destruct (not_nan_cases x N) as [F|(s & ->)]; [|destruct s; discriminate E].
  split; [exact F|]. destruct (fin_ext x F) as (E1 & _). rewrite E1 in E. congruence.
Qed.
Lemma ext_pinf (x : b64) : is_nan x = false -> ext_of x = PInf -> x = finf.
Proof.
  intros N E. destruct (not_nan_cases x N) as [F|(s & ->)]; [destruct (fin_ext x F) as (E1 & _); rewrite E1 in E; discriminate|].
  destruct s; [discriminate|reflexivity].
Qed.
Lemma gap_accuracy t e o f : is_finite t = true -> is_finite f = true -> Bltb f0 e = true -> is_finite o = true -> 0 <= B2R o <= 1 ->
  let D := B2R (gap_den t e) in
  (gap_goes_on t e o f = true -> D * (B2R o - eta) < (B2R f - B2R t) * ((1 + u53) * (1 + u53))) /\
  (gap_goes_on t e o f = false -> (B2R f - B2R t) * ((1 - u53) * (1 - u53)) <= D * (B2R o + eta)).
Proof.
  intros Ft Ff He Fo Ho. cbv zeta. destruct (den_pos t e Ft He) as (DP & DF). set (D := gap_den t e) in *.
  pose proof u53_pos as U. pose proof eta_pos as ET. pose proof big_pos as BP.
  assert (B1 : 1 < big) by (change 1 with (bpow radix2 0); apply bpow_lt; reflexivity).
  destruct (Rlt_le_dec (B2R t) (B2R f)) as [L|L].
  2: { split.
    - intros H. exfalso. destruct (goes_on_needs t e o f He) as (_ & _ & X); [apply leb_R; auto; cbn; lra|exact H|].
      rewrite (Bltb_correct _ _ t f Ft Ff) in X. destruct (Rlt_bool_spec (B2R t) (B2R f)); [lra|discriminate].
    - intros _. apply Rle_trans with 0; [|apply Rmult_le_pos; lra].
      assert (0 <= (1 - u53) * (1 - u53)) by (apply Rmult_le_pos; lra). nra. }
  set (z := B2R f - B2R t). assert (Z : 0 < z) by (unfold z; lra).
  destruct (fsub_ext f t Ff Ft) as (S1 & S2). fold z in S2. pose proof (sub_error f t ltac:(lra)) as SE. fold z in SE.
  unfold gap_goes_on, fgap. fold D. pose proof (small D) as DS. rewrite Rabs_pos_eq in DS by lra.
  destruct (rext_pos z ltac:(lra)) as [(E & LB)|(E & LB)]; rewrite E in S2.
  - destruct (ext_fin _ _ S1 S2) as (FS & VS). destruct (fdiv_ext (fsub f t) D FS DP) as (G1 & G2). rewrite VS in G2.
    pose proof (Rinv_0_lt_compat _ DP) as IP. set (q := rnd z / B2R D) in *.
    assert (Q0 : 0 <= q) by (unfold q, Rdiv; destruct (rnd_sign z) as [A _]; specialize (A ltac:(lra)); nra).
    assert (QD : q * B2R D = rnd z) by (unfold q; field; lra).
    pose proof (rnd_error q Q0) as RE.
    destruct (rext_pos q Q0) as [(E' & LB')|(E' & LB')]; rewrite E' in G2.
    + destruct (ext_fin _ _ G1 G2) as (FG & VG). rewrite (Bltb_correct _ _ o _ Fo FG), VG. split; intros H.
      * destruct (Rlt_bool_spec (B2R o) (rnd q)) as [X|X]; [|discriminate].
        assert (Y : B2R o - eta < q * (1 + u53)) by lra.
        apply Rlt_le_trans with (B2R D * (q * (1 + u53))); [apply Rmult_lt_compat_l; assumption|].
        replace (B2R D * (q * (1 + u53))) with (rnd z * (1 + u53)) by (rewrite <- QD; ring). nra.
      * destruct (Rlt_bool_spec (B2R o) (rnd q)) as [X|X]; [discriminate|].
        assert (Y : q * (1 - u53) <= B2R o + eta) by lra.
        apply Rle_trans with (B2R D * (q * (1 - u53))); [|apply Rmult_le_compat_l; lra].
        replace (B2R D * (q * (1 - u53))) with (rnd z * (1 - u53)) by (rewrite <- QD; ring). nra.
    + rewrite (ext_pinf _ G1 G2). split; intros H.
      * assert (Y : B2R o - eta < q * (1 + u53)) by lra.
        apply Rlt_le_trans with (B2R D * (q * (1 + u53))); [apply Rmult_lt_compat_l; assumption|].
        replace (B2R D * (q * (1 + u53))) with (rnd z * (1 + u53)) by (rewrite <- QD; ring). nra.
      * exfalso. destruct o as [|[|]| |[|]]; try discriminate Fo; discriminate H.
  - rewrite (ext_pinf _ S1 S2). unfold finf. rewrite inf_div by exact DP. split; intros H.
    + assert (A1 : z * (1 + u53) <= z * ((1 + u53) * (1 + u53))).
      { apply Rmult_le_compat_l; [lra|]. rewrite <- (Rmult_1_r (1 + u53)) at 1. apply Rmult_le_compat_l; lra. }
      assert (A2 : B2R D * (B2R o - eta) <= B2R D * 1) by (apply Rmult_le_compat_l; lra). lra.
    + exfalso. destruct o as [|[|]| |[|]]; try discriminate Fo; discriminate H.
Qed.

(** ** Clipping and rounding *)
Lemma clip_box lo up x : Bleb lo up = true -> is_nan x = false -> Bleb lo (fclip lo up x) = true /\ Bleb (fclip lo up x) up = true.
Proof.
  intros H N. destruct (leb_real _ _ H) as (N1 & N2). unfold fclip. rewrite N. cbv zeta.
  match goal with |- context [if Bltb ?a up then _ else _] => set (y := a) end. assert (Y : is_nan y = false /\ Bleb lo y = true).
  { unfold y. destruct (Bltb lo x) eqn:E; [split; [exact N|]|split; [exact N1|apply leb_refl; exact N1]].
    rewrite ltb_leb in E by assumption. apply negb_true_iff in E. apply leb_total; assumption. }
  destruct Y as (Y1 & Y2). destruct (Bltb y up) eqn:E; [|split; [exact H|apply leb_refl; exact N2]].
  split; [exact Y2|]. rewrite ltb_leb in E by assumption. apply negb_true_iff in E. apply leb_total; assumption.
Qed.
Lemma clip_inside lo up x : Bleb lo x = true -> Bleb x up = true -> fclip lo up x = x \/ Beqb (fclip lo up x) x = true.
Proof.
  intros H1 H2. destruct (leb_real _ _ H1) as (N1 & N). destruct (leb_real _ _ H2) as (_ & N2). right. unfold fclip. rewrite N. cbv zeta.
  assert (EQ : forall a b : b64, Bleb a b = true -> Bleb b a = true -> Beqb a b = true).
  { intros a b A B. unfold Bleb, SpecFloat.SFleb, Beqb, SpecFloat.SFeqb in *. pose proof (Bcompare_swap 53 1024 a b) as S. unfold Bcompare in S. rewrite S in B.
    destruct (SpecFloat.SFcompare (B2SF a) (B2SF b)) as [[]|]; try discriminate; reflexivity. }
  rewrite (ltb_leb lo x) by assumption. destruct (Bleb x lo) eqn:E1; cbn [negb].
  - rewrite (ltb_leb lo up) by assumption. destruct (Bleb up lo) eqn:E2; cbn [negb]; apply EQ; try assumption. eapply leb_trans; eauto.
  - rewrite (ltb_leb x up) by assumption. destruct (Bleb up x) eqn:E2; cbn [negb]; apply EQ; try assumption; apply leb_refl; exact N.
Qed.
Definition whole (x : b64) : Prop := is_finite x = true /\ exists z : Z, B2R x = IZR z.
Lemma FIX_int md r : exists z, round radix2 (FIX_exp 0) (round_mode md) r = IZR z.
Proof.
  exists (round_mode md (scaled_mantissa radix2 (FIX_exp 0) r)). unfold round, F2R. cbn [Fnum Fexp]. unfold cexp, FIX_exp. cbn. lra.
Qed.
Lemma FIX_val md r : round radix2 (FIX_exp 0) (round_mode md) r = IZR (round_mode md r).
Proof.
  unfold round, F2R, scaled_mantissa, cexp, FIX_exp. cbn. rewrite !Rmult_1_r. reflexivity.
Qed.
Lemma nearby md x : is_finite x = true -> is_finite (Bnearbyint md x : b64) = true /\ B2R (Bnearbyint md x : b64) = IZR (round_mode md (B2R x)).
Proof.
  intros F. destruct (Bnearbyint_correct 53 1024 _ md x) as (A & B & _). rewrite B, A, FIX_val. auto.
Qed.
Lemma nearby_mono md x y : is_finite x = true -> is_finite y = true -> B2R x <= B2R y -> B2R (Bnearbyint md x : b64) <= B2R (Bnearbyint md y : b64).
Proof.
  intros Fx Fy H. destruct (nearby md x Fx) as (_ & ->). destruct (nearby md y Fy) as (_ & ->). apply IZR_le. apply Zrnd_le; [auto with typeclass_instances|exact H].
Qed.
Lemma nearby_whole md x : whole x -> B2R (Bnearbyint md x : b64) = B2R x.
Proof.
  intros (F & z & E). destruct (nearby md x F) as (_ & ->). rewrite E. rewrite Zrnd_IZR; [reflexivity|auto with typeclass_instances].
Qed.
Lemma rint_spec x : is_finite x = true -> whole (frint x) /\ Rabs (B2R (frint x) - B2R x) <= / 2 /\
  (forall lo up, whole lo -> whole up -> Bleb lo x = true -> Bleb x up = true -> Bleb lo (frint x) = true /\ Bleb (frint x) up = true).
Proof.
  intros F. destruct (nearby mode_NE x F) as (A & B). split; [split; [exact A|eauto]|]. split.
  - unfold frint. rewrite B. cbn [round_mode]. rewrite Rabs_minus_sym. apply Znearest_half.
  - intros lo up Wl Wu Hl Hu. pose proof Wl as (Fl & _). pose proof Wu as (Fu & _). apply leb_R in Hl, Hu; auto.
    split; apply leb_R; auto; unfold frint.
    + rewrite <- (nearby_whole mode_NE lo Wl). apply nearby_mono; auto.
    + rewrite <- (nearby_whole mode_NE up Wu). apply nearby_mono; auto.
Qed.
Lemma floor_spec x : is_finite x = true -> whole (ffloor x) /\ B2R x - 1 < B2R (ffloor x) <= B2R x.
Proof.
  intros F. destruct (nearby mode_DN x F) as (A & B). split; [split; [exact A|eauto]|]. unfold ffloor. rewrite B. cbn [round_mode].
  pose proof (Zfloor_lb (B2R x)). pose proof (Zfloor_ub (B2R x)). lra.
Qed.
Lemma ceil_spec x : is_finite x = true -> whole (fceil x) /\ B2R x <= B2R (fceil x) < B2R x + 1.
Proof.
  intros F. destruct (nearby mode_UP x F) as (A & B). split; [split; [exact A|eauto]|]. unfold fceil. rewrite B. cbn [round_mode].
  pose proof (Zceil_ub (B2R x)). pose proof (Zceil_lb (B2R x)). lra.
Qed.
Lemma clip_whole lo up x : whole lo -> whole up -> Bleb lo up = true -> (is_finite x = true -> whole x) -> is_nan x = false -> whole (fclip lo up x).
Proof.
  intros Wl Wu H Wx N. destruct (not_nan_cases x N) as [F|(s & ->)].
  - specialize (Wx F). unfold fclip. rewrite N. cbv zeta. destruct (Bltb lo x); [destruct (Bltb x up)|destruct (Bltb lo up)]; assumption.
  - destruct s; unfold fclip; cbn [is_nan]; cbv zeta.
    + assert (E : Bltb lo (B754_infinity true) = false) by (destruct Wl as (Fl & _); destruct lo as [|[|]| |[|]]; try discriminate Fl; reflexivity).
      rewrite E. destruct (Bltb lo up); assumption.
    + assert (E : Bltb lo (B754_infinity false) = true) by (destruct Wl as (Fl & _); destruct lo as [|[|]| |[|]]; try discriminate Fl; reflexivity).
      rewrite E. assert (E' : Bltb (B754_infinity false) up = false) by (destruct Wu as (Fl & _); destruct up as [|[|]| |[|]]; try discriminate Fl; reflexivity).
      rewrite E'. exact Wu.
Qed.
