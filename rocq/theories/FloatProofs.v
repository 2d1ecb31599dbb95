(** * Proofs: domain scaling in double arithmetic *)
From Coq Require Import Reals Lra Lia.
From Flocq Require Import Core Plus_error Relative.
From Verif Require Export ModelFloat.
Open Scope R_scope.

Notation fe := (SpecFloat.fexp 53 1024).
Notation rnd := (round radix2 fe (round_mode mode_NE)).
Definition big := bpow radix2 1024.
Lemma fe_valid : Valid_exp fe.
Proof. apply fexp_correct. reflexivity. Qed.
Global Existing Instance fe_valid.
Lemma fe_mono : Monotone_exp fe.
Proof. apply fexp_monotone. Qed.
Global Existing Instance fe_mono.
Lemma fmt (x : b64) : generic_format radix2 fe (B2R x).
Proof. apply generic_format_B2R. Qed.
Lemma small (x : b64) : Rabs (B2R x) < big.
Proof. apply abs_B2R_lt_emax. Qed.
Lemma rnd_le x y : x <= y -> rnd x <= rnd y.
Proof. apply round_le; auto with typeclass_instances. Qed.
Lemma rnd_id (x : b64) : rnd (B2R x) = B2R x.
Proof. apply round_generic; [auto with typeclass_instances|apply fmt]. Qed.
Lemma rnd_0 : rnd 0 = 0.
Proof. apply round_0. auto with typeclass_instances. Qed.

Lemma leb_R (x y : b64) : is_finite x = true -> is_finite y = true -> (Bleb x y = true <-> B2R x <= B2R y).
Proof.
  intros Hx Hy. rewrite (Bleb_correct _ _ x y Hx Hy). destruct (Rle_bool_spec (B2R x) (B2R y)); split; try tauto; try discriminate; lra.
Qed.

(** Subtraction that does not overflow. *)
Lemma fsub_fin x y : is_finite x = true -> is_finite y = true -> is_finite (fsub x y) = true ->
  B2R (fsub x y) = rnd (B2R x - B2R y).
Proof.
  intros Hx Hy H. unfold fsub in *. pose proof (Bminus_correct 53 1024 _ _ mode_NE x y Hx Hy) as C.
  destruct (Rlt_bool _ _); [tauto|]. destruct C as (C & _).
  destruct (Bminus mode_NE x y); try discriminate H; cbn in C; discriminate C.
Qed.
Lemma fsub_inf x y : is_finite x = true -> is_finite y = true -> is_finite (fsub x y) = false ->
  exists s, fsub x y = B754_infinity s /\ Bsign x = s /\ Bsign y = negb s.
Proof.
  intros Hx Hy H. unfold fsub in *. pose proof (Bminus_correct 53 1024 _ _ mode_NE x y Hx Hy) as C.
  destruct (Rlt_bool _ _); [destruct C as (_ & C & _); congruence|]. destruct C as (C & S).
  exists (Bsign x). split; [|split; [reflexivity|rewrite S; now rewrite negb_involutive]].
  apply B2SF_inj. rewrite C. reflexivity.
Qed.
Lemma fsub_fits x y : is_finite x = true -> is_finite y = true -> Rabs (rnd (B2R x - B2R y)) < big -> is_finite (fsub x y) = true.
Proof.
  intros Hx Hy H. unfold fsub. pose proof (Bminus_correct 53 1024 _ _ mode_NE x y Hx Hy) as C.
  rewrite Rlt_bool_true in C by exact H. tauto.
Qed.
Lemma fmul_fits x y : is_finite x = true -> is_finite y = true -> Rabs (rnd (B2R x * B2R y)) < big ->
  is_finite (fmul x y) = true /\ B2R (fmul x y) = rnd (B2R x * B2R y).
Proof.
  intros Hx Hy H. unfold fmul. pose proof (Bmult_correct 53 1024 _ _ mode_NE x y) as C.
  rewrite Rlt_bool_true in C by exact H. rewrite Hx, Hy in C. tauto.
Qed.
Lemma fdiv_fits x y : is_finite x = true -> B2R y <> 0 -> Rabs (rnd (B2R x / B2R y)) < big ->
  is_finite (fdiv x y) = true /\ B2R (fdiv x y) = rnd (B2R x / B2R y).
Proof.
  intros Hx Hy H. unfold fdiv. pose proof (Bdiv_correct 53 1024 _ _ mode_NE x y Hy) as C.
  rewrite Rlt_bool_true in C by exact H. rewrite Hx in C. tauto.
Qed.
(** Addition of finite values: the rounded sum, or an overflow with the common sign. *)
Lemma fadd_cases x y : is_finite x = true -> is_finite y = true ->
  (is_finite (fadd x y) = true /\ B2R (fadd x y) = rnd (B2R x + B2R y) /\ Rabs (rnd (B2R x + B2R y)) < big) \/
  (big <= Rabs (rnd (B2R x + B2R y)) /\ fadd x y = B754_infinity (Bsign x) /\ Bsign x = Bsign y).
Proof.
  intros Hx Hy. unfold fadd. pose proof (Bplus_correct 53 1024 _ _ mode_NE x y Hx Hy) as C.
  destruct (Rlt_bool_spec (Rabs (rnd (B2R x + B2R y))) (bpow radix2 1024)) as [L|L].
  - left. tauto.
  - right. destruct C as (C & S). split; [exact L|]. split; [|exact S]. apply B2SF_inj. rewrite C. reflexivity.
Qed.
Lemma sign_pos (x : b64) : Bsign x = true -> is_finite x = true -> B2R x <= 0.
Proof.
  destruct x as [s|s| |s m e B]; cbn; intros; subst; try lra; try discriminate.
  apply Rlt_le. apply F2R_lt_0. reflexivity.
Qed.
Lemma sign_neg (x : b64) : Bsign x = false -> is_finite x = true -> 0 <= B2R x.
Proof.
  destruct x as [s|s| |s m e B]; cbn; intros; subst; try lra; try discriminate.
  apply Rlt_le. apply F2R_gt_0. reflexivity.
Qed.

Section Range.
  Variables lo up : b64.
  Hypothesis Flo : is_finite lo = true.
  Hypothesis Fup : is_finite up = true.
  Hypothesis Hle : B2R lo <= B2R up.
  Hypothesis FD : is_finite (fsub up lo) = true.
  Let D := fsub up lo.
  Lemma D_val : B2R D = rnd (B2R up - B2R lo).
  Proof. now apply fsub_fin. Qed.
  Lemma D_nonneg : 0 <= B2R D.
  Proof. rewrite D_val. rewrite <- rnd_0. apply rnd_le. lra. Qed.
  (** Product with a unit-cube coordinate. *)
  Lemma prod x : is_finite x = true -> 0 <= B2R x <= 1 ->
    is_finite (fmul x D) = true /\ B2R (fmul x D) = rnd (B2R x * B2R D) /\ 0 <= B2R (fmul x D) <= B2R D.
  Proof.
    intros Fx Hx. pose proof D_nonneg as ND.
    assert (B : 0 <= rnd (B2R x * B2R D) <= B2R D).
    { split; [rewrite <- rnd_0 at 1; apply rnd_le; apply Rmult_le_pos; lra|].
      rewrite <- (rnd_id D) at 2. apply rnd_le. nra. }
    destruct (fmul_fits x D Fx FD) as (A1 & A2); [rewrite Rabs_pos_eq by lra; pose proof (small D) as S; rewrite Rabs_pos_eq in S; lra|].
    rewrite A2. auto.
  Qed.
  Lemma low x : is_finite x = true -> 0 <= B2R x <= 1 -> B2R lo <= rnd (B2R (fmul x D) + B2R lo).
  Proof.
    intros Fx Hx. destruct (prod x Fx Hx) as (_ & _ & P & _). rewrite <- (rnd_id lo) at 1. apply rnd_le. lra.
  Qed.
  Lemma low_abs x : is_finite x = true -> 0 <= B2R x <= 1 -> big <= Rabs (rnd (B2R (fmul x D) + B2R lo)) ->
    big <= rnd (B2R (fmul x D) + B2R lo) /\ fadd (fmul x D) lo = finf.
  Proof.
    intros Fx Hx H. pose proof (low x Fx Hx) as L. pose proof (small lo) as S. apply Rabs_def2 in S.
    destruct (prod x Fx Hx) as (FP & _ & P).
    assert (H' : big <= rnd (B2R (fmul x D) + B2R lo)).
    { unfold Rabs in H. destruct (Rcase_abs _); [lra|exact H]. }
    split; [exact H'|]. destruct (fadd_cases (fmul x D) lo FP Flo) as [(_ & _ & C)|(_ & E & ES)].
    - lra.
    - rewrite E. unfold finf. f_equal. destruct (Bsign (fmul x D)) eqn:SG; [|reflexivity]. exfalso.
      pose proof (sign_pos _ SG FP). assert (B2R (fmul x D) = 0) as E0 by lra. rewrite E0, Rplus_0_l, rnd_id in H'. lra.
  Qed.
  (** The image: finite with its rounded value, or positive infinity. *)
  Lemma unscale_cases x : is_finite x = true -> 0 <= B2R x <= 1 ->
    (is_finite (unscale1 x lo up) = true /\ B2R (unscale1 x lo up) = rnd (B2R (fmul x D) + B2R lo)) \/
    (unscale1 x lo up = finf /\ big <= rnd (B2R (fmul x D) + B2R lo)).
  Proof.
    intros Fx Hx. destruct (prod x Fx Hx) as (FP & _ & P). unfold unscale1. fold D.
    destruct (fadd_cases (fmul x D) lo FP Flo) as [(A & B & _)|(O & _ & _)]; [left; auto|].
    right. destruct (low_abs x Fx Hx O). auto.
  Qed.
  Lemma unscale_mono x y : is_finite x = true -> is_finite y = true -> 0 <= B2R x -> B2R x <= B2R y -> B2R y <= 1 ->
    Bleb (unscale1 x lo up) (unscale1 y lo up) = true.
  Proof.
    intros Fx Fy H0 Hxy H1. assert (Hx : 0 <= B2R x <= 1) by lra. assert (Hy : 0 <= B2R y <= 1) by lra.
    pose proof D_nonneg as ND.
    destruct (prod x Fx Hx) as (FPx & Ex & Px). destruct (prod y Fy Hy) as (FPy & Ey & Py).
    assert (M : rnd (B2R (fmul x D) + B2R lo) <= rnd (B2R (fmul y D) + B2R lo)).
    { apply rnd_le. apply Rplus_le_compat_r. rewrite Ex, Ey. apply rnd_le. apply Rmult_le_compat_r; lra. }
    destruct (unscale_cases x Fx Hx) as [(A & B)|(A & B)]; destruct (unscale_cases y Fy Hy) as [(A' & B')|(A' & B')].
    - apply leb_R; auto. lra.
    - rewrite A'. destruct (unscale1 x lo up) as [s|s| |s m e Hb]; try reflexivity; discriminate A.
    - exfalso. pose proof (small (unscale1 y lo up)) as S. apply Rabs_def2 in S. lra.
    - rewrite A, A'. reflexivity.
  Qed.
  Lemma unscale_zero x : is_finite x = true -> B2R x = 0 ->
    is_finite (unscale1 x lo up) = true /\ B2R (unscale1 x lo up) = B2R lo.
  Proof.
    intros Fx H0. assert (Hx : 0 <= B2R x <= 1) by lra. destruct (prod x Fx Hx) as (_ & E & _).
    rewrite H0, Rmult_0_l, rnd_0 in E.
    destruct (unscale_cases x Fx Hx) as [(A & B)|(A & B)]; rewrite E, Rplus_0_l, rnd_id in B.
    - auto.
    - exfalso. pose proof (small lo) as S. apply Rabs_def2 in S. lra.
  Qed.
  Lemma unscale_low x : is_finite x = true -> 0 <= B2R x <= 1 -> Bleb lo (unscale1 x lo up) = true.
  Proof.
    intros Fx Hx. pose proof (low x Fx Hx) as L.
    destruct (unscale_cases x Fx Hx) as [(A & B)|(A & B)].
    - apply leb_R; auto. lra.
    - rewrite A. destruct lo as [s|s| |s m e Hb]; try reflexivity; discriminate Flo.
  Qed.
End Range.

(** Relative error of one rounded sum (no underflow term for sums). *)
Lemma fe_FLT : fe = FLT_exp (-1074) 53.
Proof. reflexivity. Qed.
Lemma sum_error (x y : R) : generic_format radix2 fe x -> generic_format radix2 fe y ->
  Rabs (rnd (x + y) - (x + y)) <= bpow radix2 (-53) * Rabs (x + y).
Proof.
  intros Hx Hy.
  destruct (FLT_plus_error_N_ex radix2 (-1074) 53 (fun z => negb (Z.even z)) x y Hx Hy) as (eps & He & E).
  change (round radix2 (FLT_exp (-1074) 53) (Znearest (fun z => negb (Z.even z))) (x + y)) with (rnd (x + y)) in E.
  rewrite E. replace ((x + y) * (1 + eps) - (x + y)) with ((x + y) * eps) by ring. rewrite Rabs_mult, Rmult_comm.
  apply Rmult_le_compat_r; [apply Rabs_pos|]. eapply Rle_trans; [exact He|].
  unfold u_ro. set (u := / 2 * bpow radix2 (- (53) + 1)). assert (U : u = bpow radix2 (-53)).
  { unfold u. change (/2) with (bpow radix2 (-1)). rewrite <- bpow_plus. reflexivity. }
  rewrite U. pose proof (bpow_gt_0 radix2 (-53)) as G. 
  apply Rmult_le_reg_r with (1 + bpow radix2 (-53)); [lra|]. unfold Rdiv. rewrite Rmult_assoc, Rinv_l by lra. nra.
Qed.
Lemma unscale_corner_error lo up : is_finite lo = true -> is_finite up = true -> B2R lo <= B2R up -> is_finite (fsub up lo) = true ->
  is_finite (unscale1 f1 lo up) = true ->
  Rabs (B2R (unscale1 f1 lo up) - B2R up) <= bpow radix2 (-52) * (Rabs (B2R up) + (B2R up - B2R lo)).
Proof.
  intros Flo Fup Hle FD FF. assert (F1 : is_finite f1 = true) by reflexivity. assert (E1 : B2R f1 = 1) by apply Bone_correct.
  assert (H1 : 0 <= B2R f1 <= 1) by lra.
  destruct (prod lo up Flo Fup Hle FD f1 F1 H1) as (_ & EP & _). rewrite E1, Rmult_1_l, rnd_id in EP.
  destruct (unscale_cases lo up Flo Fup Hle FD f1 F1 H1) as [(_ & EV)|(X & _)]; [|rewrite X in FF; discriminate].
  rewrite EP in EV. pose proof (D_val lo up Flo Fup FD) as ED. rewrite EV.
  pose proof (sum_error (B2R up) (- B2R lo) (fmt up) (generic_format_opp _ _ _ (fmt lo))) as S1.
  change (B2R up + - B2R lo) with (B2R up - B2R lo) in S1. rewrite <- ED in S1.
  pose proof (sum_error (B2R (fsub up lo)) (B2R lo) (fmt _) (fmt lo)) as S2.
  set (d := B2R (fsub up lo)) in *. set (u := B2R up) in *. set (l := B2R lo) in *. set (r := rnd (d + l)) in *.
  rewrite (Rabs_pos_eq (u - l)) in S1 by lra. 
  replace (bpow radix2 (-52)) with (2 * bpow radix2 (-53)) by (change 2 with (bpow radix2 1); rewrite <- bpow_plus; reflexivity).
  pose proof (bpow_gt_0 radix2 (-53)) as G. assert (G1 : bpow radix2 (-53) <= 1) by (change 1 with (bpow radix2 0); apply bpow_le; lia).
  set (e := bpow radix2 (-53)) in *.
  assert (T : Rabs (d + l) <= Rabs u + e * (u - l)).
  { replace (d + l) with (u + (d - (u - l))) by ring. eapply Rle_trans; [apply Rabs_triang|]. lra. }
  assert (T2 : Rabs (r - u) <= Rabs (r - (d + l)) + Rabs (d - (u - l))).
  { replace (r - u) with ((r - (d + l)) + (d - (u - l))) by ring. apply Rabs_triang. }
  pose proof (Rabs_pos u) as PU. assert (0 <= u - l) by lra.
  assert (S3 : e * Rabs (d + l) <= e * (Rabs u + e * (u - l))) by (apply Rmult_le_compat_l; lra).
  assert (S4 : e * (e * (u - l)) <= 1 * (e * (u - l))) by (apply Rmult_le_compat_r; [apply Rmult_le_pos; lra|lra]).
  assert (0 <= e * Rabs u) by (apply Rmult_le_pos; lra). lra.
Qed.

(** Overflow of the range. *)
Lemma unscale_overflow x lo up : is_finite x = true -> is_finite lo = true -> is_finite up = true ->
  is_finite (fsub up lo) = false -> is_finite (unscale1 x lo up) = false.
Proof.
  intros Fx Flo Fup H. destruct (fsub_inf up lo Fup Flo H) as (s & E & _). unfold unscale1. rewrite E.
  destruct x as [sx|sx| |sx mx ex Bx]; try discriminate Fx; cbn.
  - reflexivity.
  - destruct lo as [sl|sl| |sl ml el Bl]; try discriminate Flo; reflexivity.
Qed.

(** Forward direction. *)
Lemma diff_zero lo up : is_finite lo = true -> is_finite up = true -> is_finite (fsub up lo) = true ->
  (Beqb (fsub up lo) f0 = true <-> B2R up = B2R lo).
Proof.
  intros Flo Fup FD. rewrite (Beqb_correct _ _ (fsub up lo) f0 FD eq_refl). cbn [f0 B2R].
  rewrite (fsub_fin up lo Fup Flo FD). destruct (Req_bool_spec (rnd (B2R up - B2R lo)) 0) as [E|E].
  - split; [intros _|reflexivity]. destruct (Req_dec (B2R up) (B2R lo)) as [Q|Q]; [exact Q|exfalso].
    revert E. apply (round_plus_neq_0 radix2 fe (round_mode mode_NE)); [apply fmt|apply generic_format_opp, fmt|lra].
  - split; [discriminate|]. intros Q. exfalso. apply E. rewrite Q, Rminus_diag_eq by reflexivity. apply rnd_0.
Qed.
Lemma scale_unit lo up p : is_finite lo = true -> is_finite up = true -> is_finite p = true -> is_finite (fsub up lo) = true ->
  B2R lo <= B2R p <= B2R up ->
  is_finite (scale1 p lo up) = true /\ 0 <= B2R (scale1 p lo up) <= 1 /\
  (B2R p = B2R lo -> B2R (scale1 p lo up) = 0) /\
  (B2R p = B2R up -> B2R lo < B2R up -> B2R (scale1 p lo up) = 1).
Proof.
  intros Flo Fup Fp FD Hp.
  assert (N0 : 0 <= rnd (B2R p - B2R lo)) by (rewrite <- rnd_0; apply rnd_le; lra).
  assert (N1 : rnd (B2R p - B2R lo) <= rnd (B2R up - B2R lo)) by (apply rnd_le; lra).
  assert (FP : is_finite (fsub p lo) = true).
  { apply fsub_fits; auto. rewrite Rabs_pos_eq by exact N0. pose proof (small (fsub up lo)) as S.
    rewrite (fsub_fin up lo Fup Flo FD) in S. rewrite Rabs_pos_eq in S; lra. }
  pose proof (fsub_fin p lo Fp Flo FP) as EP. pose proof (fsub_fin up lo Fup Flo FD) as ED.
  assert (E1 : B2R f1 = 1) by apply Bone_correct.
  assert (B1 : 1 < big) by (unfold big; change 1 with (bpow radix2 0); apply bpow_lt; lia).
  assert (R1 : rnd 1 = 1) by (rewrite <- E1; apply rnd_id).
  unfold scale1. cbv zeta. destruct (Beqb (fsub up lo) f0) eqn:Z.
  - apply diff_zero in Z; auto. assert (E : B2R p - B2R lo = 0) by lra. rewrite E, rnd_0 in EP.
    assert (Q : B2R (fsub p lo) / B2R f1 = 0) by (rewrite EP; unfold Rdiv; ring).
    destruct (fdiv_fits (fsub p lo) f1 FP) as (A1 & A2); [rewrite E1; lra|rewrite Q, rnd_0, Rabs_R0; lra|].
    rewrite A2, Q, rnd_0. split; [exact A1|]. split; [lra|]. split; [reflexivity|intros; lra].
  - assert (NE : B2R up <> B2R lo) by (intros E; apply diff_zero in E; auto; congruence).
    assert (DP : 0 < B2R (fsub up lo)).
    { assert (B2R (fsub up lo) <> 0); [|rewrite ED in *; lra]. rewrite ED.
      apply (round_plus_neq_0 radix2 fe (round_mode mode_NE)); [apply fmt|apply generic_format_opp, fmt|lra]. }
    rewrite <- EP in N0, N1. rewrite <- ED in N1.
    set (a := B2R (fsub p lo)) in *. set (b := B2R (fsub up lo)) in *.
    assert (IB : 0 < / b) by now apply Rinv_0_lt_compat.
    assert (Q : 0 <= a / b <= 1).
    { split; [apply Rmult_le_pos; lra|]. apply Rmult_le_reg_r with b; [exact DP|]. unfold Rdiv. rewrite Rmult_assoc, Rinv_l by lra. lra. }
    assert (RQ : 0 <= rnd (a / b) <= 1) by (split; [rewrite <- rnd_0; apply rnd_le; lra|rewrite <- R1; apply rnd_le; lra]).
    destruct (fdiv_fits (fsub p lo) (fsub up lo) FP) as (A1 & A2); [fold b; lra|fold a b; rewrite Rabs_pos_eq; lra|].
    assert (A3 : B2R (fdiv (fsub p lo) (fsub up lo)) = rnd (a / b)) by exact A2. rewrite A3. clearbody a b. split; [exact A1|]. split; [exact RQ|]. split.
    + intros E. assert (Ea : a = 0) by (rewrite EP, E, Rminus_diag_eq by reflexivity; apply rnd_0).
      rewrite Ea. unfold Rdiv. rewrite Rmult_0_l. apply rnd_0.
    + intros E _. assert (Ea : a = b) by (rewrite EP, ED, E; reflexivity).
      rewrite Ea. unfold Rdiv. rewrite Rinv_r by lra. exact R1.
Qed.
