(** * All global minimizers of branin and branin_cat. *)
From Verif Require Import SpecBench BenchBase BenchLog BenchExtra.
From Verif Require Export ModelOptima.
From Coq Require Import Reals Lra Lia ZArith List.
Import ListNotations.
Open Scope R_scope.

Lemma multiple x : sin x = 0 -> -5 <= x <= 12 -> exists k : Z, x = IZR k * PI /\ (-1 <= k <= 3)%Z.
Proof.
  intros H B. destruct (sin_eq_0_0 x H) as (k & E). exists k. split; [exact E|].
  pose proof PI_bounds as [A C]. subst x.
  split.
  - destruct (Z_le_gt_dec (-1) k) as [L|L]; [exact L|]. assert (k <= -2)%Z as L2 by lia. apply IZR_le in L2. nra.
  - destruct (Z_le_gt_dec k 3) as [L|L]; [exact L|]. assert (4 <= k)%Z as L2 by lia. apply IZR_le in L2. nra.
Qed.
Lemma sin_of_cos x : (cos x = -1 \/ cos x = 1) -> sin x = 0.
Proof.
  intros H. pose proof (sin2_cos2 x) as E. unfold Rsqr in E.
  assert (sin x * sin x = 0) by (destruct H as [H|H]; rewrite H in E; lra). apply Rmult_integral in H0. tauto.
Qed.
Lemma cos_2PI_0 : cos (2 * PI) = 1. Proof. apply cos_2PI. Qed.
Lemma cos_m1 x : -5 <= x <= 10 -> cos x = -1 -> x = - PI \/ x = PI \/ x = 3 * PI.
Proof.
  intros B H. destruct (multiple x (sin_of_cos x (or_introl H))) as (k & -> & K); [lra|].
  assert (D : (k = -1 \/ k = 0 \/ k = 1 \/ k = 2 \/ k = 3)%Z) by lia.
  destruct D as [->|[->|[->|[->| ->]]]].
  - left. lra.
  - rewrite Rmult_0_l, cos_0 in H. lra.
  - right; left. lra.
  - rewrite cos_2PI in H. lra.
  - right; right. lra.
Qed.
Lemma cos_3 : cos (3 * PI) = -1.
Proof. replace (3 * PI) with (PI + 2 * INR 1 * PI) by (cbn; ring). rewrite cos_period. apply cos_PI. Qed.
Lemma sin_m1 x : -5 <= x <= 10 -> sin x = -1 -> x = - (PI / 2) \/ x = 3 / 2 * PI.
Proof.
  intros B H. pose proof PI_bounds as [PA PB].
  assert (HC : cos (PI / 2 + x) = 1) by (rewrite <- sin_cos at 1 || idtac; pose proof (sin_cos x); lra).
  destruct (multiple (PI / 2 + x) (sin_of_cos _ (or_intror HC))) as (k & E & K); [lra|].
  rewrite E in HC. assert (D : (k = -1 \/ k = 0 \/ k = 1 \/ k = 2 \/ k = 3)%Z) by lia.
  destruct D as [->|[->|[->|[->| ->]]]].
  - replace (IZR (-1) * PI) with (- PI) in HC by lra. rewrite cos_neg, cos_PI in HC. lra.
  - left. lra.
  - rewrite Rmult_1_l, cos_PI in HC. lra.
  - right. lra.
  - rewrite cos_3 in HC. lra.
Qed.
Lemma sin_half : sin (- (PI / 2)) = -1 /\ sin (3 / 2 * PI) = -1.
Proof.
  split; [rewrite sin_neg, sin_PI2; reflexivity|].
  replace (3 / 2 * PI) with (PI / 2 + PI) by field. rewrite neg_sin, sin_PI2. reflexivity.
Qed.

(** The value is the minimum exactly when the square vanishes and the last factor is -1. *)
Lemma value_min s c : -1 <= c ->
  (s ^ 2 + 10 * (1 - 1 / (8 * PI)) * c + 10 = 5 / (4 * PI) <-> s = 0 /\ c = -1).
Proof.
  intros Hc. pose proof PI_bounds as [A B]. assert (P : 0 < PI) by lra.
  replace (5 / (4 * PI)) with (10 * (1 / (8 * PI))) by (field; lra).
  assert (I : 0 <= 1 / (8 * PI) <= 1 / 2).
  { assert (Z : 1 / (8 * PI) * PI = 1 / 8) by (field; lra). set (i := 1 / (8 * PI)) in *. clearbody i. split; nra. }
  set (i := 1 / (8 * PI)) in *. clearbody i. pose proof (pow2_ge_0 s) as S0. split.
  - intros H. assert (C : c = -1) by nra. split; [|exact C]. subst c.
    assert (S1 : s * s = 0) by nra. apply Rmult_integral in S1. tauto.
  - intros (-> & ->). nra.
Qed.
Definition curve (t : R) : R := 51 / 40 * t ^ 2 - 5 * t + 6.
Lemma square_zero x y : y - (51 / 10) / (4 * PI * PI) * x * x + 5 / PI * x - 6 = 0 <-> y = curve (x / PI).
Proof.
  pose proof PI_bounds as [A B]. unfold curve.
  assert (E : (51 / 10) / (4 * PI * PI) * x * x = 51 / 40 * (x / PI) ^ 2) by (field; lra).
  assert (F : 5 / PI * x = 5 * (x / PI)) by (field; lra). rewrite E, F. split; lra.
Qed.
