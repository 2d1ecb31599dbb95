(** Lower bounds of the six-hump camel function and of ex8_1_1. *)
From Coq Require Import List String ZArith QArith Reals Qreals Lra Lia Bool Psatz.
From Verif Require Import ModelBenchData ModelBench SpecBench BenchBase BenchPoly BenchPenalty BenchSearch
  BenchExp BenchLog BenchOpt BenchRefute BenchExtra.
Import ListNotations.
Open Scope R_scope.

(** For fixed [x] the quartic in [y] is bounded by completing squares around
    [y^2 = 1/2 + c |x|], which is tangent at the optimum; what is left is a
    polynomial in [|x|]. *)
Definition cc : R := 87700047 / 1000000000.
Definition aa : R := 89842013 / 1000000000.
Lemma camel_y : forall x y u, 0 < u -> (x = u \/ x = - u) ->
  - 4 * (1 / 2 + cc * u) ^ 2 - u / (32 * cc) <= x * y + (- 4 + 4 * y ^ 2) * y ^ 2.
Proof.
  intros x y u Hu Hx. assert (C0 : 0 < cc) by (unfold cc; lra).
  set (c := cc) in *. clearbody c.
  assert (E : x * y + (- 4 + 4 * y ^ 2) * y ^ 2 - (- 4 * (1 / 2 + c * u) ^ 2 - u / (32 * c))
    = 4 * (y ^ 2 - (1 / 2 + c * u)) ^ 2 + 8 * c * u * (y + x / (16 * c * u)) ^ 2).
  { destruct Hx as [-> | ->]; field; lra. }
  pose proof (pow2_ge_0 (y ^ 2 - (1 / 2 + c * u))). pose proof (pow2_ge_0 (y + x / (16 * c * u))) as Q.
  assert (0 <= 8 * c * u * (y + x / (16 * c * u)) ^ 2).
  { apply Rmult_le_pos; [|exact Q]. apply Rlt_le. repeat apply Rmult_lt_0_compat; lra. }
  lra.
Qed.
Lemma camel_q : forall u, 0 <= u <= 3 ->
  1 / 10 <= 3918 / 1000 - 377 / 1000 * u - 2092 / 1000 * u ^ 2 + 5989 / 100000 * u ^ 3 + 3333 / 10000 * u ^ 4.
Proof.
  intros u H.
  pose proof (pow2_ge_0 (u ^ 2 + 9 / 100 * u - 32 / 10)) as A. pose proof (pow2_ge_0 (u - 239/100)) as B.
  assert (C : u ^ 3 <= 27) by (assert (u ^ 2 <= 9) by nra; nra).
  assert (D : u ^ 4 <= 81) by (assert (u ^ 2 <= 9) by nra; nra).
  nra.
Qed.
Lemma camel_u : forall u, 0 <= u <= 3 ->
  - (10316284535 / 10000000000) <= 4 * u ^ 2 - 21 / 10 * u ^ 4 + u ^ 6 / 3 - 4 * (1 / 2 + cc * u) ^ 2 - u / (32 * cc).
Proof.
  intros u H. pose proof (camel_q u H) as Q.
  assert (Q' : 99 / 1000 <= (u ^ 4) / 3 + 2 * aa * u ^ 3 / 3 + (- (21 / 10) + aa ^ 2) * u ^ 2
     + (2 * aa * (- (21 / 10)) + 4 * aa ^ 3 / 3) * u + (4 - 4 * cc ^ 2 + 3 * aa ^ 2 * (- (21 / 10)) + 5 * aa ^ 4 / 3)).
  { assert (C : u ^ 3 <= 27) by (assert (u ^ 2 <= 9) by nra; nra).
    assert (C2 : u ^ 2 <= 9) by nra. assert (C3 : 0 <= u ^ 3) by (apply pow_le; lra).
    assert (C4 : 0 <= u ^ 4) by (apply pow_le; lra). assert (C5 : 0 <= u ^ 2) by nra.
    unfold aa, cc. lra. }
  match type of Q' with _ <= ?q => set (qq := q) in * end.
  assert (R : 99 / 1000 * (u - aa) ^ 2 <= (u - aa) ^ 2 * qq).
  { rewrite (Rmult_comm (99 / 1000)). apply Rmult_le_compat_l; [apply pow2_ge_0|exact Q']. }
  assert (E : 4 * u ^ 2 - 21 / 10 * u ^ 4 + u ^ 6 / 3 - 4 * (1 / 2 + cc * u) ^ 2 - u / (32 * cc) + 10316284535 / 10000000000
    = (u - aa) ^ 2 * qq
      + (2 * aa * (4 - 4 * cc ^ 2) - 4 * (21 / 10) * aa ^ 3 + 2 * aa ^ 5 - 4 * cc - 1 / (32 * cc)) * (u - aa)
      + (4 * aa ^ 2 - 21 / 10 * aa ^ 4 + aa ^ 6 / 3 - 4 * (1 / 2 + cc * aa) ^ 2 - aa / (32 * cc) + 10316284535 / 10000000000)).
  { unfold qq. unfold cc at 2 4 6 8. unfold cc. unfold aa. field. }
  set (al := 2 * aa * (4 - 4 * cc ^ 2) - 4 * (21 / 10) * aa ^ 3 + 2 * aa ^ 5 - 4 * cc - 1 / (32 * cc)) in *.
  set (be := 4 * aa ^ 2 - 21 / 10 * aa ^ 4 + aa ^ 6 / 3 - 4 * (1 / 2 + cc * aa) ^ 2 - aa / (32 * cc) + 10316284535 / 10000000000) in *.
  assert (Al : - (1 / 1000000000) <= al <= 1 / 1000000000) by (unfold al, aa, cc; split; lra).
  assert (Be : 1 / 100000000000 <= be) by (unfold be, aa, cc; lra).
  clearbody al be qq. set (d := u - aa) in *. clearbody d.
  assert (0 <= 99 / 1000 * d ^ 2 + al * d + be).
  { pose proof (pow2_ge_0 (99 / 1000 * d + al / 2)). assert (al ^ 2 <= 1 / 1000000000000000000) by nra. nra. }
  lra.
Qed.
Lemma low_camel : low camel (- (10316284535 / 10000000000)).
Proof.
  intros x H. eexists. split; [reflexivity|].
  bnd H 0%nat. bnd H 1%nat. set (a := x 0%nat) in *. set (b := x 1%nat) in *. clearbody a b. clear H.
  destruct (Req_dec a 0) as [->|N].
  - pose proof (pow2_ge_0 (2 * b ^ 2 - 1)). nra.
  - assert (A : 0 < Rabs a) by (apply Rabs_pos_lt, N).
    assert (A3 : Rabs a <= 3) by (apply Rabs_le; lra).
    assert (S1 : a = Rabs a \/ a = - Rabs a) by (unfold Rabs; destruct (Rcase_abs a); lra).
    pose proof (camel_y a b (Rabs a) A S1) as Y. pose proof (camel_u (Rabs a) ltac:(lra)) as U.
    assert (E2 : a ^ 2 = Rabs a ^ 2) by (symmetry; apply pow2_abs).
    replace ((4 - 21 / 10 * a ^ 2 + a ^ 4 / 3) * a ^ 2) with (4 * a ^ 2 - 21 / 10 * (a ^ 2) ^ 2 + (a ^ 2) ^ 3 / 3) by field.
    rewrite E2. set (u := Rabs a) in *.
    replace (4 * u ^ 2 - 21 / 10 * (u ^ 2) ^ 2 + (u ^ 2) ^ 3 / 3) with (4 * u ^ 2 - 21 / 10 * u ^ 4 + u ^ 6 / 3) by field.
    lra.
Qed.
Lemma at_camel : exists y, evaluate camel (optimum_point camel) = Some y /\ y <= - (10316284535 / 10000000000) + 1 / 10000000.
Proof.
  unfold evaluate, optimum_point. cbn [camel b_opt b_dim b_f map List.length Nat.eqb].
  unfold camel_f_eval. cbn [nth]. eexists. split; [reflexivity|]. unfold Q2R. cbn [Qnum Qden]. lra.
Qed.

(** * ex8_1_1 *)
Lemma sin_up : forall y, 0 <= y <= 1 -> sin y <= y - y ^ 3 / 6 + y ^ 5 / 120.
Proof.
  intros y H. pose proof (pre_sin_bound y 0 ltac:(lra) ltac:(lra)) as [_ U].
  unfold sin_approx, sin_term in U. change (2 * (0 + 1))%nat with 2%nat in U. cbn [sum_f_R0] in U.
  change (2 * 0 + 1)%nat with 1%nat in U. change (2 * 1 + 1)%nat with 3%nat in U. change (2 * 2 + 1)%nat with 5%nat in U.
  rewrite !INR_fact_S in U. change (fact 0) with 1%nat in U. rewrite !S_INR in U. cbn [INR pow] in U. cbn [pow]. lra.
Qed.
Lemma cos2_low : - (41614685 / 100000000) <= cos 2.
Proof.
  pose proof (pre_cos_bound 1 2 ltac:(lra) ltac:(lra)) as [H _].
  unfold cos_approx, cos_term in H. change (2 * 2 + 1)%nat with 5%nat in H. cbn [sum_f_R0] in H. rewrite !pow1 in H.
  repeat match type of H with context [fact (2 * ?k)] => let v := eval cbv in (2 * k)%nat in change (2 * k)%nat with v in H end.
  rewrite !INR_fact_S in H. change (fact 0) with 1%nat in H. rewrite !S_INR in H. cbn [INR pow] in H.
  assert (A : 54030230 / 100000000 + 3 / 1000000000 <= cos 1) by lra.
  replace 2 with (2 * 1) by ring. rewrite cos_2a_cos.
  assert ((54030230 / 100000000 + 3 / 1000000000) * (54030230 / 100000000 + 3 / 1000000000) <= cos 1 * cos 1) by nra. lra.
Qed.

Definition kk : R := 41614685 / 100000000.
Definition mm : R := 20218068 / 10000000.
Lemma ex8_y : forall y, 0 <= y <= 1 -> - mm <= - kk * (y - y ^ 3 / 6 + y ^ 5 / 120) - 2 / (y ^ 2 + 1).
Proof.
  intros y H.
  assert (P : 0 < y ^ 2 + 1) by nra.
  apply (Rmult_le_reg_r (y ^ 2 + 1)); [exact P|].
  replace ((- kk * (y - y ^ 3 / 6 + y ^ 5 / 120) - 2 / (y ^ 2 + 1)) * (y ^ 2 + 1))
    with (- kk * (y - y ^ 3 / 6 + y ^ 5 / 120) * (y ^ 2 + 1) - 2) by (field; lra).
  set (a := 5289 / 50000).
  set (q := (243593973514718783020612823276287 / 125000000000000000000000000000000) * y ^ 0 + (-1033738215037884244161784217 / 3000000000000000000000000000) * y ^ 1 + (348081310934497074949 / 25000000000000000000000) * y ^ 2 + (394641041941146469 / 6000000000000000000) * y ^ 3 + (-14673337931 / 20000000000000) * y ^ 4 + (-8322937 / 2400000000) * y ^ 5).
  assert (Q : 1 <= q).
  { assert (y ^ 2 <= 1) by nra. assert (0 <= y ^ 2) by nra. assert (0 <= y ^ 3) by (apply pow_le; lra).
    assert (y ^ 4 <= 1) by (rewrite <- (pow1 4); apply pow_incr; lra).
    assert (y ^ 5 <= 1) by (rewrite <- (pow1 5); apply pow_incr; lra).
    unfold q. lra. }
  assert (R : (y - a) ^ 2 * 1 <= (y - a) ^ 2 * q) by (apply Rmult_le_compat_l; [apply pow2_ge_0|exact Q]).
  assert (E : - kk * (y - y ^ 3 / 6 + y ^ 5 / 120) * (y ^ 2 + 1) - 2 - - mm * (y ^ 2 + 1)
    = (y - a) ^ 2 * q + (-166025211168141916533780447342133 / 12500000000000000000000000000000000000) * (y - a) + (9625483272325560340345637001065509 / 625000000000000000000000000000000000000000)).
  { unfold q, a, kk, mm. field. }
  clearbody q. set (d := y - a) in *. clearbody d. pose proof (pow2_ge_0 (d + (-166025211168141916533780447342133 / 12500000000000000000000000000000000000) / 2)). lra.
Qed.

Lemma x_plus_cos : forall x, 0 <= x <= PI / 2 -> x + cos x <= PI / 2.
Proof.
  intros x H. rewrite <- (sin_shift x). destruct (Req_dec x (PI / 2)) as [->|N].
  - replace (PI / 2 - PI / 2) with 0 by ring. rewrite sin_0. lra.
  - pose proof (sin_lt_x (PI / 2 - x) ltac:(lra)). lra.
Qed.
Lemma div_le : forall a p, 0 <= a -> 1 <= p -> a / p <= a.
Proof. intros a p Ha Hp. apply (Rmult_le_reg_r p); [lra|]. unfold Rdiv. rewrite Rmult_assoc, Rinv_l by lra. nra. Qed.
Lemma ex8_bound : forall a b, -1 <= a <= 2 -> -1 <= b <= 1 -> - mm <= cos a * sin b - a / (b ^ 2 + 1).
Proof.
  intros a b A B. pose proof PI_bounds as [P1 P2].
  pose proof (COS_bound a) as [C1 C2]. pose proof (SIN_bound b) as [S1 S2].
  assert (P : 1 <= b ^ 2 + 1) by nra. unfold mm.
  destruct (Rle_dec a 0) as [A0|A0].
  { (* a <= 0: the quotient helps *)
    assert (0 <= - a / (b ^ 2 + 1)).
    { unfold Rdiv. apply Rmult_le_pos; [lra|]. left. apply Rinv_0_lt_compat. lra. }
    replace (a / (b ^ 2 + 1)) with (- (- a / (b ^ 2 + 1))) by (field; lra). nra. }
  assert (D : a / (b ^ 2 + 1) <= a) by (apply div_le; lra).
  destruct (Rle_dec a (PI / 2)) as [A1|A1].
  { assert (0 <= cos a) by (apply cos_ge_0; lra). pose proof (x_plus_cos a ltac:(lra)). nra. }
  assert (Cn : cos a <= 0) by (apply cos_le_0; lra).
  destruct (Rle_dec b 0) as [B0|B0].
  { assert (sin b <= 0). { rewrite <- (Ropp_involutive b), sin_neg. pose proof (sin_ge_0 (- b) ltac:(lra) ltac:(lra)). lra. } nra. }
  assert (S0 : 0 <= sin b) by (apply sin_ge_0; lra).
  assert (C3 : - kk <= cos a).
  { unfold kk. eapply Rle_trans; [apply cos2_low|]. apply cos_decr_1; lra. }
  assert (D2 : a / (b ^ 2 + 1) <= 2 / (b ^ 2 + 1)).
  { unfold Rdiv. apply Rmult_le_compat_r; [|lra]. left. apply Rinv_0_lt_compat. lra. }
  pose proof (ex8_y b ltac:(lra)) as Y. unfold mm in Y. pose proof (sin_up b ltac:(lra)) as U.
  assert (K : 0 <= kk) by (unfold kk; lra).
  set (s := sin b) in *. set (w := b - b ^ 3 / 6 + b ^ 5 / 120) in *. set (d := 2 / (b ^ 2 + 1)) in *.
  clearbody s w d. nra.
Qed.
Lemma low_ex8_1_1 : low ex8_1_1 (- mm).
Proof.
  intros x H. cbn [b_f ex8_1_1]. unfold ex8_1_1_f_eval. rewrite guard_some.
  2:{ repeat constructor. apply holds_nonzero. nra. }
  eexists. split; [reflexivity|]. bnd H 0%nat. bnd H 1%nat. apply ex8_bound; lra.
Qed.
Lemma at_ex8_1_1 : exists y, evaluate ex8_1_1 (optimum_point ex8_1_1) = Some y /\ y <= - mm + 1 / 10000000.
Proof.
  unfold evaluate, optimum_point. cbn [ex8_1_1 b_opt b_dim b_f map List.length Nat.eqb].
  unfold ex8_1_1_f_eval. cbn [nth]. rewrite guard_some.
  2:{ repeat constructor. apply holds_nonzero. nra. }
  eexists. split; [reflexivity|].
  replace (Q2R 2) with 2 by (unfold Q2R; cbn; lra).
  replace (Q2R (105783 # 1000000)) with (105783 / 1000000) by (unfold Q2R; cbn; lra).
  set (b := 105783 / 1000000). assert (B : 0 <= b <= 1) by (unfold b; lra).
  assert (L : b - b ^ 3 / 6 <= sin b).
  { pose proof (pre_sin_bound b 0 ltac:(lra) ltac:(lra)) as [U _].
    unfold sin_approx, sin_term in U. change (2 * 0 + 1)%nat with 1%nat in U. cbn [sum_f_R0] in U.
    change (2 * 0 + 1)%nat with 1%nat in U. change (2 * 1 + 1)%nat with 3%nat in U.
    rewrite !INR_fact_S in U. change (fact 0) with 1%nat in U. rewrite !S_INR in U. cbn [INR pow] in U. cbn [pow]. lra. }
  pose proof cos2_up as C.
  assert (M : cos 2 * sin b <= -416146830 / 1000000000 * (b - b ^ 3 / 6)).
  { assert (0 <= b - b ^ 3 / 6) by (unfold b; lra). nra. }
  assert (D : 2 / (b ^ 2 + 1) * (b ^ 2 + 1) = 2) by (field; nra).
  set (d := 2 / (b ^ 2 + 1)) in *. set (t := cos 2 * sin b) in *. clearbody d t. unfold b, mm in *. clear b. lra.
Qed.
