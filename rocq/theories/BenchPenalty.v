(** Benchmark functions with penalised constraints, and the finite ones. *)
From Coq Require Import List String ZArith QArith Reals Qreals Lra Lia Bool Psatz.
From Verif Require Import ModelBenchData ModelBench SpecBench BenchBase BenchPoly.
Import ListNotations.
Open Scope R_scope.

Ltac hide_max :=
  match goal with |- context [Rmax 0 ?e] =>
    let m := fresh "m" in
    pose proof (Rmax0 e); pose proof (Rmaxr e); set (m := Rmax 0 e) in *; clearbody m end.

Lemma low_nvs06 : low nvs06 (17703125/10000000).
Proof.
  intros x H. cbn [b_f nvs06]. unfold nvs06_f_eval.
  int H 0%nat a. int H 1%nat b. clear H x.
  assert (A1 := IZR_le _ _ La). assert (B1 := IZR_le _ _ Lb).
  assert (NA : IZR a ^ 2 <> 0) by nra.
  assert (NB : (IZR a * IZR b) ^ 4 <> 0).
  { apply pow_nonzero. nra. }
  rewrite guard_some by (repeat constructor; apply holds_nonzero; assumption).
  eexists. split; [reflexivity|].
  assert (T2 : 0 <= (1 + IZR b ^ 2) / IZR a ^ 2).
  { apply Rmult_le_pos; [nra|]. left. apply Rinv_0_lt_compat. nra. }
  assert (T3 : 0 <= (100 + IZR a ^ 2 * IZR b ^ 2) / (IZR a * IZR b) ^ 4).
  { apply Rmult_le_pos; [nra|]. left. apply Rinv_0_lt_compat. apply pow_lt. nra. }
  assert (C : (a = 1 \/ a = 2 \/ 3 <= a)%Z) by lia. destruct C as [C|[C|C]].
  - subst a. assert (D : (b = 1 \/ b = 2 \/ 3 <= b)%Z) by lia. destruct D as [D|[D|D]].
    + subst b. lra.
    + subst b. lra.
    + apply IZR_le in D. assert ((1 + IZR b ^ 2) / 1 ^ 2 = 1 + IZR b ^ 2) by field. nra.
  - subst a. assert (D : (b = 1 \/ b = 2 \/ 3 <= b)%Z) by lia. destruct D as [D|[D|D]].
    + subst b. lra.
    + subst b. lra.
    + apply IZR_le in D. assert ((1 + IZR b ^ 2) / 2 ^ 2 = (1 + IZR b ^ 2) / 4) by field. nra.
  - apply IZR_le in C. nra.
Qed.

Lemma low_nvs07_cat : low nvs07_cat 2.
Proof.
  intros x H. cbn [b_f nvs07_cat]. unfold nvs07_cat_f_eval.
  int H 0%nat a. int H 1%nat b. int H 2%nat c. int H 3%nat k. clear H x.
  rewrite guard_some.
  2:{ repeat constructor. apply holds_oneof.
      assert (D : (k = 2 \/ k = 3 \/ k = 4)%Z) by lia. destruct D as [D|[D|D]]; subst; reflexivity. }
  eexists. split; [reflexivity|].
  assert (A1 := IZR_le _ _ La). assert (B1 := IZR_le _ _ Lb). assert (C1 := IZR_le _ _ Lc).
  assert (D : (k = 2 \/ k = 3 \/ k = 4)%Z) by lia. destruct D as [D|[D|D]]; subst k.
  - rewrite !pick_hit.
    assert (-1 <= (IZR b - 1) ^ 3).
    { replace ((IZR b - 1) ^ 3) with (IZR b * ((IZR b - 3/2)^2 + 3/4) - 1) by field.
      assert (0 <= IZR b * ((IZR b - 3/2)^2 + 3/4)); [|lra].
      apply Rmult_le_pos; [assumption|]. pose proof (pow2_ge_0 (IZR b - 3/2)). lra. }
    do 2 hide_max.
    assert (D : (4 <= a + 5 * c \/ (c = 0 /\ a <= 3))%Z) by lia. destruct D as [D|[D1 D2]].
    + apply IZR_le in D. rewrite plus_IZR, mult_IZR in D. lra.
    + subst c. apply IZR_le in D2. nra.
  - rewrite !pick_miss, !pick_hit by lia.
    assert (1 <= exp (IZR b / 50)).
    { assert (Hb : 0 <= IZR b / 50) by lra. destruct Hb as [Hb|Hb].
      - left. rewrite <- exp_0. apply exp_increasing. exact Hb.
      - rewrite <- Hb, exp_0. lra. }
    do 2 hide_max. lra.
  - rewrite !pick_miss, !pick_hit by lia.
    assert (0 <= IZR b ^ 2) by apply pow2_ge_0.
    do 2 hide_max.
    assert (D : (2 <= a + 5 * c \/ (c = 0 /\ a <= 1))%Z) by lia. destruct D as [D|[D1 D2]].
    + apply IZR_le in D. rewrite plus_IZR, mult_IZR in D. lra.
    + subst c. apply IZR_le in D2. nra.
Qed.

Lemma low_nvs02 : low nvs02 (592239325641/100000000000).
Proof.
  intros x H. cbn [b_f nvs02]. unfold nvs02_f_eval.
  int H 0%nat a. int H 1%nat b. int H 2%nat c. int H 3%nat d. int H 4%nat e. clear H x.
  assert (A1 := IZR_le _ _ La). assert (B1 := IZR_le _ _ Lb). assert (C1 := IZR_le _ _ Lc).
  assert (D1 := IZR_le _ _ Ld). assert (E1 := IZR_le _ _ Le).
  assert (D2 := IZR_le _ _ Ud). assert (E2 := IZR_le _ _ Ue).
  rewrite guard_some by (repeat constructor; apply holds_nonneg; assumption).
  eexists. split; [reflexivity|].
  do 6 hide_max.
  assert (S0 := sqrt_pos (IZR c)).
  assert (0 <= IZR a * IZR e) by nra.
  assert (C : (1 <= a \/ a = 0)%Z) by lia. destruct C as [C|C].
  - apply IZR_le in C. lra.
  - subst a. assert (C : (9 <= c \/ c <= 8)%Z) by lia. destruct C as [C|C]; apply IZR_le in C.
    + assert (3 <= sqrt (IZR c)).
      { rewrite <- (sqrt_square 3) by lra. apply sqrt_le_1_alt. lra. }
      lra.
    + assert (IZR c * IZR e <= 8 * 200) by nra.
      assert (IZR c * IZR d <= 8 * 200) by nra. lra.
Qed.

Lemma low_nvs14 : low nvs14 (-403581547693/10000000).
Proof.
  intros x H. cbn [b_f nvs14]. unfold nvs14_f_eval.
  int H 0%nat a. int H 1%nat b. int H 2%nat c. int H 3%nat d. int H 4%nat e. clear H x.
  assert (A1 := IZR_le _ _ La). assert (B1 := IZR_le _ _ Lb). assert (C1 := IZR_le _ _ Lc).
  assert (D1 := IZR_le _ _ Ld). assert (E1 := IZR_le _ _ Le).
  assert (D2 := IZR_le _ _ Ud). assert (E2 := IZR_le _ _ Ue).
  eexists. split; [reflexivity|].
  do 6 hide_max.
  assert (0 <= IZR a * IZR e) by nra.
  assert (C : (9 <= c \/ c <= 8)%Z) by lia. destruct C as [C|C]; apply IZR_le in C.
  - assert (81 <= IZR c ^ 2) by nra. lra.
  - assert (IZR c * IZR e <= IZR c * 200) by nra.
    assert (IZR c * IZR d <= IZR c * 200) by nra.
    assert (IZR a * IZR c <= IZR a * 8) by nra.
    assert (0 <= (8 - IZR c) * (8 - IZR c)) by nra. lra.
Qed.

Ltac bit k := let C := fresh in assert (C : (k = 0 \/ k = 1)%Z) by lia; destruct C; subst k.

Lemma low_st_miqp1 : low st_miqp1 281.
Proof.
  intros x H. cbn [b_f st_miqp1]. unfold st_miqp1_f_eval.
  int H 0%nat a. int H 1%nat b. int H 2%nat c. int H 3%nat d. int H 4%nat e. clear H x.
  eexists. split; [reflexivity|]. hide_max.
  bit a; bit b; bit c; bit d; bit e; lra.
Qed.

Lemma low_st_test1 : low st_test1 0.
Proof.
  intros x H. cbn [b_f st_test1]. unfold st_test1_f_eval.
  int H 0%nat a. int H 1%nat b. int H 2%nat c. int H 3%nat d. int H 4%nat e. clear H x.
  eexists. split; [reflexivity|]. hide_max.
  bit a; bit b; bit c; bit d; bit e; lra.
Qed.

Lemma low_st_miqp1_cat : low st_miqp1_cat 186.
Proof.
  intros x H. cbn [b_f st_miqp1_cat]. unfold st_miqp1_cat_f_eval. cbn [rsum Nat.add].
  int H 0%nat k. int H 1%nat a. int H 2%nat b. int H 3%nat c. int H 4%nat d. int H 5%nat e.
  rewrite guard_some by (repeat constructor; apply holds_index; lia).
  eexists. split; [reflexivity|].
  rewrite row_IZR.
  assert (C : (k = 0 \/ k = 1 \/ k = 2 \/ k = 3 \/ k = 4 \/ k = 5)%Z) by lia.
  destruct C as [C|[C|[C|[C|[C|C]]]]]; subst k;
  (match goal with |- context [nth (Z.to_nat ?k) ?t ?d] =>
     let r := eval vm_compute in (nth (Z.to_nat k) t d) in change (nth (Z.to_nat k) t d) with r end);
  hide_max; unfold entry, last_entry, Q2R in *; cbn in *;
  bit a; bit b; bit c; bit d; bit e; lra.
Qed.
