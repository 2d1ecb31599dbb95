(** Benchmark functions whose minimum is found by algebra. *)
From Coq Require Import List String ZArith QArith Reals Qreals Lra Lia Bool Psatz.
From Verif Require Import ModelBenchData ModelBench SpecBench BenchBase.
Import ListNotations.
Open Scope R_scope.

Lemma low_goldsteinprice : low goldsteinprice 3.
Proof.
  intros x H. unfold b_f, goldsteinprice, goldsteinprice_f_eval. eexists. split; [reflexivity|].
  set (a := x 0%nat). set (b := x 1%nat).
  set (u := a + b). set (v := 2 * a - 3 * b).
  replace (19 - 14 * a + 3 * a ^ 2 - 14 * b + 6 * a * b + 3 * b ^ 2) with (3 * u ^ 2 - 14 * u + 19)
    by (unfold u; ring).
  replace (18 - 32 * a + 12 * a ^ 2 + 48 * b - 36 * a * b + 27 * b ^ 2) with (3 * v ^ 2 - 16 * v + 18)
    by (unfold v; ring).
  clearbody u v. clear a b H.
  assert (P0 : 0 <= (u + 1) ^ 2 * (3 * u ^ 2 - 14 * u + 19)).
  { apply Rmult_le_pos; [apply pow2_ge_0|]. pose proof (pow2_ge_0 (u - 7/3)). lra. }
  assert (Q0 : 0 <= (v - 3) ^ 2 * (3 * v ^ 2 + 2 * v + 3)).
  { apply Rmult_le_pos; [apply pow2_ge_0|]. pose proof (pow2_ge_0 (v + 1/3)). lra. }
  assert (E : 30 + v ^ 2 * (3 * v ^ 2 - 16 * v + 18) = 3 + (v - 3) ^ 2 * (3 * v ^ 2 + 2 * v + 3)) by ring.
  rewrite E. nra.
Qed.

Lemma low_ex8_1_4 : low ex8_1_4 0.
Proof.
  intros x H. eexists. split; [reflexivity|].
  set (a := x 0%nat). set (b := x 1%nat).
  replace (12 * a ^ 2 - 63 / 10 * a ^ 4 + a ^ 6 - 6 * a * b + 6 * b ^ 2)
    with (6 * (b - a / 2) ^ 2 + a ^ 2 * ((a ^ 2 - 63 / 20) ^ 2 + (105/10 - (63/20)^2))) by field.
  assert (0 <= (b - a / 2) ^ 2) by apply pow2_ge_0.
  assert (0 <= a ^ 2) by apply pow2_ge_0.
  assert (0 <= (a ^ 2 - 63 / 20) ^ 2) by apply pow2_ge_0.
  assert (0 <= a ^ 2 * ((a ^ 2 - 63 / 20) ^ 2 + (105/10 - (63/20)^2))) by (apply Rmult_le_pos; lra).
  lra.
Qed.

Lemma low_rbrock : low rbrock 0.
Proof.
  intros x H. eexists. split; [reflexivity|].
  set (a := x 0%nat). set (b := x 1%nat).
  assert (0 <= (b - a ^ 2) ^ 2) by apply pow2_ge_0.
  assert (0 <= (1 - a) ^ 2) by apply pow2_ge_0. lra.
Qed.

Lemma rsum_nonneg : forall n f, (forall i, (i < n)%nat -> 0 <= f i) -> 0 <= rsum n f.
Proof.
  induction n; intros f H; cbn; [lra|].
  assert (0 <= rsum n f) by (apply IHn; intros; apply H; lia).
  assert (0 <= f n) by (apply H; lia). lra.
Qed.

Lemma rsum_ext : forall n f g, (forall i, (i < n)%nat -> f i = g i) -> rsum n f = rsum n g.
Proof.
  induction n; intros f g H; cbn; [reflexivity|].
  rewrite (IHn f g), (H n); [reflexivity|lia|]. intros; apply H; lia.
Qed.

Lemma rsum_zero : forall n f, (forall i, (i < n)%nat -> f i = 0) -> rsum n f = 0.
Proof.
  induction n; intros f H; cbn; [reflexivity|].
  rewrite IHn, H; [ring|lia|]. intros; apply H; lia.
Qed.

Lemma low_perm_6 : low perm_6 1000.
Proof.
  intros x H. eexists. split; [reflexivity|].
  match goal with |- _ <= ?s + 1000 => assert (0 <= s) end; [|lra].
  apply rsum_nonneg. intros. apply pow2_ge_0.
Qed.

Lemma low_perm0_8 : low perm0_8 1000.
Proof.
  intros x H. eexists. split; [reflexivity|].
  match goal with |- _ <= ?s + 1000 => assert (0 <= s) end; [|lra].
  apply rsum_nonneg. intros. apply pow2_ge_0.
Qed.

Lemma low_gear : low gear 0.
Proof.
  intros x H. cbn [b_f gear]. unfold gear_f_eval. rewrite guard_some.
  - eexists. split; [reflexivity|]. apply pow2_ge_0.
  - repeat constructor. apply holds_nonzero. bnd H 2%nat. bnd H 3%nat. nra.
Qed.

Lemma low_nvs03 : low nvs03 16.
Proof.
  intros x H. cbn [b_f nvs03]. unfold nvs03_f_eval. eexists. split; [reflexivity|].
  int H 0%nat a. int H 1%nat b.
  pose proof (Rmax0 (- (- (1 / 10) * IZR a ^ 2 + IZR b))).
  pose proof (Rmaxr (- (- (1 / 10) * IZR a ^ 2 + IZR b))).
  pose proof (Rmax0 (- (- (333333333333333 / 1000000000000000) * IZR a - IZR b + 45 / 10))).
  pose proof (Rmaxr (- (- (333333333333333 / 1000000000000000) * IZR a - IZR b + 45 / 10))).
  set (m1 := Rmax _ _) in *. set (m2 := Rmax _ _) in *.
  assert (0 <= (-2 + IZR b) ^ 2) by apply pow2_ge_0.
  assert (C : (a <= 4 \/ a = 5 \/ 6 <= a)%Z) by lia. destruct C as [C|[C|C]].
  - apply IZR_le in C. assert (0 <= (IZR a - 4) * (IZR a - 12)) by nra. nra.
  - subst a. assert (D : (b <= 2 \/ 3 <= b)%Z) by lia. destruct D as [D|D]; apply IZR_le in D; nra.
  - apply IZR_le in C. assert (0 <= (-8 + IZR a) ^ 2) by apply pow2_ge_0. nra.
Qed.

Lemma low_nvs04 : low nvs04 (72/100).
Proof.
  intros x H. cbn [b_f nvs04]. unfold nvs04_f_eval. eexists. split; [reflexivity|].
  int H 0%nat a. int H 1%nat b.
  assert (C : (a = 0 \/ a = 1 \/ 2 <= a)%Z) by lia. destruct C as [C|[C|C]].
  - subst a. apply IZR_le in Lb. nra.
  - subst a. assert (D : (b <= 2 \/ 3 <= b)%Z) by lia. destruct D as [D|D]; apply IZR_le in D; nra.
  - apply IZR_le in C.
    assert (0 <= (5 / 10 + IZR b - (6 / 10 + IZR a) ^ 2) ^ 2) by apply pow2_ge_0. nra.
Qed.

Lemma low_nvs07 : low nvs07 4.
Proof.
  intros x H. cbn [b_f nvs07]. unfold nvs07_f_eval. eexists. split; [reflexivity|].
  int H 0%nat a. int H 1%nat b. int H 2%nat c.
  assert (0 <= IZR b ^ 2) by apply pow2_ge_0.
  match goal with |- context [Rmax 0 (- (?e1 - 10))] =>
    pose proof (Rmax0 (- (e1 - 10))); pose proof (Rmaxr (- (e1 - 10))); set (m1 := Rmax 0 (- (e1 - 10))) in * end.
  match goal with |- context [Rmax 0 ?e] => pose proof (Rmax0 e); set (m2 := Rmax 0 e) in * end.
  assert (D : (4 <= a + 5 * c \/ (c = 0 /\ a <= 3))%Z) by lia. destruct D as [D|[D1 D2]].
  - apply IZR_le in D. rewrite plus_IZR, mult_IZR in D. lra.
  - subst c. apply IZR_le in D2, La. nra.
Qed.

Lemma low_nvs15 : low nvs15 1.
Proof.
  intros x H. cbn [b_f nvs15]. unfold nvs15_f_eval. eexists. split; [reflexivity|].
  int H 0%nat a. int H 1%nat b. int H 2%nat c.
  match goal with |- context [Rmax 0 ?e] =>
    pose proof (Rmax0 e); pose proof (Rmaxr e); set (m1 := Rmax 0 e) in * end.
  assert (E : 2 * IZR a ^ 2 - 8 * IZR a + 2 * IZR b ^ 2 - 6 * IZR b + IZR c ^ 2 - 4 * IZR c +
    2 * IZR a * IZR b + 2 * IZR a * IZR c + 9 =
    IZR ((a + c - 2) ^ 2 + (a + b - 2) ^ 2 + (b - 1) ^ 2)).
  { rewrite !plus_IZR. rewrite !Z.pow_2_r, !mult_IZR, !minus_IZR, !plus_IZR. ring. }
  rewrite E.
  assert (D : (1 <= (a + c - 2) ^ 2 + (a + b - 2) ^ 2 + (b - 1) ^ 2 \/ (a = 1 /\ b = 1 /\ c = 1))%Z) by nia.
  destruct D as [D|(D1 & D2 & D3)].
  - apply IZR_le in D. lra.
  - subst. cbn. lra.
Qed.

Lemma low_nvs16 : low nvs16 (703125/1000000).
Proof.
  intros x H. cbn [b_f nvs16]. unfold nvs16_f_eval. eexists. split; [reflexivity|].
  int H 0%nat a. int H 1%nat b.
  assert (C : (b = 0 \/ b = 1 \/ 2 <= b)%Z) by lia. destruct C as [C|[C|C]].
  - subst b. assert (D : (a <= 2 \/ 3 <= a)%Z) by lia. destruct D as [D|D]; apply IZR_le in D; apply IZR_le in La; nra.
  - subst b. nra.
  - apply IZR_le in C, La.
    assert (0 <= (225 / 100 - IZR a * (1 - IZR b ^ 2)) ^ 2) by apply pow2_ge_0.
    assert (0 <= (2625 / 1000 - IZR a * (1 - IZR b ^ 3)) ^ 2) by apply pow2_ge_0.
    assert (15/10 <= 15 / 10 - IZR a * (1 - IZR b)) by nra. nra.
Qed.

Lemma low_prob03 : low prob03 10.
Proof.
  intros x H. cbn [b_f prob03]. unfold prob03_f_eval. eexists. split; [reflexivity|].
  int H 0%nat a. int H 1%nat b.
  match goal with |- context [Rmax 0 ?e] =>
    pose proof (Rmax0 e); pose proof (Rmaxr e); set (m1 := Rmax 0 e) in * end.
  assert (C : (a = 1 \/ 2 <= a)%Z) by lia. assert (D : (b = 1 \/ b=2 \/ b=3 \/ 4 <= b)%Z) by lia.
  destruct C as [C|C]; destruct D as [D|[D|[D|D]]]; try (subst a); try (subst b);
    try apply IZR_le in C; try apply IZR_le in D; nra.
Qed.

Lemma low_st_miqp3 : low st_miqp3 (-6).
Proof.
  intros x H. cbn [b_f st_miqp3]. unfold st_miqp3_f_eval. eexists. split; [reflexivity|].
  int H 0%nat a. int H 1%nat b.
  match goal with |- context [Rmax 0 ?e] =>
    pose proof (Rmax0 e); pose proof (Rmaxr e); set (m1 := Rmax 0 e) in * end.
  apply IZR_le in Lb.
  assert (C : (a = 0 \/ a = 1 \/ a = 2 \/ a = 3)%Z) by lia.
  destruct C as [C|[C|[C|C]]]; subst a; lra.
Qed.
