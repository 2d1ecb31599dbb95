(** nvs09 and the Branin functions. *)
From Coq Require Import List String ZArith QArith Reals Qreals Lra Lia Bool Psatz.
From Verif Require Import ModelBenchData ModelBench SpecBench BenchBase BenchPoly BenchPenalty BenchExp.
Import ListNotations.
Open Scope R_scope.

Lemma sqr_le : forall a b, 0 <= a -> a <= b -> a ^ 2 <= b ^ 2.
Proof. intros. nra. Qed.

Ltac sq H := match type of H with ?a <= ?b => assert (a ^ 2 <= b ^ 2) by (apply sqr_le; lra) end.

Definition gterm (z : Z) : R := ln (IZR z - 2) ^ 2 + ln (10 - IZR z) ^ 2.

Lemma gterm_low : forall z, (3 <= z <= 9)%Z -> 366 / 100 <= gterm z.
Proof.
  intros z H. unfold gterm.
  pose proof ln2_low. pose proof ln3_low. pose proof ln4_low. pose proof ln5_low.
  pose proof ln6_low. pose proof ln7_low.
  assert (C : (z = 3 \/ z = 4 \/ z = 5 \/ z = 6 \/ z = 7 \/ z = 8 \/ z = 9)%Z) by lia.
  destruct C as [C|[C|[C|[C|[C|[C|C]]]]]]; subst z.
  - replace (3 - 2) with 1 by lra. replace (10 - 3) with 7 by lra. rewrite ln_1.
    sq H5. lra.
  - replace (4 - 2) with 2 by lra. replace (10 - 4) with 6 by lra.
    sq H0. sq H4. lra.
  - replace (5 - 2) with 3 by lra. replace (10 - 5) with 5 by lra.
    sq H1. sq H3. lra.
  - replace (6 - 2) with 4 by lra. replace (10 - 6) with 4 by lra.
    sq H2. lra.
  - replace (7 - 2) with 5 by lra. replace (10 - 7) with 3 by lra.
    sq H1. sq H3. lra.
  - replace (8 - 2) with 6 by lra. replace (10 - 8) with 2 by lra.
    sq H0. sq H4. lra.
  - replace (9 - 2) with 7 by lra. replace (10 - 9) with 1 by lra. rewrite ln_1.
    sq H5. lra.
Qed.

Lemma gterm_9 : gterm 9 = ln 7 ^ 2.
Proof.
  unfold gterm. replace (9 - 2) with 7 by lra. replace (10 - 9) with 1 by lra. rewrite ln_1. ring.
Qed.

Lemma rpow_fifth : forall p, 0 < p -> 0 < rpow p (2 / 10) /\ rpow p (2 / 10) ^ 5 = p.
Proof.
  intros p H. unfold rpow. destruct (Req_EM_T p 0); [lra|].
  split; [apply exp_pos|].
  rewrite <- Rpower_pow by apply exp_pos. rewrite Rpower_mult.
  replace (2 / 10 * INR 5) with 1 by (cbn; field). apply Rpower_1, H.
Qed.

Definition zprod (l : list Z) : Z := fold_right Z.mul 1%Z l.

Lemma zprod_bounds : forall l, Forall (fun z => 3 <= z <= 9)%Z l ->
  (0 < zprod l <= 9 ^ Z.of_nat (List.length l))%Z /\
  (Exists (fun z => z <= 8)%Z l -> 9 * zprod l <= 8 * 9 ^ Z.of_nat (List.length l))%Z.
Proof.
  induction l as [|z l IH]; intros F.
  - cbn. split; [lia|]. intros E. inversion E.
  - inversion F; subst. destruct (IH H2) as [[P0 P1] P2]. clear IH F.
    cbn [zprod fold_right List.length]. fold (zprod l).
    rewrite Nat2Z.inj_succ, Z.pow_succ_r by lia.
    set (p := zprod l) in *. set (q := (9 ^ Z.of_nat (List.length l))%Z) in *. clearbody p q.
    split; [nia|]. intros E. inversion E; subst; [nia|]. specialize (P2 H0). nia.
Qed.

Lemma low_nvs09 : low nvs09 (10 * ln 7 ^ 2 - 81).
Proof.
  intros x H. cbn [b_f nvs09]. unfold nvs09_f_eval.
  assert (Bd : forall i, (i < 10)%nat -> 3 <= x i <= 9).
  { intros i Hi. pose proof (proj1 (H i Hi)) as B.
    do 10 (destruct i as [|i]; [cbn in B; q2r B; lra|]). lia. }
  rewrite guard_some.
  2:{ apply Forall_app. split.
      - repeat constructor. apply holds_nonneg.
        repeat apply Rmult_le_pos; match goal with |- 0 <= x ?i => pose proof (Bd i ltac:(lia)); lra end.
      - apply Forall_forall. intros c Hc. apply in_flat_map in Hc. destruct Hc as [i [Hi Hc]].
        apply in_seq in Hi. pose proof (Bd i ltac:(lia)).
        destruct Hc as [<-|[<-|[]]]; apply holds_pos; lra. }
  clear Bd. eexists. split; [reflexivity|].
  int H 0%nat y0. int H 1%nat y1. int H 2%nat y2. int H 3%nat y3. int H 4%nat y4.
  int H 5%nat y5. int H 6%nat y6. int H 7%nat y7. int H 8%nat y8. int H 9%nat y9. clear H x.
  set (l := [y0; y1; y2; y3; y4; y5; y6; y7; y8; y9]).
  assert (F : Forall (fun z => 3 <= z <= 9)%Z l) by (repeat constructor; lia).
  pose proof (zprod_bounds l F) as [[P0 P1] P2].
  assert (EP : IZR y0 * IZR y1 * IZR y2 * IZR y3 * IZR y4 * IZR y5 * IZR y6 * IZR y7 * IZR y8 * IZR y9 = IZR (zprod l)).
  { unfold l, zprod. cbn [fold_right]. rewrite !mult_IZR. ring. }
  rewrite EP. apply IZR_lt in P0. destruct (rpow_fifth _ P0) as [R0 R1].
  set (r := rpow (IZR (zprod l)) (2 / 10)) in *. clearbody r.
  fold (gterm y0).
  assert (ES : forall a b c d e f g h i j,
     ln (IZR a - 2) ^ 2 + ln (10 - IZR a) ^ 2 + ln (IZR b - 2) ^ 2 + ln (10 - IZR b) ^ 2 +
     ln (IZR c - 2) ^ 2 + ln (10 - IZR c) ^ 2 + ln (IZR d - 2) ^ 2 + ln (10 - IZR d) ^ 2 +
     ln (IZR e - 2) ^ 2 + ln (10 - IZR e) ^ 2 + ln (IZR f - 2) ^ 2 + ln (10 - IZR f) ^ 2 +
     ln (IZR g - 2) ^ 2 + ln (10 - IZR g) ^ 2 + ln (IZR h - 2) ^ 2 + ln (10 - IZR h) ^ 2 +
     ln (IZR i - 2) ^ 2 + ln (10 - IZR i) ^ 2 + ln (IZR j - 2) ^ 2 + ln (10 - IZR j) ^ 2 - r =
     gterm a + gterm b + gterm c + gterm d + gterm e + gterm f + gterm g + gterm h + gterm i + gterm j - r)
    by (intros; unfold gterm; ring).
  change (gterm y0) with (ln (IZR y0 - 2) ^ 2 + ln (10 - IZR y0) ^ 2). rewrite ES. clear ES.
  destruct (Exists_dec (fun z => z <= 8)%Z l ltac:(intros z; apply Z_le_dec)) as [E|E].
  - specialize (P2 E).
    assert (Rb : r <= 7912 / 100).
    { apply Rnot_lt_le. intros C.
      assert (Q5 : (7912 / 100) ^ 5 < r ^ 5).
      { replace (r ^ 5) with (r * r * r * r * r) by ring.
        assert ((7912/100)^2 < r * r) by nra.
        assert ((7912/100)^4 < (r * r) * (r * r)) by nra. nra. }
      rewrite R1 in Q5. apply IZR_le in P2. rewrite !mult_IZR in P2.
      change (9 ^ Z.of_nat (List.length l))%Z with 3486784401%Z in P2. lra. }
    assert (U7 := ln7_up). assert (L7 := ln7_low).
    assert (G : forall z, In z l -> 366 / 100 <= gterm z).
    { intros z Hz. apply gterm_low. rewrite Forall_forall in F. apply F, Hz. }
    assert (G0 : forall z, In z l -> True) by auto. clear G0.
    pose proof (G y0 ltac:(cbn; tauto)). pose proof (G y1 ltac:(cbn; tauto)). pose proof (G y2 ltac:(cbn; tauto)).
    pose proof (G y3 ltac:(cbn; tauto)). pose proof (G y4 ltac:(cbn; tauto)). pose proof (G y5 ltac:(cbn; tauto)).
    pose proof (G y6 ltac:(cbn; tauto)). pose proof (G y7 ltac:(cbn; tauto)). pose proof (G y8 ltac:(cbn; tauto)).
    pose proof (G y9 ltac:(cbn; tauto)).
    assert (S7 : ln 7 ^ 2 <= (19459101491 / 10000000000) ^ 2) by (apply sqr_le; lra).
    lra.
  - assert (N : forall z, In z l -> z = 9%Z).
    { intros z Hz. rewrite Forall_forall in F. specialize (F z Hz).
      assert (~ (z <= 8)%Z) by (intros C; apply E; apply Exists_exists; exists z; tauto). lia. }
    rewrite (N y0), (N y1), (N y2), (N y3), (N y4), (N y5), (N y6), (N y7), (N y8), (N y9) in * by (cbn; tauto).
    rewrite gterm_9.
    assert (R2 : r <= 81).
    { apply Rnot_lt_le. intros C.
      assert (Q5 : 81 ^ 5 < r ^ 5).
      { replace (r ^ 5) with (r * r * r * r * r) by ring.
        assert (81^2 < r * r) by nra.
        assert (81^4 < (r * r) * (r * r)) by nra. nra. }
      rewrite R1 in Q5. apply IZR_le in P1.
      change (9 ^ Z.of_nat (List.length l))%Z with 3486784401%Z in P1. lra. }
    lra.
Qed.

(** * Branin *)
Lemma low_branin : low branin (5 / (4 * PI)).
Proof.
  intros x H. eexists. split; [reflexivity|].
  match goal with |- _ <= ?s ^ 2 + _ + 10 => assert (0 <= s ^ 2) by apply pow2_ge_0; set (q := s ^ 2) in * end.
  pose proof (COS_bound (x 0%nat)) as [C _]. pose proof PI_4 as P4. pose proof PI2_1 as P2.
  assert (P : 0 < PI) by lra. set (c := cos (x 0%nat)) in *. clearbody c q.
  assert (E : 5 / (4 * PI) = 10 * (1 - 1 / (8 * PI)) * -1 + 10) by (field; lra).
  rewrite E. assert (0 <= 1 - 1 / (8 * PI)).
  { assert (1 / (8 * PI) <= 1); [|lra]. apply (Rmult_le_reg_r (8 * PI)); [lra|].
    unfold Rdiv. rewrite Rmult_assoc, Rinv_l by lra. lra. }
  nra.
Qed.

Lemma low_branin_cat : low branin_cat (5 / (4 * PI)).
Proof.
  intros x H. cbn [b_f branin_cat]. unfold branin_cat_f_eval. int H 2%nat k.
  rewrite guard_some.
  2:{ repeat constructor. apply holds_oneof.
      assert (C : (k = 0 \/ k = 1 \/ k = 2 \/ k = 3)%Z) by lia.
      destruct C as [C|[C|[C|C]]]; subst; reflexivity. }
  eexists. split; [reflexivity|].
  match goal with |- _ <= ?s ^ 2 + _ + 10 => assert (0 <= s ^ 2) by apply pow2_ge_0; set (q := s ^ 2) in * end.
  match goal with |- context [pick ?a ?l ?y] => assert (C : -1 <= pick a l y) end.
  { assert (D : (k = 0 \/ k = 1 \/ k = 2 \/ k = 3)%Z) by lia. destruct D as [D|[D|[D|D]]]; subst k.
    - rewrite pick_hit. apply COS_bound.
    - rewrite pick_miss, pick_hit by lia. apply SIN_bound.
    - rewrite pick_miss, pick_miss, pick_hit by lia. pose proof (pow2_ge_0 (cos (x 0%nat + PI / 4))). lra.
    - rewrite pick_miss, pick_miss, pick_miss, pick_hit by lia. pose proof (pow2_ge_0 (sin (x 0%nat + PI / 4))). lra. }
  match goal with |- context [pick ?a ?l ?y] => set (c := pick a l y) in * end.
  pose proof PI_4 as P4. pose proof PI2_1 as P2.
  assert (P : 0 < PI) by lra. clearbody c q.
  assert (E : 5 / (4 * PI) = 10 * (1 - 1 / (8 * PI)) * -1 + 10) by (field; lra).
  rewrite E. assert (0 <= 1 - 1 / (8 * PI)).
  { assert (1 / (8 * PI) <= 1); [|lra]. apply (Rmult_le_reg_r (8 * PI)); [lra|].
    unfold Rdiv. rewrite Rmult_assoc, Rinv_l by lra. lra. }
  nra.
Qed.
