(** The remaining benchmark facts: near-exact optima, the gear train, and the
    functions whose evaluation is only shown to be defined. *)
From Coq Require Import List String ZArith QArith Reals Qreals Machin Lra Lia Bool Psatz.
From Verif Require Import ModelBenchData ModelBench SpecBench BenchBase BenchPoly BenchPenalty BenchSearch
  BenchExp BenchLog BenchOpt BenchRefute.
Import ListNotations.
Open Scope R_scope.

(** * Defined everywhere *)
Lemma def_hartman3 : defined hartman3. Proof. intros x H. eexists. reflexivity. Qed.
Lemma def_hartman6 : defined hartman6. Proof. intros x H. eexists. reflexivity. Qed.
Lemma def_camel : defined camel. Proof. intros x H. eexists. reflexivity. Qed.
Lemma def_ex4_1_1 : defined ex4_1_1. Proof. intros x H. eexists. reflexivity. Qed.
Lemma def_ex4_1_2 : defined ex4_1_2. Proof. intros x H. eexists. reflexivity. Qed.
Lemma def_least : defined least. Proof. intros x H. eexists. reflexivity. Qed.
Lemma def_ex8_1_1 : defined ex8_1_1.
Proof.
  intros x H. cbn [b_f ex8_1_1]. unfold ex8_1_1_f_eval. rewrite guard_some; [eauto|].
  repeat constructor. apply holds_nonzero. nra.
Qed.
Lemma rsum_sq : forall n f, 0 <= rsum n (fun i => f i ^ 2).
Proof. induction n; intros; cbn [rsum]; [lra|]. specialize (IHn f). pose proof (pow2_ge_0 (f n)). lra. Qed.
Lemma def_shekel : forall m a c v, forallb (fun j => negb (Qle_bool (nth j c 0%Q) 0)) (seq 0 m) = true ->
  forall x : nat -> R, exists y,
  guard (map (fun j => NonZero (rsum 4 (fun i => (x i - entry (nth i a []) j) ^ 2) + entry c j)) (seq 0 m)) (v x) = Some y.
Proof.
  intros m a c v H x. rewrite guard_some; [eauto|]. apply Forall_forall. intros d Hd.
  apply in_map_iff in Hd. destruct Hd as [j [<- Hj]]. apply holds_nonzero.
  rewrite forallb_forall in H. specialize (H j Hj). apply negb_true_iff in H.
  pose proof (rsum_sq 4 (fun i => x i - entry (nth i a []) j)).
  apply Q2R_lt in H. rewrite Q2R_0 in H. unfold entry at 2. lra.
Qed.
Lemma def_shekel5 : defined shekel5.
Proof. intros x H. cbn [b_f shekel5]. unfold shekel5_f_eval.
  apply (def_shekel 5 shekel5_a shekel5_c (fun x => - rsum 5 (fun j => 1 / (rsum 4 (fun i => (x i - entry (nth i shekel5_a []) j) ^ 2) + entry shekel5_c j)))). vm_compute. reflexivity. Qed.
Lemma def_shekel7 : defined shekel7.
Proof. intros x H. cbn [b_f shekel7]. unfold shekel7_f_eval.
  apply (def_shekel 7 shekel7_a shekel7_c (fun x => - rsum 7 (fun j => 1 / (rsum 4 (fun i => (x i - entry (nth i shekel7_a []) j) ^ 2) + entry shekel7_c j)))). vm_compute. reflexivity. Qed.
Lemma def_shekel10 : defined shekel10.
Proof. intros x H. cbn [b_f shekel10]. unfold shekel10_f_eval.
  apply (def_shekel 10 shekel10_a shekel10_c (fun x => - rsum 10 (fun j => 1 / (rsum 4 (fun i => (x i - entry (nth i shekel10_a []) j) ^ 2) + entry shekel10_c j)))). vm_compute. reflexivity. Qed.
Lemma def_hartman3_cat : defined hartman3_cat.
Proof.
  intros x H. cbn [b_f hartman3_cat]. unfold hartman3_cat_f_eval. int H 3%nat k.
  rewrite guard_some; [eauto|]. repeat constructor. apply holds_index. lia.
Qed.
Lemma def_hartman6_cat : defined hartman6_cat.
Proof.
  intros x H. cbn [b_f hartman6_cat]. unfold hartman6_cat_f_eval. int H 0%nat k.
  rewrite guard_some; [eauto|]. repeat constructor. apply holds_index. lia.
Qed.
Lemma oneof_upto : forall k n, (0 <= k < Z.of_nat n)%Z -> holds (OneOf (IZR k) (map Z.of_nat (seq 0 n))) = true.
Proof.
  intros k n H. apply holds_oneof. apply existsb_exists. exists k. split; [|apply Z.eqb_refl].
  apply in_map_iff. exists (Z.to_nat k). split; [lia|]. apply in_seq. lia.
Qed.
Lemma def_ex8_1_1_cat : defined ex8_1_1_cat.
Proof.
  intros x H. cbn [b_f ex8_1_1_cat]. unfold ex8_1_1_cat_f_eval. int H 2%nat k. int H 3%nat l.
  rewrite guard_some; [eauto|]. repeat constructor.
  - apply (oneof_upto k 4). lia.
  - apply (oneof_upto l 4). lia.
  - apply holds_nonzero. nra.
Qed.
Lemma def_nvs09_cat : defined nvs09_cat.
Proof.
  intros x H. cbn [b_f nvs09_cat]. unfold nvs09_cat_f_eval.
  assert (Bd : forall i, (i < 10)%nat -> 3 <= x i <= 9 /\ exists k, x i = IZR k).
  { intros i Hi. assert (Hi' : (i < b_dim nvs09_cat)%nat) by (cbn; lia).
    pose proof (H i Hi') as [B I]. split.
    - do 10 (destruct i as [|i]; [cbn in B; q2r B; lra|]). lia.
    - apply I. do 10 (destruct i as [|i]; [discriminate|]). lia. }
  int H 10%nat k. rewrite guard_some; [eauto|].
  apply Forall_app. split.
  - repeat constructor; [apply (oneof_upto k 5); lia|]. apply holds_nonneg.
    repeat apply Rmult_le_pos; match goal with |- 0 <= x ?i => pose proof (Bd i ltac:(lia)); lra end.
  - apply Forall_forall. intros c Hc. apply in_flat_map in Hc. destruct Hc as [i [Hi Hc]].
    apply in_seq in Hi. destruct (Bd i ltac:(lia)) as [B [z Hz]].
    assert (Z0 : (3 <= z <= 9)%Z) by (rewrite Hz in B; split; apply le_IZR; lra).
    assert (W : forall r j d, holds d = true -> holds (When r j d) = true).
    { intros r j d Hd. cbn. destruct (Req_EM_T r (IZR j)); auto. }
    assert (N : forall y, (exists z, y = IZR z /\ (1 <= z)%Z) -> y - 9 / 10 <> 0).
    { intros y [u [-> Hu]]. apply IZR_le in Hu. lra. }
    assert (Y1 : exists u, x i - 2 = IZR u /\ (1 <= u)%Z).
    { exists (z - 2)%Z. rewrite minus_IZR, Hz. split; [reflexivity|lia]. }
    assert (Y2 : exists u, 10 - x i = IZR u /\ (1 <= u)%Z).
    { exists (10 - z)%Z. rewrite minus_IZR, Hz. split; [reflexivity|lia]. }
    apply in_flat_map in Hc. destruct Hc as [y [Hy Hc]].
    assert (Y : exists u, y = IZR u /\ (1 <= u)%Z) by (destruct Hy as [<-|[<-|[]]]; assumption).
    assert (P : 1 <= y) by (destruct Y as [u [-> Hu]]; apply IZR_le in Hu; exact Hu).
    destruct Hc as [<-|[<-|[<-|[]]]]; apply W;
      [apply holds_nonneg; lra|apply holds_nonzero, N, Y|apply holds_pos; lra].
Qed.

(** * nvs09_cat: all eights, category 2 *)
Definition nvs09_cat_better : list Q := [8; 8; 8; 8; 8; 8; 8; 8; 8; 8; 2]%Q.
Lemma beat_nvs09_cat : exists y, valued nvs09_cat nvs09_cat_better y /\ y + 2 <= optimum_value nvs09_cat.
Proof.
  assert (Hs : in_space nvs09_cat (map Q2R nvs09_cat_better)) by (apply point_ok_space; vm_compute; reflexivity).
  destruct (def_nvs09_cat (fun i => nth i (map Q2R nvs09_cat_better) 0)) as [y Hy].
  { intros i Hi. apply (proj2 Hs i Hi). }
  exists y. split; [split; [exact Hs|exact Hy]|].
  cbn [b_f nvs09_cat] in Hy. unfold nvs09_cat_f_eval, guard in Hy.
  match type of Hy with (if ?c then Some ?v else None) = _ => destruct c; [|discriminate];
    assert (E : v = y) by congruence end.
  clear Hy. rewrite <- E. clear E y.
  assert (E8 : forall i, (i < 10)%nat -> nth i (map Q2R nvs09_cat_better) 0 = 8).
  { intros i Hi. rewrite nth_Q2R. do 10 (destruct i as [|i]; [unfold Q2R; cbn; lra|]). lia. }
  assert (E2 : nth 10 (map Q2R nvs09_cat_better) 0 = 2) by (rewrite nth_Q2R; unfold Q2R; cbn; lra).
  rewrite E2. rewrite !E8 by lia. rewrite !pick_miss, !pick_hit by lia.
  rewrite !pick_miss by lia. rewrite !pick_hit.
  set (P := 8 * 8 * 8 * 8 * 8 * 8 * 8 * 8 * 8 * 8).
  assert (P0 : 0 < P) by (unfold P; lra).
  destruct (rpow_fifth P P0) as [R0 R1]. set (r := rpow P (2 / 10)) in *. clearbody r.
  assert (R2 : 64 <= r).
  { apply Rnot_lt_le. intros C.
    assert (Q5 : r ^ 5 < 64 ^ 5).
    { replace (r ^ 5) with (r * r * r * r * r) by ring.
      assert (r * r < 64^2) by nra. assert ((r * r) * (r * r) < 64^4) by nra. nra. }
    rewrite R1 in Q5. unfold P in Q5. lra. }
  unfold optimum_value, Q2R. cbn [b_val nvs09_cat Qnum Qden].
  replace (1 / (8 - 2 - 9 / 10)) with (10 / 51) by field. replace (1 / (10 - 8 - 9 / 10)) with (10 / 11) by field.
  lra.
Qed.

(** * ex8_1_1_cat: (2, 0) with cosines *)
Definition ex8_1_1_cat_better : list Q := [2; 0; 1; 3]%Q.
Lemma INR_fact_S : forall n, INR (fact (S n)) = INR (S n) * INR (fact n).
Proof. intros. rewrite fact_simpl, mult_INR. reflexivity. Qed.
Lemma cos1_bounds : 54030230 / 100000000 <= cos 1 <= 540302306 / 1000000000.
Proof.
  pose proof PI2_1 as P.
  pose proof (pre_cos_bound 1 2 ltac:(lra) ltac:(lra)) as H.
  unfold cos_approx, cos_term in H.
  change (2 * 2 + 1)%nat with 5%nat in H. change (2 * (2 + 1))%nat with 6%nat in H.
  cbn [sum_f_R0] in H. rewrite !pow1 in H.
  repeat match type of H with context [fact (2 * ?k)] => let v := eval cbv in (2 * k)%nat in change (2 * k)%nat with v in H end.
  rewrite !INR_fact_S in H. change (fact 0) with 1%nat in H. rewrite !S_INR in H. cbn [INR pow] in H.
  lra.
Qed.
Lemma cos2_up : cos 2 <= -416146830 / 1000000000.
Proof.
  pose proof cos1_bounds as [A B]. replace 2 with (2 * 1) by ring. rewrite cos_2a_cos.
  assert (cos 1 * cos 1 <= (540302306 / 1000000000) * (540302306 / 1000000000)) by nra. lra.
Qed.
Lemma beat_ex8_1_1_cat : exists y, valued ex8_1_1_cat ex8_1_1_cat_better y /\ y + 15 / 100000000 <= optimum_value ex8_1_1_cat.
Proof.
  assert (Hs : in_space ex8_1_1_cat (map Q2R ex8_1_1_cat_better)) by (apply point_ok_space; vm_compute; reflexivity).
  destruct (def_ex8_1_1_cat (fun i => nth i (map Q2R ex8_1_1_cat_better) 0)) as [y Hy].
  { intros i Hi. apply (proj2 Hs i Hi). }
  exists y. split; [split; [exact Hs|exact Hy]|].
  cbn [b_f ex8_1_1_cat] in Hy. unfold ex8_1_1_cat_f_eval, guard in Hy.
  match type of Hy with (if ?c then Some ?v else None) = _ => destruct c; [|discriminate];
    assert (E : v = y) by congruence end.
  clear Hy. rewrite <- E. clear E y.
  assert (E0 : nth 0 (map Q2R ex8_1_1_cat_better) 0 = 2) by (rewrite nth_Q2R; unfold Q2R; cbn; lra).
  assert (E1 : nth 1 (map Q2R ex8_1_1_cat_better) 0 = 0) by (rewrite nth_Q2R; unfold Q2R; cbn; lra).
  assert (E2 : nth 2 (map Q2R ex8_1_1_cat_better) 0 = 1) by (rewrite nth_Q2R; unfold Q2R; cbn; lra).
  assert (E3 : nth 3 (map Q2R ex8_1_1_cat_better) 0 = 3) by (rewrite nth_Q2R; unfold Q2R; cbn; lra).
  rewrite E0, E1, E2, E3. rewrite (pick_miss 1 0), (pick_hit 1) by lia.
  rewrite (pick_miss 3 0), (pick_miss 3 1), (pick_miss 3 2), (pick_hit 3) by lia. rewrite cos_0.
  replace (2 / (0 ^ 2 + 1)) with 2 by field. pose proof cos2_up as C.
  unfold optimum_value, Q2R. cbn [b_val ex8_1_1_cat Qnum Qden]. lra.
Qed.

(** * The gear train *)
Lemma low_gear_sharp : low gear (27008571 / 10000000000000000000).
Proof.
  intros x H. cbn [b_f gear]. unfold gear_f_eval.
  int H 0%nat a. int H 1%nat b. int H 2%nat c. int H 3%nat d.
  assert (N : IZR c * IZR d <> 0) by (rewrite <- mult_IZR; apply (not_0_IZR (c * d)); nia).
  rewrite guard_some by (repeat constructor; apply holds_nonzero; exact N).
  eexists. split; [reflexivity|].
  pose proof (gear_far_R a b c d ltac:(lia) ltac:(lia) ltac:(lia) ltac:(lia)) as G.
  set (q := IZR a * IZR b / (IZR c * IZR d)) in *.
  assert (S2 : (16434284739 / 10000000000) ^ 2 <= (1000000 * q - 14427932477276 / 100000000) ^ 2).
  { rewrite <- (pow2_abs (1000000 * q - _)). apply sqr_le; lra. }
  clear G. clearbody q. lra.
Qed.
Lemma gear_declared_point : exists y, evaluate gear (optimum_point gear) = Some y /\ 6 / 1000000000 <= y.
Proof.
  unfold evaluate, optimum_point. cbn [gear b_opt b_dim b_f map List.length Nat.eqb].
  unfold gear_f_eval. cbn [nth]. unfold Q2R. cbn [Qnum Qden].
  rewrite guard_some by (repeat constructor; apply holds_nonzero; lra).
  eexists. split; [reflexivity|]. lra.
Qed.
Lemma gear_best : exists y, valued gear [19; 16; 43; 49]%Q y /\ y <= 271 / 100000000000000.
Proof.
  eexists. split.
  - open_at gear gear_f_eval. cbn [map nth]. unfold Q2R. cbn [Qnum Qden].
    rewrite guard_some by (repeat constructor; apply holds_nonzero; lra). reflexivity.
  - lra.
Qed.

(** * Near-exact optima *)
Lemma at_gear4 : exists y, evaluate gear4 (optimum_point gear4) = Some y /\ Rabs (y - optimum_value gear4) <= 1 / 1000000000.
Proof.
  unfold evaluate, optimum_point, optimum_value. cbn [gear4 b_opt b_dim b_val b_f map List.length Nat.eqb].
  unfold gear4_f_eval. cbn [nth]. unfold Q2R. cbn [Qnum Qden].
  rewrite guard_some by (repeat constructor; apply holds_nonzero; lra).
  eexists. split; [reflexivity|]. apply Rabs_le. unfold Rmax.
  match goal with |- context [Rle_dec ?a ?b] => destruct (Rle_dec a b) end; lra.
Qed.
Lemma at_gear4_cat : exists y, evaluate gear4_cat (optimum_point gear4_cat) = Some y /\ Rabs (y - optimum_value gear4_cat) <= 1 / 1000000000.
Proof.
  unfold evaluate, optimum_point, optimum_value. cbn [gear4_cat b_opt b_dim b_val b_f map List.length Nat.eqb].
  unfold gear4_cat_f_eval. cbn [nth]. unfold Q2R. cbn [Qnum Qden].
  rewrite guard_some by (repeat constructor; apply holds_nonzero; lra).
  eexists. split; [reflexivity|]. apply Rabs_le. unfold Rmax.
  match goal with |- context [Rle_dec ?a ?b] => destruct (Rle_dec a b) end; lra.
Qed.

Lemma space_nvs09 : in_space nvs09 (optimum_point nvs09).
Proof. apply point_ok_space. vm_compute. reflexivity. Qed.
Lemma at_nvs09 : evaluate nvs09 (optimum_point nvs09) = Some (10 * ln 7 ^ 2 - 81).
Proof.
  destruct (low_nvs09 (fun i => nth i (optimum_point nvs09) 0)) as [y [Hy _]].
  { intros i Hi. apply (proj2 space_nvs09 i Hi). }
  transitivity (Some y); [exact Hy|]. f_equal.
  cbn [b_f nvs09] in Hy. unfold nvs09_f_eval, guard in Hy.
  match type of Hy with (if ?c then Some ?v else None) = _ => destruct c; [|discriminate];
    assert (E : v = y) by congruence end.
  rewrite <- E. clear E Hy y.
  assert (E9 : forall i, (i < 10)%nat -> nth i (optimum_point nvs09) 0 = 9).
  { intros i Hi. unfold optimum_point. rewrite nth_Q2R. do 10 (destruct i as [|i]; [unfold Q2R; cbn; lra|]). lia. }
  rewrite !E9 by lia.
  replace (9 - 2) with 7 by lra. replace (10 - 9) with 1 by lra. rewrite ln_1.
  replace (9 * 9 * 9 * 9 * 9 * 9 * 9 * 9 * 9 * 9) with (81 ^ 5) by ring.
  assert (R : rpow (81 ^ 5) (2 / 10) = 81).
  { unfold rpow. destruct (Req_EM_T (81 ^ 5) 0) as [C|_]; [exfalso; lra|].
    rewrite <- Rpower_pow by lra. rewrite Rpower_mult.
    replace (INR 5 * (2 / 10)) with 1 by (cbn; field). apply Rpower_1. lra. }
  rewrite R. ring.
Qed.
Lemma nvs09_close : Rabs (10 * ln 7 ^ 2 - 81 - optimum_value nvs09) <= 1 / 100000000.
Proof.
  pose proof ln7_low as A. pose proof ln7_up as B.
  unfold optimum_value, Q2R. cbn [nvs09 b_val Qnum Qden]. set (l := ln 7) in *. clearbody l.
  apply Rabs_le. sq A. sq B. lra.
Qed.

(** Branin: attained at (PI, 2.275). *)
Definition branin_point : list R := [PI; 2275 / 1000].
Definition branin_cat_point : list R := [PI; 2275 / 1000; 0].
Lemma branin_formula : forall c, c = -1 ->
  (2275 / 1000 - (51 / 10) / (4 * PI * PI) * PI * PI + 5 / PI * PI - 6) ^ 2 + 10 * (1 - 1 / (8 * PI)) * c + 10
  = 5 / (4 * PI).
Proof.
  intros c ->. pose proof PI_RGT_0 as P. field. lra.
Qed.
Lemma branin_in : in_space branin branin_point.
Proof.
  pose proof PI_4 as P4. pose proof PI2_1 as P2.
  split; [reflexivity|]. intros i Hi. do 2 (destruct i as [|i]; [cbn [nth branin branin_cat b_lo b_up b_type branin_point branin_cat_point]; unfold Q2R; cbn [Qnum Qden]; split; [lra|congruence]|]).
  cbn in Hi. lia.
Qed.
Lemma branin_cat_in : in_space branin_cat branin_cat_point.
Proof.
  pose proof PI_4 as P4. pose proof PI2_1 as P2.
  split; [reflexivity|]. intros i Hi. do 2 (destruct i as [|i]; [cbn [nth branin branin_cat b_lo b_up b_type branin_point branin_cat_point]; unfold Q2R; cbn [Qnum Qden]; split; [lra|congruence]|]).
  destruct i as [|i]; [cbn [nth branin_cat b_lo b_up b_type branin_cat_point]; unfold Q2R; cbn [Qnum Qden]; split; [lra|exists 0%Z; reflexivity]|].
  cbn in Hi. lia.
Qed.
Lemma branin_at : evaluate branin branin_point = Some (5 / (4 * PI)).
Proof.
  unfold evaluate, branin_point. cbn [branin b_dim b_f List.length Nat.eqb]. unfold branin_f_eval. cbn [nth].
  f_equal. apply branin_formula, cos_PI.
Qed.
Lemma branin_cat_at : evaluate branin_cat branin_cat_point = Some (5 / (4 * PI)).
Proof.
  unfold evaluate, branin_cat_point. cbn [branin_cat b_dim b_f List.length Nat.eqb]. unfold branin_cat_f_eval. cbn [nth].
  rewrite guard_some by (repeat constructor; apply (oneof_upto 0 4); lia).
  f_equal. apply branin_formula. rewrite pick_hit. apply cos_PI.
Qed.

Lemma PI_bounds : 314159265 / 100000000 <= PI <= 314159266 / 100000000.
Proof.
  pose proof (PI_2_3_7_ineq 4) as H. unfold tg_alt, PI_2_3_7_tg, Ratan_seq in H.
  change (S (2 * 4)) with 9%nat in H. change (2 * 4)%nat with 8%nat in H. cbn [sum_f_R0] in H.
  repeat match type of H with context [(2 * ?k + 1)%nat] => let v := eval cbv in (2 * k + 1)%nat in change (2 * k + 1)%nat with v in H end.
  cbn [INR] in H. lra.
Qed.
Lemma branin_close : Rabs (5 / (4 * PI) - optimum_value branin) <= 1 / 100000000.
Proof.
  pose proof PI_bounds as [A B]. unfold optimum_value, Q2R. cbn [branin b_val Qnum Qden].
  apply Rabs_le.
  assert (E : 5 / (4 * PI) * PI = 125 / 100) by (field; lra). set (q := 5 / (4 * PI)) in *. clearbody q.
  split; nra.
Qed.

Lemma cos_near_1 : forall d, -1 <= d <= 1 -> 1 - d ^ 2 / 2 <= cos d.
Proof.
  intros d H. pose proof (pre_cos_bound d 0 ltac:(lra) ltac:(lra)) as [L _].
  unfold cos_approx, cos_term in L. cbn [sum_f_R0] in L. change (2 * 0 + 1)%nat with 1%nat in L.
  cbn [sum_f_R0] in L. change (2 * 0)%nat with 0%nat in L. change (2 * 1)%nat with 2%nat in L.
  rewrite !INR_fact_S in L. change (fact 0) with 1%nat in L. rewrite !S_INR in L. cbn [INR pow] in L. nra.
Qed.
Lemma cos_3PI : forall x, cos x = - cos (x - 3 * PI).
Proof.
  intros x. replace x with ((x - 3 * PI) + PI + 2 * INR 1 * PI) at 1 by (cbn; ring).
  rewrite cos_period. apply neg_cos.
Qed.
Lemma branin_declared : forall x y c, x = 942477796 / 100000000 -> y = 247499998 / 100000000 -> c = cos x ->
  (y - (51 / 10) / (4 * PI * PI) * x * x + 5 / PI * x - 6) ^ 2 + 10 * (1 - 1 / (8 * PI)) * c + 10
  <= 5 / (4 * PI) + 1 / 10000000.
Proof.
  intros x y c Hx Hy ->. pose proof PI_bounds as [A B].
  assert (P : 0 < PI) by lra.
  set (e := x / PI - 3).
  assert (Ee : (e + 3) * PI = x) by (unfold e; field; lra).
  assert (E1 : -1 / 10000000 <= e <= 1 / 10000000) by (split; nra).
  assert (S1 : y - (51 / 10) / (4 * PI * PI) * x * x + 5 / PI * x - 6
    = y - 51 / 40 * (e + 3) ^ 2 + 5 * (e + 3) - 6) by (unfold e; field; lra).
  rewrite S1.
  assert (S2 : -1 / 100000 <= y - 51 / 40 * (e + 3) ^ 2 + 5 * (e + 3) - 6 <= 1 / 100000) by (split; nra).
  set (s := y - 51 / 40 * (e + 3) ^ 2 + 5 * (e + 3) - 6) in *. clearbody s. clear S1.
  assert (S3 : s ^ 2 <= 1 / 10000000000) by nra.
  rewrite cos_3PI. pose proof (cos_near_1 (x - 3 * PI) ltac:(lra)) as C.
  assert (D : (x - 3 * PI) ^ 2 / 2 <= 1 / 1000000000) by nra.
  set (q := cos (x - 3 * PI)) in *. clearbody q.
  assert (I : 0 <= 1 / (8 * PI) <= 1).
  { assert (Z : 1 / (8 * PI) * PI = 1 / 8) by (field; lra). set (i := 1 / (8 * PI)) in *. clearbody i. split; nra. }
  replace (5 / (4 * PI)) with (10 * (1 / (8 * PI))) by (field; lra).
  set (i := 1 / (8 * PI)) in *. clearbody i.
  nra.
Qed.
Lemma space_branin : in_space branin (optimum_point branin).
Proof. apply point_ok_space. vm_compute. reflexivity. Qed.
Lemma space_branin_cat : in_space branin_cat (optimum_point branin_cat).
Proof. apply point_ok_space. vm_compute. reflexivity. Qed.
Lemma at_branin : exists y, evaluate branin (optimum_point branin) = Some y /\ y <= 5 / (4 * PI) + 1 / 10000000.
Proof.
  unfold evaluate, optimum_point. cbn [branin b_opt b_dim b_f map List.length Nat.eqb].
  unfold branin_f_eval. cbn [nth]. eexists. split; [reflexivity|].
  apply branin_declared; [unfold Q2R; cbn; lra|unfold Q2R; cbn; lra|reflexivity].
Qed.
Lemma at_branin_cat : exists y, evaluate branin_cat (optimum_point branin_cat) = Some y /\ y <= 5 / (4 * PI) + 1 / 10000000.
Proof.
  unfold evaluate, optimum_point. cbn [branin_cat b_opt b_dim b_f map List.length Nat.eqb].
  unfold branin_cat_f_eval. cbn [nth].
  replace (Q2R 0) with 0 by (unfold Q2R; cbn; lra).
  rewrite guard_some by (repeat constructor; apply (oneof_upto 0 4); lia).
  eexists. split; [reflexivity|]. rewrite pick_hit.
  apply branin_declared; [unfold Q2R; cbn; lra|unfold Q2R; cbn; lra|reflexivity].
Qed.
