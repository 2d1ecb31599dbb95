(** Benchmark functions whose minimum needs a finite search: the sports
    tournament (branch and bound) and the gear trains (a check of every
    denominator). *)
From Coq Require Import List String ZArith QArith Reals Qreals Lra Lia Bool Psatz.
From Verif Require Import ModelBenchData ModelBench SpecBench BenchBase BenchPoly BenchPenalty.
Import ListNotations.
Open Scope R_scope.

(** * Branch and bound for quadratic functions of 0-1 variables *)
Definition qterm := (Z * nat * nat)%type.
Definition tval (g : nat -> Z) (t : qterm) : Z := let '(c, i, j) := t in (c * (g i * g j))%Z.
Definition qval (g : nat -> Z) (ts : list qterm) : Z := fold_right Z.add 0%Z (map (tval g) ts).
Definition tlow (a : list bool) (t : qterm) : Z :=
  let '(c, i, j) := t in
  match nth_error a i, nth_error a j with
  | Some false, _ | _, Some false => 0
  | Some true, Some true => c
  | _, _ => Z.min c 0
  end.
Definition qlow (a : list bool) (ts : list qterm) : Z := fold_right Z.add 0%Z (map (tlow a) ts).
Fixpoint bnb (fuel : nat) (ts : list qterm) (v : Z) (a : list bool) : bool :=
  if (v <=? qlow a ts)%Z then true else
  match fuel with
  | O => false
  | S n => bnb n ts v (a ++ [false]) && bnb n ts v (a ++ [true])
  end.

Definition b2z (b : bool) : Z := if b then 1%Z else 0%Z.
Definition agrees (g : nat -> Z) (a : list bool) : Prop :=
  forall i b, nth_error a i = Some b -> g i = b2z b.

Lemma tlow_le : forall g a t, (forall i, g i = 0%Z \/ g i = 1%Z) -> agrees g a -> (tlow a t <= tval g t)%Z.
Proof.
  intros g a [[c i] j] H A. cbn. destruct (nth_error a i) as [[|]|] eqn:Ei; destruct (nth_error a j) as [[|]|] eqn:Ej;
  try (rewrite (A _ _ Ei)); try (rewrite (A _ _ Ej)); cbn [b2z]; try lia;
  destruct (H i) as [Hi|Hi]; destruct (H j) as [Hj|Hj]; rewrite ?Hi, ?Hj; lia.
Qed.
Lemma qlow_le : forall g a ts, (forall i, g i = 0%Z \/ g i = 1%Z) -> agrees g a -> (qlow a ts <= qval g ts)%Z.
Proof.
  intros g a ts H A. induction ts as [|t ts IH]; cbn; [lia|].
  pose proof (tlow_le g a t H A). unfold qlow, qval in IH. lia.
Qed.
Lemma bnb_sound : forall g ts v n a, (forall i, g i = 0%Z \/ g i = 1%Z) -> agrees g a ->
  bnb n ts v a = true -> (v <= qval g ts)%Z.
Proof.
  intros g ts v n. induction n as [|n IH]; intros a H A B; cbn in B;
  destruct (v <=? qlow a ts)%Z eqn:E; try discriminate;
  try (apply Z.leb_le in E; pose proof (qlow_le g a ts H A); lia).
  apply andb_true_iff in B. destruct B as [B0 B1].
  assert (X : forall b, g (List.length a) = b2z b -> agrees g (a ++ [b])).
  { intros b Hb i c Hc. destruct (Nat.lt_ge_cases i (List.length a)).
    - rewrite nth_error_app1 in Hc by assumption. apply A, Hc.
    - rewrite nth_error_app2 in Hc by assumption.
      destruct (i - List.length a)%nat eqn:Ei; cbn in Hc.
      + assert (i = List.length a) by lia. subst i. congruence.
      + destruct n0; discriminate. }
  destruct (H (List.length a)) as [Hg|Hg].
  - apply (IH (a ++ [false])%list); auto.
  - apply (IH (a ++ [true])%list); auto.
Qed.

(** The order in which the variables are branched on. *)
Definition sport_order : list nat := [2; 8; 9; 3; 7; 4; 6; 1; 10; 11; 0; 5; 12; 14; 13]%nat.
Definition sport_terms : list qterm :=
  [(2, 10%nat, 0%nat); (-2, 10%nat, 10%nat); (2, 0%nat, 0%nat); (2, 10%nat, 6%nat); (-2, 6%nat,
   6%nat); (2, 7%nat, 5%nat); (-2, 7%nat, 7%nat); (-2, 5%nat, 5%nat); (2, 7%nat, 2%nat); (-4,
   2%nat, 2%nat); (-2, 0%nat, 3%nat); (2, 3%nat, 3%nat); (-2, 0%nat, 9%nat); (-2, 0%nat, 14%nat);
   (-2, 3%nat, 5%nat); (2, 3%nat, 1%nat); (-2, 1%nat, 1%nat); (-2, 3%nat, 13%nat); (2, 5%nat,
   11%nat); (-2, 11%nat, 11%nat); (2, 5%nat, 4%nat); (-2, 4%nat, 4%nat); (2, 11%nat, 1%nat); (-2,
   6%nat, 4%nat); (2, 6%nat, 9%nat); (2, 6%nat, 12%nat); (2, 4%nat, 2%nat); (2, 4%nat, 13%nat);
   (2, 1%nat, 8%nat); (-2, 8%nat, 8%nat); (-2, 1%nat, 9%nat); (2, 2%nat, 8%nat); (2, 2%nat,
   9%nat); (-2, 12%nat, 13%nat); (2, 14%nat, 13%nat)]%Z.

Lemma sport_checked : bnb 15 sport_terms (-12) [] = true.
Proof. vm_compute. reflexivity. Qed.

Lemma low_sport : low sporttournament06 (-12).
Proof.
  intros x H. cbn [b_f sporttournament06]. unfold sporttournament06_f_eval. eexists. split; [reflexivity|].
  int H 0%nat y0. int H 1%nat y1. int H 2%nat y2. int H 3%nat y3. int H 4%nat y4.
  int H 5%nat y5. int H 6%nat y6. int H 7%nat y7. int H 8%nat y8. int H 9%nat y9.
  int H 10%nat y10. int H 11%nat y11. int H 12%nat y12. int H 13%nat y13. int H 14%nat y14.
  clear H x.
  set (g := fun i => nth i [y2; y8; y9; y3; y7; y4; y6; y1; y10; y11; y0; y5; y12; y14; y13] 0%Z).
  assert (G : forall i, g i = 0%Z \/ g i = 1%Z).
  { intros i. unfold g. do 15 (destruct i as [|i]; [cbn; lia|]). destruct i; cbn; lia. }
  assert (B := bnb_sound g sport_terms (-12) 15 [] G).
  assert (A : agrees g []) by (intros [|i] b; discriminate).
  specialize (B A sport_checked). apply IZR_le in B.
  eapply Rle_trans; [exact B|]. right.
  unfold qval, sport_terms, tval, g. cbn [map fold_right nth].
  rewrite !plus_IZR, !mult_IZR.
  assert (Sq : forall z, (0 <= z <= 1)%Z -> IZR z * IZR z = IZR z).
  { intros z Hz. assert (C : (z = 0 \/ z = 1)%Z) by lia. destruct C; subst; lra. }
  rewrite !Sq by lia. ring.
Qed.

(** * Gear trains *)
(** The distance of the ratio [a/b] from the target, scaled: every
    denominator [b = c * d] is checked against the numerator nearest to the
    target, which either is far enough or is not a product of two tooth
    numbers. *)
Definition teeth : list Z := map Z.of_nat (seq 12 49).
Definition is_product (a : Z) : bool :=
  existsb (fun s => (a mod s =? 0)%Z && (12 <=? a / s)%Z && (a / s <=? 60)%Z) teeth.
Definition nearest (b : Z) : Z := ((1442793247727600 * b + 5000000000000000) / 10000000000000000)%Z.
Definition den_ok (b : Z) : bool :=
  (16434284739 * b <=? Z.abs (10000000000000000 * nearest b - 1442793247727600 * b))%Z
  || negb (is_product (nearest b)).
Definition row_ok (c : Z) : bool := forallb (fun d => (d <? c)%Z || den_ok (c * d)) teeth.

Lemma gear_checked : forallb row_ok teeth = true.
Proof. vm_compute. reflexivity. Qed.

Lemma in_teeth : forall z, (12 <= z <= 60)%Z -> In z teeth.
Proof.
  intros z H. unfold teeth. apply in_map_iff. exists (Z.to_nat z). split; [lia|]. apply in_seq. lia.
Qed.

Lemma den_checked : forall c d, (12 <= c <= 60)%Z -> (12 <= d <= 60)%Z -> den_ok (c * d) = true.
Proof.
  assert (W : forall c d, (12 <= c <= 60)%Z -> (12 <= d <= 60)%Z -> (c <= d)%Z -> den_ok (c * d) = true).
  { intros c d Hc Hd Hle.
    pose proof (proj1 (forallb_forall row_ok teeth) gear_checked c (in_teeth c Hc)) as G.
    pose proof (proj1 (forallb_forall _ teeth) G d (in_teeth d Hd)) as G'. cbv beta in G'.
    clear G. rename G' into G.
    apply orb_true_iff in G. destruct G as [G|G]; [apply Z.ltb_lt in G; lia|exact G]. }
  intros c d Hc Hd. destruct (Z.le_gt_cases c d); [apply W; assumption|].
  rewrite Z.mul_comm. apply W; lia.
Qed.

Lemma gear_far : forall a b c d, (12 <= a <= 60)%Z -> (12 <= b <= 60)%Z -> (12 <= c <= 60)%Z -> (12 <= d <= 60)%Z ->
  (16434284739 * (c * d) <= Z.abs (10000000000000000 * (a * b) - 1442793247727600 * (c * d)))%Z.
Proof.
  intros a b c d Ha Hb Hc Hd.
  pose proof (den_checked c d Hc Hd) as K. unfold den_ok in K.
  assert (P : (144 <= c * d <= 3600)%Z) by nia. set (m := (c * d)%Z) in *. clearbody m.
  destruct (Z.eq_dec (a * b) (nearest m)) as [E|E].
  - rewrite E. apply orb_true_iff in K. destruct K as [K|K]; [apply Z.leb_le in K; exact K|].
    exfalso. apply negb_true_iff in K.
    assert (Y : is_product (nearest m) = true).
    { unfold is_product. apply existsb_exists. exists a. split; [apply in_teeth; assumption|].
      rewrite <- E. rewrite Z.mul_comm, Z_mod_mult, Z_div_mult by lia.
      rewrite !andb_true_iff. repeat split; [apply Z.leb_le|apply Z.leb_le]; lia. }
    congruence.
  - unfold nearest in E. clear K.
    set (n := (1442793247727600 * m + 5000000000000000)%Z) in *.
    pose proof (Z.div_mod n 10000000000000000 ltac:(lia)) as D.
    pose proof (Z.mod_pos_bound n 10000000000000000 ltac:(lia)) as D'.
    set (q := (n / 10000000000000000)%Z) in *. set (r := (n mod 10000000000000000)%Z) in *.
    clearbody q r. set (k := (a * b)%Z) in *. clearbody k. unfold n in D. clear n.
    assert (T : (k <= q - 1 \/ q + 1 <= k)%Z) by lia. lia.
Qed.

Lemma gear_far_R : forall a b c d, (12 <= a <= 60)%Z -> (12 <= b <= 60)%Z -> (12 <= c <= 60)%Z -> (12 <= d <= 60)%Z ->
  16434284739 / 10000000000 <=
  Rabs (1000000 * (IZR a * IZR b / (IZR c * IZR d)) - 14427932477276 / 100000000).
Proof.
  intros a b c d Ha Hb Hc Hd. pose proof (gear_far a b c d Ha Hb Hc Hd) as G.
  assert (Pc : (0 < c * d)%Z) by nia. apply IZR_lt in Pc. rewrite mult_IZR in Pc.
  apply IZR_le in G. rewrite abs_IZR, !mult_IZR, minus_IZR, !mult_IZR in G.
  set (u := IZR a * IZR b) in *. set (w := IZR c * IZR d) in *.
  replace (1000000 * (u / w) - 14427932477276 / 100000000)
    with ((10000000000000000 * u - 1442793247727600 * w) / (10000000000 * w)) by (field; lra).
  unfold Rdiv. rewrite Rabs_mult, (Rabs_pos_eq (/ (10000000000 * w))).
  2:{ left. apply Rinv_0_lt_compat. lra. }
  apply (Rmult_le_reg_r (10000000000 * w)); [lra|].
  rewrite (Rmult_assoc (Rabs _)), Rinv_l by lra. lra.
Qed.

Lemma gear4_bound : forall t y v, 0 <= y -> v <= Rabs t ->
  v <= - t + 2 * y + 10 * Rmax 0 (t - y).
Proof.
  intros t y v Hy Ht. pose proof (Rmax0 (t - y)). pose proof (Rmaxr (t - y)).
  unfold Rabs in Ht. destruct (Rcase_abs t); lra.
Qed.

Lemma gear4_formula : forall a b c d y, c * d <> 0 ->
  - (1000000) * a * b / (c * d) + 2 * y + 14427932477276 / 100000000 +
  10 * Rmax 0 (- (- (1000000) * a * b / (c * d) + y + 14427932477276 / 100000000)) =
  - (1000000 * (a * b / (c * d)) - 14427932477276 / 100000000) + 2 * y +
  10 * Rmax 0 ((1000000 * (a * b / (c * d)) - 14427932477276 / 100000000) - y).
Proof.
  intros a b c d y N. assert (c <> 0 /\ d <> 0) by (split; intros ->; apply N; ring).
  f_equal; [field; tauto|]. do 2 f_equal. field. tauto.
Qed.

Lemma low_gear4 : low gear4 (16434284739 / 10000000000).
Proof.
  intros x H. cbn [b_f gear4]. unfold gear4_f_eval. bnd H 4%nat.
  int H 0%nat a. int H 1%nat b. int H 2%nat c. int H 3%nat d.
  assert (N : IZR c * IZR d <> 0) by (rewrite <- mult_IZR; apply (not_0_IZR (c * d)); nia).
  rewrite guard_some by (repeat constructor; apply holds_nonzero; exact N).
  eexists. split; [reflexivity|]. rewrite gear4_formula by exact N.
  apply gear4_bound; [lra|]. apply gear_far_R; lia.
Qed.

Lemma low_gear4_cat : low gear4_cat (16434284739 / 10000000000).
Proof.
  intros x H. cbn [b_f gear4_cat]. unfold gear4_cat_f_eval. bnd H 4%nat.
  int H 0%nat a. int H 1%nat b. int H 2%nat c. int H 3%nat d.
  assert (N : IZR c * IZR d <> 0) by (rewrite <- mult_IZR; apply (not_0_IZR (c * d)); nia).
  rewrite guard_some by (repeat constructor; apply holds_nonzero; exact N).
  eexists. split; [reflexivity|]. rewrite gear4_formula by exact N.
  apply gear4_bound; [lra|]. apply gear_far_R; lia.
Qed.
