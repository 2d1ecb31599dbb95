(** Bounds on the exponential by partial sums of its alternating series, and
    the benchmark functions that need them. *)
From Coq Require Import List String ZArith QArith Reals Qreals Lra Lia Bool Psatz.
From Verif Require Import ModelBenchData ModelBench SpecBench BenchBase BenchPoly BenchPenalty.
Import ListNotations.
Open Scope R_scope.

(** * The alternating series of exp (- t) *)
Definition eterm (t : R) (k : nat) : R := / INR (fact k) * t ^ k.

Lemma eterm_nonneg : forall t k, 0 <= t -> 0 <= eterm t k.
Proof.
  intros. unfold eterm. apply Rmult_le_pos; [left; apply Rinv_0_lt_compat, INR_fact_lt_0|apply pow_le; assumption].
Qed.

Lemma eterm_succ : forall t k, eterm t (S k) = eterm t k * (t / INR (S k)).
Proof.
  intros. unfold eterm. rewrite fact_simpl, mult_INR. cbn [pow]. field.
  split; [apply not_0_INR; lia|apply INR_fact_neq_0].
Qed.

Lemma eterm_decreasing : forall t, 0 <= t <= 1 -> Un_decreasing (eterm t).
Proof.
  intros t H k. rewrite eterm_succ.
  pose proof (eterm_nonneg t k (proj1 H)).
  assert (1 <= INR (S k)) by (rewrite S_INR; pose proof (pos_INR k); lra).
  assert (t / INR (S k) <= 1).
  { apply (Rmult_le_reg_r (INR (S k))); [lra|]. unfold Rdiv. rewrite Rmult_assoc, Rinv_l by lra. lra. }
  assert (eterm t k * (t / INR (S k)) <= eterm t k * 1) by (apply Rmult_le_compat_l; assumption). lra.
Qed.

Lemma exp_neg_series : forall t, Un_cv (fun N => sum_f_R0 (tg_alt (eterm t)) N) (exp (- t)).
Proof.
  intros t. unfold exp. destruct (exist_exp (- t)) as [l Hl]. cbn.
  intros eps He. destruct (Hl eps He) as [N HN]. exists N. intros n Hn. specialize (HN n Hn).
  replace (sum_f_R0 (tg_alt (eterm t)) n) with (sum_f_R0 (fun i => / INR (fact i) * (- t) ^ i) n); [exact HN|].
  apply sum_eq. intros i _. unfold tg_alt, eterm.
  replace (- t) with (-1 * t) by ring. rewrite Rpow_mult_distr. ring.
Qed.

Lemma eterm_cv0 : forall t, 0 <= t <= 1 -> Un_cv (eterm t) 0.
Proof.
  intros t H. pose proof (exp_neg_series t) as C.
  (* consecutive partial sums of a convergent series differ by a vanishing term *)
  assert (K : Un_cv (fun N => sum_f_R0 (tg_alt (eterm t)) (S N) - sum_f_R0 (tg_alt (eterm t)) N) (exp (- t) - exp (- t))).
  { apply (CV_minus (fun N => sum_f_R0 (tg_alt (eterm t)) (S N)) (fun N => sum_f_R0 (tg_alt (eterm t)) N)).
    - intros eps He. destruct (C eps He) as [N HN]. exists N. intros n Hn. apply HN. lia.
    - exact C. }
  rewrite Rminus_diag_eq in K by reflexivity.
  intros eps He. destruct (K eps He) as [N HN]. exists (S N). intros n Hn.
  destruct n as [|n]; [lia|]. specialize (HN n ltac:(lia)).
  unfold R_dist in *. rewrite tech5 in HN. rewrite Rminus_0_r in *.
  replace (sum_f_R0 (tg_alt (eterm t)) n + tg_alt (eterm t) (S n) - sum_f_R0 (tg_alt (eterm t)) n)
    with (tg_alt (eterm t) (S n)) in HN by ring.
  unfold tg_alt in HN. rewrite Rabs_mult, pow_1_abs, Rmult_1_l in HN. exact HN.
Qed.

Lemma exp_neg_bounds : forall t N, 0 <= t <= 1 ->
  sum_f_R0 (tg_alt (eterm t)) (S (2 * N)) <= exp (- t) <= sum_f_R0 (tg_alt (eterm t)) (2 * N).
Proof.
  intros t N H. apply (alternated_series_ineq (eterm t) (exp (- t)) N).
  - apply eterm_decreasing, H.
  - apply eterm_cv0, H.
  - apply exp_neg_series.
Qed.

(** * The same partial sums computed with rationals *)
Fixpoint qeterm (t : Q) (k : nat) : Q :=
  match k with O => 1%Q | S j => Qred (qeterm t j * t / inject_Z (Z.of_nat (S j))) end.
Fixpoint qsum (t : Q) (n : nat) : Q :=
  match n with
  | O => 1%Q
  | S m => Qred (if Nat.even n then qsum t m + qeterm t n else qsum t m - qeterm t n)
  end.

Lemma Q2R_red : forall q, Q2R (Qred q) = Q2R q.
Proof. intros. apply Qeq_eqR, Qred_correct. Qed.

Lemma Q2R_1 : Q2R 1 = 1.
Proof. unfold Q2R. cbn. lra. Qed.
Lemma Q2R_0 : Q2R 0 = 0.
Proof. unfold Q2R. cbn. lra. Qed.
Lemma Q2R_inject : forall k, Q2R (inject_Z k) = IZR k.
Proof. intros. unfold Q2R. cbn. lra. Qed.

Lemma qeterm_ok : forall t k, Q2R (qeterm t k) = eterm (Q2R t) k.
Proof.
  intros t k. induction k as [|k IH].
  - unfold eterm. cbn. rewrite Q2R_1. lra.
  - cbn [qeterm]. rewrite Q2R_red, eterm_succ, Q2R_div, Q2R_mult, IH.
    + rewrite Q2R_inject, <- INR_IZR_INZ. field. apply not_0_INR. lia.
    + intros E. apply Qeq_eqR in E. rewrite Q2R_inject, Q2R_0, <- INR_IZR_INZ in E.
      apply (not_0_INR (S k)); [lia|exact E].
Qed.

Lemma qsum_ok : forall t n, Q2R (qsum t n) = sum_f_R0 (tg_alt (eterm (Q2R t))) n.
Proof.
  intros t n. induction n as [|n IH].
  - cbn. unfold tg_alt, eterm. cbn. rewrite Q2R_1. lra.
  - rewrite tech5, <- IH. cbn [qsum]. rewrite Q2R_red. unfold tg_alt.
    destruct (Nat.even (S n)) eqn:E.
    + rewrite Q2R_plus, qeterm_ok. apply Nat.even_spec in E. destruct E as [m ->].
      rewrite pow_1_even. ring.
    + rewrite Q2R_minus, qeterm_ok.
      assert (O : Nat.odd (S n) = true) by (rewrite <- Nat.negb_even, E; reflexivity).
      apply Nat.odd_spec in O. destruct O as [m O]. rewrite O.
      replace (2 * m + 1)%nat with (S (2 * m)) by lia. rewrite pow_1_odd. ring.
Qed.

Fixpoint qpow (a : Q) (n : nat) : Q := match n with O => 1%Q | S m => (a * qpow a m)%Q end.
Lemma qpow_ok : forall a n, Q2R (qpow a n) = Q2R a ^ n.
Proof. induction n; cbn; [apply Q2R_1|]. rewrite Q2R_mult, IHn. reflexivity. Qed.

(** exp (- s) as the m-th power of exp (- s / m). *)
Definition qexp_low (m N : nat) (s : Q) : Q := qpow (qsum (s / inject_Z (Z.of_nat m)) (S (2 * N))) m.
Definition qexp_up (m N : nat) (s : Q) : Q := qpow (qsum (s / inject_Z (Z.of_nat m)) (2 * N)) m.

Lemma exp_split : forall m s, (0 < m)%nat -> exp (- s) = exp (- (s / INR m)) ^ m.
Proof.
  intros m s H. assert (P : forall n a, exp a ^ n = exp (INR n * a)).
  { induction n; intros a; [cbn; rewrite Rmult_0_l, exp_0; reflexivity|].
    rewrite S_INR. cbn [pow]. rewrite IHn, <- exp_plus. f_equal. ring. }
  rewrite P. f_equal. field. apply not_0_INR. lia.
Qed.

Lemma exp_bracket : forall m N s, (0 < m)%nat ->
  (Qle_bool 0 s && Qle_bool s (inject_Z (Z.of_nat m))
   && Qle_bool 0 (qsum (s / inject_Z (Z.of_nat m)) (S (2 * N)))) = true ->
  Q2R (qexp_low m N s) <= exp (- Q2R s) <= Q2R (qexp_up m N s).
Proof.
  intros m N s Hm H. rewrite !andb_true_iff in H. destruct H as [[H1 H2] H3].
  apply Qle_bool_iff in H1, H2, H3. apply Qle_Rle in H1, H2, H3.
  rewrite Q2R_0 in H1, H3. rewrite Q2R_inject, <- INR_IZR_INZ in H2.
  set (t := (s / inject_Z (Z.of_nat m))%Q) in *.
  assert (M : 0 < INR m) by (apply lt_0_INR; exact Hm).
  assert (T : Q2R t = Q2R s / INR m).
  { unfold t. rewrite Q2R_div, Q2R_inject, <- INR_IZR_INZ; [reflexivity|].
    intros E. apply Qeq_eqR in E. rewrite Q2R_inject, Q2R_0, <- INR_IZR_INZ in E. lra. }
  assert (B : 0 <= Q2R t <= 1).
  { rewrite T. split.
    - apply Rmult_le_pos; [assumption|]. left. apply Rinv_0_lt_compat, M.
    - apply (Rmult_le_reg_r (INR m)); [exact M|]. unfold Rdiv. rewrite Rmult_assoc, Rinv_l by lra. lra. }
  pose proof (exp_neg_bounds (Q2R t) N B) as [E1 E2].
  rewrite <- !qsum_ok in E1, E2.
  rewrite (exp_split m (Q2R s) Hm), <- T. unfold qexp_low, qexp_up. fold t. rewrite !qpow_ok.
  split; apply pow_incr; split; try assumption. left. apply exp_pos.
Qed.

Lemma ln_ge : forall n l, 0 < n -> / n <= exp (- l) -> l <= ln n.
Proof.
  intros n l Hn H. rewrite exp_Ropp in H.
  assert (E : exp l <= n).
  { rewrite <- (Rinv_inv n), <- (Rinv_inv (exp l)).
    apply Rinv_le_contravar; [apply Rinv_0_lt_compat; exact Hn|exact H]. }
  destruct E as [E|E]; [left; rewrite <- (ln_exp l); apply ln_increasing; [apply exp_pos|exact E]|].
  right. rewrite <- E, ln_exp. reflexivity.
Qed.
Lemma ln_le : forall n l, 0 < n -> exp (- l) <= / n -> ln n <= l.
Proof.
  intros n l Hn H. rewrite exp_Ropp in H.
  assert (E : n <= exp l).
  { rewrite <- (Rinv_inv n), <- (Rinv_inv (exp l)).
    apply Rinv_le_contravar; [apply Rinv_0_lt_compat, exp_pos|exact H]. }
  destruct E as [E|E]; [left; rewrite <- (ln_exp l); apply ln_increasing; assumption|].
  right. rewrite E, ln_exp. reflexivity.
Qed.

Lemma ln_above : forall n l m N, (0 < n)%Z -> (0 < m)%nat ->
  (Qle_bool 0 l && Qle_bool l (inject_Z (Z.of_nat m))
   && Qle_bool 0 (qsum (l / inject_Z (Z.of_nat m)) (S (2 * N)))
   && Qle_bool 1 (inject_Z n * qexp_low m N l)) = true -> Q2R l <= ln (IZR n).
Proof.
  intros n l m N Hn Hm H. apply andb_true_iff in H. destruct H as [H H'].
  apply (exp_bracket m N l Hm) in H. apply IZR_lt in Hn.
  apply ln_ge; [exact Hn|]. apply Qle_bool_iff in H'. apply Qle_Rle in H'.
  rewrite Q2R_1, Q2R_mult, Q2R_inject in H'.
  apply (Rmult_le_reg_l (IZR n)); [exact Hn|]. rewrite Rinv_r by lra.
  eapply Rle_trans; [exact H'|]. apply Rmult_le_compat_l; lra.
Qed.
Lemma ln_below : forall n l m N, (0 < n)%Z -> (0 < m)%nat ->
  (Qle_bool 0 l && Qle_bool l (inject_Z (Z.of_nat m))
   && Qle_bool 0 (qsum (l / inject_Z (Z.of_nat m)) (S (2 * N)))
   && Qle_bool (inject_Z n * qexp_up m N l) 1) = true -> ln (IZR n) <= Q2R l.
Proof.
  intros n l m N Hn Hm H. apply andb_true_iff in H. destruct H as [H H'].
  apply (exp_bracket m N l Hm) in H. apply IZR_lt in Hn.
  apply ln_le; [exact Hn|]. apply Qle_bool_iff in H'. apply Qle_Rle in H'.
  rewrite Q2R_1, Q2R_mult, Q2R_inject in H'.
  apply (Rmult_le_reg_l (IZR n)); [exact Hn|]. rewrite Rinv_r by lra.
  eapply Rle_trans; [|exact H']. apply Rmult_le_compat_l; lra.
Qed.

Lemma ln2_low : 68 / 100 <= ln 2.
Proof. pose proof (ln_above 2 (68#100) 1 3 ltac:(lia) ltac:(lia) ltac:(vm_compute; reflexivity)) as H. q2r H. lra. Qed.
Lemma ln3_low : 109 / 100 <= ln 3.
Proof. pose proof (ln_above 3 (109#100) 2 4 ltac:(lia) ltac:(lia) ltac:(vm_compute; reflexivity)) as H. q2r H. lra. Qed.
Lemma ln4_low : 138 / 100 <= ln 4.
Proof. pose proof (ln_above 4 (138#100) 2 4 ltac:(lia) ltac:(lia) ltac:(vm_compute; reflexivity)) as H. q2r H. lra. Qed.
Lemma ln5_low : 160 / 100 <= ln 5.
Proof. pose proof (ln_above 5 (160#100) 2 4 ltac:(lia) ltac:(lia) ltac:(vm_compute; reflexivity)) as H. q2r H. lra. Qed.
Lemma ln6_low : 179 / 100 <= ln 6.
Proof. pose proof (ln_above 6 (179#100) 2 4 ltac:(lia) ltac:(lia) ltac:(vm_compute; reflexivity)) as H. q2r H. lra. Qed.
Lemma ln7_low : 19459101490 / 10000000000 <= ln 7.
Proof. pose proof (ln_above 7 (19459101490#10000000000) 2 7 ltac:(lia) ltac:(lia) ltac:(vm_compute; reflexivity)) as H. q2r H. lra. Qed.
Lemma ln7_up : ln 7 <= 19459101491 / 10000000000.
Proof. pose proof (ln_below 7 (19459101491#10000000000) 2 7 ltac:(lia) ltac:(lia) ltac:(vm_compute; reflexivity)) as H. q2r H. lra. Qed.
