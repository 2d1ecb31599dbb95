(** Values at particular points: near-exact optima, and points that are
    better than the declared optimum. *)
From Coq Require Import List String ZArith QArith Reals Qreals Lra Lia Bool Psatz.
From Verif Require Import ModelBenchData ModelBench SpecBench BenchBase BenchPoly BenchPenalty BenchSearch
  BenchExp BenchLog BenchOpt.
Import ListNotations.
Open Scope R_scope.

(** * Sums of rationals *)
Fixpoint qs (n : nat) (f : nat -> Q) : Q := match n with O => 0%Q | S m => Qred (qs m f + f m) end.
Lemma rsum_Q : forall n f g, (forall i, (i < n)%nat -> f i = Q2R (g i)) -> rsum n f = Q2R (qs n g).
Proof.
  induction n; intros f g H; cbn [rsum qs]; [symmetry; apply Q2R_0|].
  rewrite Q2R_red, Q2R_plus, (IHn f g), (H n); [reflexivity|lia|]. intros; apply H; lia.
Qed.
Lemma pow_Q : forall a n, Q2R a ^ n = Q2R (qpow a n).
Proof. intros. symmetry. apply qpow_ok. Qed.

Lemma Q2R_lt : forall a b, Qle_bool b a = false -> Q2R a < Q2R b.
Proof.
  intros a b H. apply Qlt_Rlt. apply Qnot_le_lt. intros C. apply Qle_bool_iff in C. congruence.
Qed.
Lemma Q2R_le : forall a b, Qle_bool a b = true -> Q2R a <= Q2R b.
Proof. intros a b H. apply Qle_Rle, Qle_bool_iff, H. Qed.

Definition valued (b : bench) (p : list Q) (y : R) : Prop :=
  in_space b (map Q2R p) /\ evaluate b (map Q2R p) = Some y.

Ltac qcoord := rewrite ?nth_Q2R.
Ltac open_at b e :=
  split; [apply point_ok_space; vm_compute; reflexivity|];
  unfold evaluate; rewrite map_length; match goal with |- context [Nat.eqb ?a ?c] => change (Nat.eqb a c) with true end;
  cbv iota; cbn [b b_f]; unfold e.

(** * Shekel *)
Definition qshekel (a : list (list Q)) (c : list Q) (p : list Q) (j : nat) : Q :=
  Qred (qs 4 (fun i => qpow (nth i p 0 - nth j (nth i a []) 0) 2) + nth j c 0)%Q.

Lemma shekel_term : forall a c p j,
  rsum 4 (fun i => (nth i (map Q2R p) 0 - entry (nth i a []) j) ^ 2) + entry c j = Q2R (qshekel a c p j).
Proof.
  intros. unfold qshekel. rewrite Q2R_red, Q2R_plus. unfold entry. f_equal.
  apply rsum_Q. intros i _. rewrite nth_Q2R, <- Q2R_minus. apply pow_Q.
Qed.

Definition shekel_q (a : list (list Q)) (c : list Q) (m : nat) (p : list Q) : Q :=
  (- qs m (fun j => / qshekel a c p j))%Q.

Lemma shekel_value : forall a c m p,
  forallb (fun j => negb (Qeq_bool (qshekel a c p j) 0)) (seq 0 m) = true ->
  guard (map (fun j => NonZero (rsum 4 (fun i => (nth i (map Q2R p) 0 - entry (nth i a []) j) ^ 2) + entry c j)) (seq 0 m))
    (- rsum m (fun j => 1 / (rsum 4 (fun i => (nth i (map Q2R p) 0 - entry (nth i a []) j) ^ 2) + entry c j)))
  = Some (Q2R (shekel_q a c m p)).
Proof.
  intros a c m p H. rewrite forallb_forall in H.
  assert (N : forall j, (j < m)%nat -> ~ (qshekel a c p j == 0)%Q).
  { intros j Hj. specialize (H j ltac:(apply in_seq; lia)). apply negb_true_iff in H.
    intros C. apply Qeq_bool_iff in C. congruence. }
  rewrite guard_some.
  - f_equal. unfold shekel_q. rewrite Q2R_opp. f_equal. apply rsum_Q. intros j Hj.
    rewrite shekel_term, Q2R_inv by (apply N, Hj). unfold Rdiv. apply Rmult_1_l.
  - apply Forall_forall. intros d Hd. apply in_map_iff in Hd. destruct Hd as [j [<- Hj]].
    apply in_seq in Hj. apply holds_nonzero. rewrite shekel_term. intros C.
    apply (N j ltac:(lia)). apply eqR_Qeq. rewrite C. symmetry. apply Q2R_0.
Qed.

Definition shekel5_better : list Q := [400004#100000; 400013#100000; 400004#100000; 400013#100000]%Q.
Definition shekel7_better : list Q := [400057#100000; 400069#100000; 399949#100000; 399961#100000]%Q.
Definition shekel10_better : list Q := [400075#100000; 400059#100000; 399966#100000; 399951#100000]%Q.

Lemma beat_shekel5 : exists y, valued shekel5 shekel5_better y /\ y + 38 / 10000000 <= optimum_value shekel5.
Proof.
  exists (Q2R (shekel_q shekel5_a shekel5_c 5 shekel5_better)). split.
  - open_at shekel5 shekel5_f_eval. apply shekel_value. vm_compute. reflexivity.
  - replace (38 / 10000000) with (Q2R (38 # 10000000)) by (unfold Q2R; cbn; lra).
    rewrite <- Q2R_plus. apply Q2R_le. vm_compute. reflexivity.
Qed.
Lemma beat_shekel7 : exists y, valued shekel7 shekel7_better y /\ y + 12 / 100000 <= optimum_value shekel7.
Proof.
  exists (Q2R (shekel_q shekel7_a shekel7_c 7 shekel7_better)). split.
  - open_at shekel7 shekel7_f_eval. apply shekel_value. vm_compute. reflexivity.
  - replace (12 / 100000) with (Q2R (12 # 100000)) by (unfold Q2R; cbn; lra).
    rewrite <- Q2R_plus. apply Q2R_le. vm_compute. reflexivity.
Qed.
Lemma beat_shekel10 : exists y, valued shekel10 shekel10_better y /\ y + 12 / 100000 <= optimum_value shekel10.
Proof.
  exists (Q2R (shekel_q shekel10_a shekel10_c 10 shekel10_better)). split.
  - open_at shekel10 shekel10_f_eval. apply shekel_value. vm_compute. reflexivity.
  - replace (12 / 100000) with (Q2R (12 # 100000)) by (unfold Q2R; cbn; lra).
    rewrite <- Q2R_plus. apply Q2R_le. vm_compute. reflexivity.
Qed.

(** * Polynomials *)
Lemma beat_ex4_1_1 : exists y, valued ex4_1_1 [-11913 # 10000]%Q y /\ y + 4 / 1000000000 <= optimum_value ex4_1_1.
Proof.
  eexists. split.
  - open_at ex4_1_1 ex4_1_1_f_eval. reflexivity.
  - cbn [map nth]. unfold optimum_value, Q2R. cbn [b_val ex4_1_1 Qnum Qden]. lra.
Qed.

(** Rounding to 15 decimals keeps the numbers below small. *)
Definition E15 : Z := 1000000000000000%Z.
Definition up15 (q : Q) : Z := Qround.Qceiling (q * inject_Z E15).
Definition dn15 (q : Q) : Z := Qround.Qfloor (q * inject_Z E15).
Lemma up15_ge : forall q, Q2R q <= IZR (up15 q) / IZR E15.
Proof.
  intros q. pose proof (Qround.Qle_ceiling (q * inject_Z E15)) as H. apply Qle_Rle in H.
  rewrite Q2R_mult, !Q2R_inject in H. fold (up15 q) in H. unfold E15 in *. lra.
Qed.
Lemma dn15_le : forall q, IZR (dn15 q) / IZR E15 <= Q2R q.
Proof.
  intros q. pose proof (Qround.Qfloor_le (q * inject_Z E15)) as H. apply Qle_Rle in H.
  rewrite Q2R_mult, !Q2R_inject in H. fold (dn15 q) in H. unfold E15 in *. lra.
Qed.
Fixpoint zs (n : nat) (f : nat -> Z) : Z := match n with O => 0%Z | S m => (zs m f + f m)%Z end.
Lemma rsum_up : forall n f g, (forall i, (i < n)%nat -> f i <= IZR (g i) / IZR E15) ->
  rsum n f <= IZR (zs n g) / IZR E15.
Proof.
  induction n; intros f g H; cbn [rsum zs]; [unfold E15; lra|].
  rewrite plus_IZR. pose proof (IHn f g ltac:(intros; apply H; lia)). pose proof (H n ltac:(lia)). lra.
Qed.
Lemma rsum_dn : forall n f g, (forall i, (i < n)%nat -> IZR (g i) / IZR E15 <= f i) ->
  IZR (zs n g) / IZR E15 <= rsum n f.
Proof.
  induction n; intros f g H; cbn [rsum zs]; [unfold E15; lra|].
  rewrite plus_IZR. pose proof (IHn f g ltac:(intros; apply H; lia)). pose proof (H n ltac:(lia)). lra.
Qed.

Definition z412 (x : Q) : Z := zs 50 (fun i => up15 (nth i ex4_1_2_a 0 * qpow x (i + 1))%Q).
Lemma z412_val : z412 (109117 # 100000) = (-663500094969312238)%Z.
Proof. vm_compute. reflexivity. Qed.
Lemma beat_ex4_1_2 : exists y, valued ex4_1_2 [109117 # 100000]%Q y /\ y + 7 / 10000 <= optimum_value ex4_1_2.
Proof.
  eexists. split.
  - open_at ex4_1_2 ex4_1_2_f_eval. reflexivity.
  - match goal with |- ?s + _ <= _ => assert (L : s <= IZR (z412 (109117 # 100000)) / IZR E15) end.
    { apply rsum_up. intros i _. cbn [map nth]. rewrite pow_Q. unfold entry. rewrite <- Q2R_mult. apply up15_ge. }
    rewrite z412_val in L. unfold E15 in L. eapply Rle_trans; [apply Rplus_le_compat_r; exact L|].
    unfold optimum_value, Q2R. cbn [b_val ex4_1_2 Qnum Qden]. lra.
Qed.

(** * Hartman *)
Definition qhart (n off : nat) (a pt : list (list Q)) (p : list Q) (i : nat) : Q :=
  qs n (fun j => nth i (nth j a []) 0 * qpow (nth (j + off) p 0 - nth i (nth j pt []) 0) 2)%Q.
Lemma hart_exponent : forall n off a pt p i,
  rsum n (fun j => entry (nth j a []) i * (nth (j + off) (map Q2R p) 0 - entry (nth j pt []) i) ^ 2)
  = Q2R (qhart n off a pt p i).
Proof.
  intros. apply rsum_Q. intros j _. rewrite nth_Q2R. unfold entry.
  rewrite <- Q2R_minus, pow_Q, <- Q2R_mult. reflexivity.
Qed.

(** A lower bound of exp (- s), rounded at each stage. *)
Definition up12 (q : Q) : Q := (Qround.Qceiling (q * inject_Z 1000000000000) # 1000000000000).
Definition e_root (m N : nat) (s : Q) : Z := dn15 (qsum (up12 s / inject_Z (Z.of_nat m))%Q (S (2 * N))).
Definition e_low (m N : nat) (s : Q) : Q := ((e_root m N s) ^ Z.of_nat m # Z.to_pos (E15 ^ Z.of_nat m)).
Definition e_ok (m N : nat) (s : Q) : bool :=
  Qle_bool 0 (up12 s) && Qle_bool (up12 s) (inject_Z (Z.of_nat m)) && (0 <=? e_root m N s)%Z.

Lemma up12_ge : forall q, Q2R q <= Q2R (up12 q).
Proof.
  intros q. pose proof (Qround.Qle_ceiling (q * inject_Z 1000000000000)) as H. apply Qle_Rle in H.
  rewrite Q2R_mult, !Q2R_inject in H. unfold up12. unfold Q2R at 2. cbn [Qnum Qden].
  set (c := IZR (Qround.Qceiling _)) in *. lra.
Qed.
Lemma IZR_pow : forall z n, IZR (z ^ Z.of_nat n) = IZR z ^ n.
Proof. intros. symmetry. apply pow_IZR. Qed.

Lemma e_low_le : forall m N s, (0 < m)%nat -> e_ok m N s = true -> Q2R (e_low m N s) <= exp (- Q2R s).
Proof.
  intros m N s Hm H. unfold e_ok in H. rewrite !andb_true_iff in H. destruct H as [[H1 H2] H3].
  apply Z.leb_le in H3.
  assert (B : Q2R (qexp_low m N (up12 s)) <= exp (- Q2R (up12 s))).
  { apply exp_bracket; [exact Hm|]. rewrite !andb_true_iff. repeat split; try assumption.
    apply Qle_bool_iff. apply Rle_Qle. rewrite Q2R_0.
    eapply Rle_trans; [|apply dn15_le]. apply IZR_le in H3. unfold e_root in H3. unfold E15. lra. }
  eapply Rle_trans with (exp (- Q2R (up12 s))).
  - eapply Rle_trans; [|exact B]. unfold qexp_low. rewrite qpow_ok.
    replace (Q2R (e_low m N s)) with ((IZR (e_root m N s) / IZR E15) ^ m).
    + apply pow_incr. split; [apply IZR_le in H3; unfold E15; lra|apply dn15_le].
    + unfold e_low, Q2R. cbn [Qnum Qden]. rewrite Z2Pos.id by (apply Z.pow_pos_nonneg; unfold E15; lia).
      rewrite !IZR_pow. unfold Rdiv. rewrite Rpow_mult_distr, pow_inv. reflexivity.
  - pose proof (up12_ge s) as U. destruct U as [U|U].
    + left. apply exp_increasing. lra.
    + rewrite U. lra.
Qed.

Definition hart_z (n off m N : nat) (a pt : list (list Q)) (c : list Q) (p : list Q) : Z :=
  zs 4 (fun i => dn15 (nth i c 0 * e_low m N (qhart n off a pt p i))%Q).
Definition hart_ok (n off m N : nat) (a pt : list (list Q)) (c : list Q) (p : list Q) : bool :=
  forallb (fun i => Qle_bool 0 (nth i c 0%Q) && e_ok m N (qhart n off a pt p i)) (seq 0 4).

Lemma hart_le : forall n off m N a pt c p, (0 < m)%nat -> hart_ok n off m N a pt c p = true ->
  - rsum 4 (fun i => entry c i * exp (- rsum n (fun j => entry (nth j a []) i *
      (nth (j + off) (map Q2R p) 0 - entry (nth j pt []) i) ^ 2)))
  <= - (IZR (hart_z n off m N a pt c p) / IZR E15).
Proof.
  intros n off m N a pt c p Hm H. unfold hart_ok in H. rewrite forallb_forall in H.
  apply Ropp_le_contravar. apply rsum_dn. intros i Hi.
  specialize (H i ltac:(apply in_seq; lia)). apply andb_true_iff in H. destruct H as [H1 H2].
  apply (e_low_le m N _ Hm) in H2. rewrite hart_exponent. eapply Rle_trans; [apply dn15_le|].
  rewrite Q2R_mult. unfold entry. apply Rmult_le_compat_l; [|exact H2].
  apply Qle_bool_iff in H1. apply Qle_Rle in H1. rewrite Q2R_0 in H1. exact H1.
Qed.

Definition hartman3_better : list Q := [11461#100000; 55565#100000; 85255#100000]%Q.
Lemma hartman3_z : hart_z 3 0 16 3 hartman3_a hartman3_p hartman3_c hartman3_better = 3862782146182936%Z.
Proof. vm_compute. reflexivity. Qed.
Lemma beat_hartman3 : exists y, valued hartman3 hartman3_better y /\ y + 14 / 100000 <= optimum_value hartman3.
Proof.
  eexists. split.
  - open_at hartman3 hartman3_f_eval. reflexivity.
  - pose proof (hart_le 3 0 16 3 hartman3_a hartman3_p hartman3_c hartman3_better ltac:(lia) ltac:(vm_compute; reflexivity)) as L.
    rewrite hartman3_z in L. unfold E15 in L. eapply Rle_trans; [apply Rplus_le_compat_r; exact L|].
    unfold optimum_value, Q2R. cbn [b_val hartman3 Qnum Qden]. lra.
Qed.

Definition hartman3_cat_better : list Q := [15763#100000; 53658#100000; 84408#100000; 3]%Q.
Lemma hartman3_cat_z : hart_z 3 0 16 4 hartman3_cat_a hartman3_cat_p (nth 3 hartman3_cat_c []) hartman3_cat_better = 4822789823085233%Z.
Proof. vm_compute. reflexivity. Qed.
Lemma beat_hartman3_cat : exists y, valued hartman3_cat hartman3_cat_better y /\ y + 2 / 1000000 <= optimum_value hartman3_cat.
Proof.
  eexists. split.
  - open_at hartman3_cat hartman3_cat_f_eval.
    assert (X : nth 3 (map Q2R hartman3_cat_better) 0 = 3) by (cbn; unfold Q2R; cbn; lra).
    rewrite guard_some by (repeat constructor; rewrite X; apply (holds_index 3); lia).
    rewrite X, (row_IZR hartman3_cat_c 3). reflexivity.
  - pose proof (hart_le 3 0 16 4 hartman3_cat_a hartman3_cat_p (nth 3 hartman3_cat_c []) hartman3_cat_better ltac:(lia) ltac:(vm_compute; reflexivity)) as L.
    rewrite hartman3_cat_z in L. unfold E15 in L. eapply Rle_trans; [apply Rplus_le_compat_r; exact L|].
    unfold optimum_value, Q2R. cbn [b_val hartman3_cat Qnum Qden]. lra.
Qed.

Definition hartman6_cat_better : list Q :=
  [2; 17741#100000; 15367#100000; 5167#10000; 25647#100000; 32304#100000; 64635#100000]%Q.
Lemma hartman6_cat_z : hart_z 6 1 16 4 hartman6_cat_a hartman6_cat_p (nth 2 hartman6_cat_c []) hartman6_cat_better = 3962317406646223%Z.
Proof. vm_compute. reflexivity. Qed.
Lemma beat_hartman6_cat : exists y, valued hartman6_cat hartman6_cat_better y /\ y + 4 / 10000000 <= optimum_value hartman6_cat.
Proof.
  eexists. split.
  - open_at hartman6_cat hartman6_cat_f_eval.
    assert (X : nth 0 (map Q2R hartman6_cat_better) 0 = 2) by (cbn; unfold Q2R; cbn; lra).
    rewrite guard_some by (repeat constructor; rewrite X; apply (holds_index 2); lia).
    rewrite X, (row_IZR hartman6_cat_c 2). reflexivity.
  - pose proof (hart_le 6 1 16 4 hartman6_cat_a hartman6_cat_p (nth 2 hartman6_cat_c []) hartman6_cat_better ltac:(lia) ltac:(vm_compute; reflexivity)) as L.
    rewrite hartman6_cat_z in L. unfold E15 in L. eapply Rle_trans; [apply Rplus_le_compat_r; exact L|].
    unfold optimum_value, Q2R. cbn [b_val hartman6_cat Qnum Qden]. lra.
Qed.
