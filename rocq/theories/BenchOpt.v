(** The declared optimum points: they lie in the declared space, and the
    values there. *)
From Coq Require Import List String ZArith QArith Reals Qreals Lra Lia Bool Psatz.
From Verif Require Import ModelBenchData ModelBench SpecBench BenchBase BenchPoly BenchPenalty BenchSearch
  BenchSchoen BenchSchoenCat BenchExp BenchLog.
Import ListNotations.
Open Scope R_scope.

Definition whole_q (q : Q) : bool := Pos.eqb (Qden (Qred q)) 1.
Definition is_cont (t : vtype) : bool := match t with TR => true | _ => false end.
Definition point_ok (b : bench) (p : list Q) : bool :=
  Nat.eqb (List.length p) (b_dim b) &&
  forallb (fun i => Qle_bool (nth i (b_lo b) 0%Q) (nth i p 0%Q) && Qle_bool (nth i p 0%Q) (nth i (b_up b) 0%Q)
     && (is_cont (nth i (b_type b) TR) || whole_q (nth i p 0%Q))) (seq 0 (b_dim b)).

Lemma nth_Q2R : forall p i, nth i (map Q2R p) 0 = Q2R (nth i p 0%Q).
Proof.
  intros p i. rewrite <- (map_nth Q2R).
  destruct (Nat.lt_ge_cases i (List.length p)).
  - apply nth_indep. rewrite map_length. assumption.
  - rewrite !nth_overflow; rewrite ?map_length; try lia. symmetry. apply Q2R_0.
Qed.

Lemma whole_IZR : forall q, whole_q q = true -> exists k, Q2R q = IZR k.
Proof.
  intros q H. apply Pos.eqb_eq in H. exists (Qnum (Qred q)).
  rewrite <- Q2R_red. unfold Q2R. rewrite H. field.
Qed.

Lemma point_ok_space : forall b p, point_ok b p = true -> in_space b (map Q2R p).
Proof.
  intros b p H. apply andb_true_iff in H. destruct H as [L H]. apply Nat.eqb_eq in L.
  split; [rewrite map_length; exact L|]. intros i Hi. rewrite nth_Q2R.
  rewrite forallb_forall in H. specialize (H i ltac:(apply in_seq; lia)).
  rewrite !andb_true_iff in H. destruct H as [[H1 H2] H3].
  apply Qle_bool_iff in H1, H2. split; [split; apply Qle_Rle; assumption|].
  intros N. apply whole_IZR. apply orb_true_iff in H3. destruct H3 as [H3|H3]; [|exact H3].
  exfalso. apply N. destruct (nth i (b_type b) TR); [reflexivity|discriminate|discriminate].
Qed.

Definition reached (b : bench) : Prop := evaluate b (optimum_point b) = Some (optimum_value b).

Ltac maxes := repeat (first [rewrite Rmax_left by lra | rewrite Rmax_right by lra]).
Ltac start b f :=
  unfold reached, evaluate, optimum_point, optimum_value; cbn [b b_opt b_dim b_f b_val map List.length Nat.eqb];
  unfold f; cbn [nth]; unfold Q2R; cbn [Qnum Qden].

Lemma at_goldsteinprice : reached goldsteinprice.
Proof. start goldsteinprice goldsteinprice_f_eval. f_equal. lra. Qed.
Lemma at_ex8_1_4 : reached ex8_1_4.
Proof. start ex8_1_4 ex8_1_4_f_eval. f_equal. lra. Qed.
Lemma at_rbrock : reached rbrock.
Proof. start rbrock rbrock_f_eval. f_equal. lra. Qed.
Lemma at_nvs03 : reached nvs03.
Proof. start nvs03 nvs03_f_eval. f_equal. maxes. lra. Qed.
Lemma at_nvs04 : reached nvs04.
Proof. start nvs04 nvs04_f_eval. f_equal. lra. Qed.
Lemma at_nvs06 : reached nvs06.
Proof.
  start nvs06 nvs06_f_eval. rewrite guard_some by (repeat constructor; apply holds_nonzero; lra).
  f_equal. field.
Qed.
Lemma at_nvs07 : reached nvs07.
Proof. start nvs07 nvs07_f_eval. f_equal. maxes. lra. Qed.
Lemma at_nvs14 : reached nvs14.
Proof. start nvs14 nvs14_f_eval. f_equal. maxes. lra. Qed.
Lemma at_nvs02 : evaluate nvs02 (optimum_point nvs02) = Some (592239325641 / 100000000000).
Proof.
  start nvs02 nvs02_f_eval. rewrite guard_some by (repeat constructor; apply holds_nonneg; lra).
  replace (9 * / 1) with (3 * 3) by lra. rewrite sqrt_square by lra. f_equal. maxes. lra.
Qed.
Lemma at_nvs15 : reached nvs15.
Proof. start nvs15 nvs15_f_eval. f_equal. maxes. lra. Qed.
Lemma at_nvs16 : reached nvs16.
Proof. start nvs16 nvs16_f_eval. f_equal. lra. Qed.
Lemma at_prob03 : reached prob03.
Proof. start prob03 prob03_f_eval. f_equal. maxes. lra. Qed.
Lemma at_sport : reached sporttournament06.
Proof. start sporttournament06 sporttournament06_f_eval. f_equal. lra. Qed.
Lemma at_st_miqp1 : reached st_miqp1.
Proof. start st_miqp1 st_miqp1_f_eval. f_equal. maxes. lra. Qed.
Lemma at_st_miqp3 : reached st_miqp3.
Proof. start st_miqp3 st_miqp3_f_eval. f_equal. maxes. lra. Qed.
Lemma at_st_test1 : reached st_test1.
Proof. start st_test1 st_test1_f_eval. f_equal. maxes. lra. Qed.
Lemma at_st_miqp1_cat : reached st_miqp1_cat.
Proof.
  start st_miqp1_cat st_miqp1_cat_f_eval. cbn [rsum Nat.add nth]. replace (4 * / 1) with 4 by lra.
  rewrite guard_some by (repeat constructor; apply (holds_index 4); lia).
  rewrite (row_IZR st_miqp1_cat_c 4).
  (match goal with |- context [nth (Z.to_nat ?k) ?t ?d] =>
     let r := eval vm_compute in (nth (Z.to_nat k) t d) in change (nth (Z.to_nat k) t d) with r end).
  unfold entry, last_entry, Q2R; cbn [nth last Qnum Qden]. f_equal. maxes. lra.
Qed.
Lemma at_nvs07_cat : reached nvs07_cat.
Proof.
  start nvs07_cat nvs07_cat_f_eval. replace (2 * / 1) with 2 by lra.
  rewrite guard_some by (repeat constructor; apply (holds_oneof 2); reflexivity).
  rewrite !(pick_hit 2). f_equal. maxes. lra.
Qed.
Lemma at_perm_6 : reached perm_6.
Proof.
  start perm_6 perm_6_f_eval. f_equal.
  rewrite rsum_zero; [field|]. intros k Hk. rewrite rsum_zero; [ring|]. intros i Hi.
  match goal with |- _ * (?a ^ k - 1) = 0 => assert (E : a = 1) end.
  { do 6 (destruct i as [|i]; [cbn [INR nth]; field|]). lia. }
  rewrite E, pow1. ring.
Qed.
Lemma at_perm0_8 : reached perm0_8.
Proof.
  start perm0_8 perm0_8_f_eval. f_equal.
  rewrite rsum_zero; [field|]. intros k Hk. rewrite rsum_zero; [ring|]. intros i Hi.
  match goal with |- _ * (?a ^ k - ?b ^ k) = 0 => assert (E : a = b) end.
  { do 8 (destruct i as [|i]; [cbn [INR nth]; field|]). lia. }
  rewrite E. ring.
Qed.

(** * Schoen and Schaeffer *)
Definition matches (z : list (list Q)) (r : nat) (n off : nat) (s : Q) (p : list Q) : bool :=
  forallb (fun k => Qeq_bool (nth (off + k) p 0 / s)%Q (nth k (nth r z []) 0%Q)) (seq 0 n).

Lemma matches_entry : forall z r n off s p k, ~ (s == 0)%Q -> matches z r n off s p = true -> (k < n)%nat ->
  nth (off + k) (map Q2R p) 0 / Q2R s = entry (nth r z []) k.
Proof.
  intros z r n off s p k Hs H Hk. unfold matches in H. rewrite forallb_forall in H.
  specialize (H k ltac:(apply in_seq; lia)). apply Qeq_bool_iff in H. apply Qeq_eqR in H.
  rewrite Q2R_div in H by exact Hs. rewrite nth_Q2R. exact H.
Qed.

Lemma entry_q : forall f r v, Qeq_bool (nth r f 0%Q) v = true -> entry f r = Q2R v.
Proof. intros f r v H. apply Qeq_bool_iff in H. apply Qeq_eqR in H. exact H. Qed.

Ltac schoen_start b e :=
  unfold reached, evaluate, optimum_point, optimum_value; rewrite map_length;
  change (Nat.eqb (List.length (b_opt b)) (b_dim b)) with true; cbv iota; cbn [b b_f]; unfold e.

Ltac schoen_tac b e z r n s :=
  schoen_start b e;
  assert (HM : matches z r n 0 s (b_opt b) = true) by (vm_compute; reflexivity);
  assert (HS : ~ (s == 0)%Q) by discriminate;
  rewrite (schoen_opt z _ n _ _ r);
  [ f_equal; apply entry_q; vm_compute; reflexivity
  | vm_compute; reflexivity | lia | lia
  | intros k Hk; rewrite <- (matches_entry z r n 0 s (b_opt b) k HS HM Hk);
    cbn [Nat.add]; f_equal; unfold Q2R; cbn; lra ].

Lemma at_schoen_6_1 : reached schoen_6_1.
Proof. schoen_tac schoen_6_1 schoen_6_1_f_eval schoen_6_1_z 0%nat 6%nat 1%Q. Qed.
Lemma at_schoen_6_2 : reached schoen_6_2.
Proof. schoen_tac schoen_6_2 schoen_6_2_f_eval schoen_6_2_z 0%nat 6%nat 1%Q. Qed.
Lemma at_schoen_10_1 : reached schoen_10_1.
Proof. schoen_tac schoen_10_1 schoen_10_1_f_eval schoen_10_1_z 0%nat 10%nat 1%Q. Qed.
Lemma at_schoen_10_2 : reached schoen_10_2.
Proof. schoen_tac schoen_10_2 schoen_10_2_f_eval schoen_10_2_z 0%nat 10%nat 1%Q. Qed.
Lemma at_schoen_6_1_int : reached schoen_6_1_int.
Proof. schoen_tac schoen_6_1_int schoen_6_1_int_f_eval schoen_6_1_int_z 47%nat 6%nat 10%Q. Qed.
Lemma at_schoen_6_2_int : reached schoen_6_2_int.
Proof. schoen_tac schoen_6_2_int schoen_6_2_int_f_eval schoen_6_2_int_z 47%nat 6%nat 10%Q. Qed.
Lemma at_schoen_10_1_int : reached schoen_10_1_int.
Proof. schoen_tac schoen_10_1_int schoen_10_1_int_f_eval schoen_10_1_int_z 47%nat 10%nat 10%Q. Qed.
Lemma at_schoen_10_2_int : reached schoen_10_2_int.
Proof. schoen_tac schoen_10_2_int schoen_10_2_int_f_eval schoen_10_2_int_z 47%nat 10%nat 10%Q. Qed.

Ltac schoen_cat_tac b e z :=
  schoen_start b e;
  assert (HM : matches z 0 10 2 1 (b_opt b) = true) by (vm_compute; reflexivity);
  assert (HS : ~ (1 == 0)%Q) by discriminate;
  rewrite (schoen_cat_opt z _ _ _ 0 2) with (r := 0%nat);
  [ f_equal; apply entry_q; vm_compute; reflexivity
  | vm_compute; reflexivity | vm_compute; reflexivity | lia
  | rewrite nth_Q2R; unfold Q2R; cbn; lra | rewrite nth_Q2R; unfold Q2R; cbn; lra
  | lia | lia
  | intros k Hk; rewrite nth_Q2R; do 10 (destruct k as [|k]; [unfold Q2R; cbn; lra|]); lia
  | lia | reflexivity | reflexivity
  | intros k Hk; rewrite <- (matches_entry z 0 10 2 1 (b_opt b) k HS HM Hk);
    rewrite Q2R_1; unfold Rdiv; rewrite Rinv_1, Rmult_1_r; reflexivity ].

Lemma at_schoen_10_1_cat : reached schoen_10_1_cat.
Proof. schoen_cat_tac schoen_10_1_cat schoen_10_1_cat_f_eval schoen_10_1_cat_z. Qed.
Lemma at_schoen_10_2_cat : reached schoen_10_2_cat.
Proof. schoen_cat_tac schoen_10_2_cat schoen_10_2_cat_f_eval schoen_10_2_cat_z. Qed.

Lemma at_schaeffer_1 : reached schaeffer_f7_12_1.
Proof.
  schoen_start schaeffer_f7_12_1 schaeffer_f7_12_1_f_eval. unfold schaeffer.
  rewrite schaeffer_sum_zero by (intros; apply nth_Q2R). unfold Q2R. cbn. f_equal. lra.
Qed.
Lemma at_schaeffer_2 : reached schaeffer_f7_12_2.
Proof.
  schoen_start schaeffer_f7_12_2 schaeffer_f7_12_2_f_eval. unfold schaeffer.
  rewrite schaeffer_sum_zero by (intros; apply nth_Q2R). unfold Q2R. cbn. f_equal. lra.
Qed.
Lemma at_schaeffer_1_cat : reached schaeffer_f7_12_1_int_cat.
Proof.
  schoen_start schaeffer_f7_12_1_int_cat schaeffer_f7_12_1_int_cat_f_eval. unfold schaeffer_cat.
  rewrite schaeffer_sum_zero by (intros; apply nth_Q2R). rewrite guard_some.
  - unfold Q2R. cbn. f_equal. lra.
  - repeat constructor. rewrite nth_Q2R. destruct (whole_IZR (nth 12 (b_opt schaeffer_f7_12_1_int_cat) 0%Q)) as [k Hk]; [reflexivity|].
    rewrite Hk. apply oneof4.
    unfold Q2R in Hk. cbn in Hk. split; apply le_IZR; rewrite <- Hk; lra.
Qed.
Lemma at_schaeffer_2_cat : reached schaeffer_f7_12_2_int_cat.
Proof.
  schoen_start schaeffer_f7_12_2_int_cat schaeffer_f7_12_2_int_cat_f_eval. unfold schaeffer_cat.
  rewrite schaeffer_sum_zero by (intros; apply nth_Q2R). rewrite guard_some.
  - unfold Q2R. cbn. f_equal. lra.
  - repeat constructor. rewrite nth_Q2R. destruct (whole_IZR (nth 12 (b_opt schaeffer_f7_12_2_int_cat) 0%Q)) as [k Hk]; [reflexivity|].
    rewrite Hk. apply oneof4.
    unfold Q2R in Hk. cbn in Hk. split; apply le_IZR; rewrite <- Hk; lra.
Qed.
