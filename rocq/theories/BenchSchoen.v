(** The Schoen and Schaeffer benchmark functions. *)
From Coq Require Import List String ZArith QArith Reals Qreals Lra Lia Bool Psatz.
From Verif Require Import ModelBenchData ModelBench SpecBench BenchBase BenchPoly.
Import ListNotations.
Open Scope R_scope.

Lemma rprod_pos : forall n f, (forall i, (i < n)%nat -> 0 < f i) -> 0 < rprod n f.
Proof.
  induction n; intros f H; cbn; [lra|].
  apply Rmult_lt_0_compat; [apply IHn; intros; apply H|apply H]; lia.
Qed.
Lemma rprod_nonneg : forall n f, (forall i, (i < n)%nat -> 0 <= f i) -> 0 <= rprod n f.
Proof.
  induction n; intros f H; cbn; [lra|].
  apply Rmult_le_pos; [apply IHn; intros; apply H|apply H]; lia.
Qed.
Lemma rprod_zero : forall n f i, (i < n)%nat -> f i = 0 -> rprod n f = 0.
Proof.
  induction n; intros f i Hi H; [lia|]. cbn.
  destruct (Nat.eq_dec i n) as [->|]; [rewrite H; ring|].
  rewrite (IHn f i); [ring|lia|assumption].
Qed.
Lemma rsum_ge1 : forall n f i, (i < n)%nat -> (forall j, (j < n)%nat -> 0 <= f j) -> f i <= rsum n f.
Proof.
  induction n; intros f i Hi H; [lia|]. cbn.
  assert (0 <= f n) by (apply H; lia).
  destruct (Nat.eq_dec i n) as [->|].
  - assert (0 <= rsum n f) by (apply rsum_nonneg; intros; apply H; lia). lra.
  - assert (f i <= rsum n f) by (apply IHn; [lia|]; intros; apply H; lia). lra.
Qed.
Lemma rsum_one : forall n f i, (i < n)%nat -> (forall j, (j < n)%nat -> j <> i -> f j = 0) -> rsum n f = f i.
Proof.
  induction n; intros f i Hi H; [lia|]. cbn.
  destruct (Nat.eq_dec i n) as [->|].
  - rewrite rsum_zero; [ring|]. intros; apply H; lia.
  - rewrite (H n), (IHn f i); [ring|lia| |lia|lia]. intros; apply H; lia.
Qed.
Lemma rsum_weighted : forall n f w m, (forall i, (i < n)%nat -> 0 <= w i /\ m <= f i) ->
  m * rsum n w <= rsum n (fun i => f i * w i).
Proof.
  induction n; intros f w m H; cbn; [lra|].
  assert (m * rsum n w <= rsum n (fun i => f i * w i)) by (apply IHn; intros; apply H; lia).
  destruct (H n ltac:(lia)). nra.
Qed.

(** What the tables are checked for: fifty values, none below [m], and fifty
    stationary points that differ in their second coordinate. *)
Definition col1 (z : list (list Q)) : list Q := map (fun r => nth 1 r 0%Q) z.
Fixpoint distinct (l : list Q) : bool :=
  match l with [] => true | a :: r => forallb (fun b => negb (Qeq_bool a b)) r && distinct r end.

Lemma distinct_nth : forall l i j, distinct l = true -> (i < j < List.length l)%nat ->
  ~ (nth i l 0 == nth j l 0)%Q.
Proof.
  induction l as [|a l IH]; intros i j H Hij; cbn in Hij; [lia|].
  cbn in H. apply andb_true_iff in H. destruct H as [H1 H2].
  destruct j as [|j]; [lia|]. destruct i as [|i].
  - cbn. rewrite forallb_forall in H1. specialize (H1 (nth j l 0%Q) ltac:(apply nth_In; lia)).
    apply negb_true_iff in H1. intros E. apply Qeq_bool_iff in E. congruence.
  - cbn. apply IH; [assumption|lia].
Qed.

Lemma col1_entry : forall z j, (j < List.length z)%nat -> Q2R (nth j (col1 z) 0%Q) = entry (nth j z []) 1.
Proof.
  intros z j H. unfold col1, entry. f_equal.
  rewrite (nth_indep _ _ (nth 1 (@nil Q) 0%Q)) by (rewrite map_length; assumption).
  exact (map_nth (fun r => nth 1 r 0%Q) z [] j).
Qed.

Lemma rows_differ : forall z i j, List.length z = 50%nat -> distinct (col1 z) = true ->
  (i < 50)%nat -> (j < 50)%nat -> entry (nth i z []) 1 = entry (nth j z []) 1 -> i = j.
Proof.
  intros z i j L D Hi Hj E.
  rewrite <- !col1_entry in E by lia. apply eqR_Qeq in E.
  destruct (lt_eq_lt_dec i j) as [[H|H]|H]; [|assumption|]; exfalso.
  - apply (distinct_nth _ i j D); [unfold col1; rewrite map_length; lia|assumption].
  - apply (distinct_nth _ j i D); [unfold col1; rewrite map_length; lia|]. symmetry. assumption.
Qed.

Section Schoen.
  Variables (z : list (list Q)) (f : list Q) (w : nat -> nat -> R) (c : R).
  Hypothesis (Lz : List.length z = 50%nat) (Dz : distinct (col1 z) = true).
  Hypothesis w0 : forall i j, (i < 50)%nat -> (j < 50)%nat -> 0 <= w i j.
  Hypothesis w1 : forall i j, (i < 50)%nat -> (j < 50)%nat -> w i j = 0 -> c = entry (nth j z []) 1.

  Lemma schoen_prod_nonneg : forall i, (i < 50)%nat -> 0 <= schoen_prod w i.
  Proof.
    intros i Hi. apply rprod_nonneg. intros j Hj. destruct (Nat.eqb i j); [lra|]. apply w0; assumption.
  Qed.

  Lemma schoen_den_pos : 0 < rsum 50 (schoen_prod w).
  Proof.
    assert (K : exists i, (i < 50)%nat /\ 0 < schoen_prod w i).
    { destruct (existsb (fun j => if Req_EM_T c (entry (nth j z []) 1) then true else false) (seq 0 50)) eqn:E.
      - apply existsb_exists in E. destruct E as [j [Hj E]]. apply in_seq in Hj.
        destruct (Req_EM_T c (entry (nth j z []) 1)) as [Ej|]; [|discriminate].
        exists j. split; [lia|]. apply rprod_pos. intros k Hk.
        destruct (Nat.eqb_spec j k); [lra|].
        destruct (w0 j k ltac:(lia) Hk) as [P|P]; [exact P|]. exfalso. apply n.
        apply (rows_differ z); try assumption; try lia.
        rewrite <- Ej. apply (w1 j k); [lia|assumption|symmetry; assumption].
      - exists 0%nat. split; [lia|]. apply rprod_pos. intros k Hk.
        destruct (Nat.eqb_spec 0 k); [lra|].
        destruct (w0 0%nat k ltac:(lia) Hk) as [P|P]; [exact P|]. exfalso.
        assert (N : existsb (fun j => if Req_EM_T c (entry (nth j z []) 1) then true else false) (seq 0 50) = true).
        { apply existsb_exists. exists k. split; [apply in_seq; lia|].
          destruct (Req_EM_T c (entry (nth k z []) 1)) as [|Ne]; [reflexivity|].
          exfalso. apply Ne. apply (w1 0%nat k); [lia|assumption|symmetry; assumption]. }
        congruence. }
    destruct K as [i [Hi K]]. eapply Rlt_le_trans; [exact K|].
    apply rsum_ge1; [assumption|]. apply schoen_prod_nonneg.
  Qed.

  Lemma schoen_ge : forall m, (forall i, (i < 50)%nat -> m <= entry f i) -> m <= schoen_value w f.
  Proof.
    intros m Hm. unfold schoen_value.
    pose proof schoen_den_pos as P.
    apply (Rmult_le_reg_r (rsum 50 (schoen_prod w))); [exact P|].
    unfold Rdiv. rewrite Rmult_assoc, Rinv_l, Rmult_1_r by lra.
    apply rsum_weighted. intros i Hi. split; [apply schoen_prod_nonneg|apply Hm]; assumption.
  Qed.

  Lemma schoen_at : forall r, (r < 50)%nat -> (forall i, (i < 50)%nat -> w i r = 0) ->
    schoen_value w f = entry f r.
  Proof.
    intros r Hr Hw. unfold schoen_value.
    pose proof schoen_den_pos as P.
    assert (Z0 : forall j, (j < 50)%nat -> j <> r -> schoen_prod w j = 0).
    { intros j Hj N. unfold schoen_prod. apply (rprod_zero 50 _ r Hr).
      destruct (Nat.eqb_spec j r); [contradiction|]. apply Hw; assumption. }
    rewrite (rsum_one 50 (schoen_prod w) r Hr Z0) in P |- *.
    rewrite (rsum_one 50 (fun i => entry f i * schoen_prod w i) r Hr).
    - field. lra.
    - intros j Hj N. rewrite (Z0 j Hj N). ring.
  Qed.
End Schoen.

Lemma forallb_entry : forall (f : list Q) m, List.length f = 50%nat -> forallb (Qle_bool m) f = true ->
  forall i, (i < 50)%nat -> Q2R m <= entry f i.
Proof.
  intros f m L H i Hi. unfold entry. apply Qle_Rle. rewrite forallb_forall in H.
  apply Qle_bool_iff. apply H. apply nth_In. lia.
Qed.

Definition schoen_dist (z : list (list Q)) (n : nat) (s : R) (x : nat -> R) (i j : nat) : R :=
  rsum n (fun k => (x k / s - entry (nth j z []) k) ^ 2).

Lemma schoen_dist_zero : forall z n s x i j k, (k < n)%nat -> schoen_dist z n s x i j = 0 ->
  x k / s = entry (nth j z []) k.
Proof.
  intros z n s x i j k Hk H. unfold schoen_dist in H.
  assert (E : (x k / s - entry (nth j z []) k) ^ 2 <= 0).
  { rewrite <- H.
    apply (rsum_ge1 n (fun k => (x k / s - entry (nth j z []) k) ^ 2) k Hk). intros. apply pow2_ge_0. }
  nra.
Qed.

Definition good_tables (z : list (list Q)) (f : list Q) : bool :=
  Nat.eqb (List.length z) 50 && distinct (col1 z) && Nat.eqb (List.length f) 50
  && forallb (Qle_bool (-1000)) f.

Lemma good_inv : forall z f, good_tables z f = true ->
  List.length z = 50%nat /\ distinct (col1 z) = true /\ List.length f = 50%nat /\
  forallb (Qle_bool (-1000)) f = true.
Proof.
  intros z f H. unfold good_tables in H. rewrite !andb_true_iff in H.
  destruct H as [[[H1 H2] H3] H4]. apply Nat.eqb_eq in H1, H3. auto.
Qed.

Lemma schoen_some : forall z f n s x, good_tables z f = true -> (2 <= n)%nat ->
  schoen z f n s x = Some (schoen_value (schoen_dist z n s x) f).
Proof.
  intros z f n s x G Hn. apply good_inv in G. destruct G as (L & D & _ & _).
  unfold schoen. fold (schoen_dist z n s x). rewrite guard_some; [reflexivity|].
  repeat constructor. apply holds_nonzero. apply Rgt_not_eq. unfold Rgt.
  apply (schoen_den_pos z _ (x 1%nat / s) L D).
  - intros. apply rsum_nonneg. intros. apply pow2_ge_0.
  - intros i j _ _ H. apply (schoen_dist_zero z n s x i j 1 ltac:(lia) H).
Qed.

Lemma schoen_low : forall z f n s x, good_tables z f = true -> (2 <= n)%nat ->
  exists y, schoen z f n s x = Some y /\ -1000 <= y.
Proof.
  intros z f n s x G Hn. eexists. split; [apply schoen_some; assumption|].
  apply good_inv in G. destruct G as (L & D & Lf & F).
  apply (schoen_ge z f _ (x 1%nat / s) L D).
  - intros. apply rsum_nonneg. intros. apply pow2_ge_0.
  - intros i j _ _ H. apply (schoen_dist_zero z n s x i j 1 ltac:(lia) H).
  - intros i Hi. pose proof (forallb_entry f (-1000) Lf F i Hi) as E.
    unfold Q2R in E at 1. cbn in E. lra.
Qed.

Lemma schoen_opt : forall z f n s x r, good_tables z f = true -> (2 <= n)%nat -> (r < 50)%nat ->
  (forall k, (k < n)%nat -> x k / s = entry (nth r z []) k) ->
  schoen z f n s x = Some (entry f r).
Proof.
  intros z f n s x r G Hn Hr Hx. rewrite schoen_some by assumption. f_equal.
  apply good_inv in G. destruct G as (L & D & Lf & F).
  apply (schoen_at z f _ (x 1%nat / s) L D).
  - intros. apply rsum_nonneg. intros. apply pow2_ge_0.
  - intros i j _ _ H. apply (schoen_dist_zero z n s x i j 1 ltac:(lia) H).
  - exact Hr.
  - intros i _. apply rsum_zero. intros k Hk. rewrite Hx by exact Hk. ring.
Qed.

Lemma low_schoen_6_1 : low schoen_6_1 (-1000).
Proof. intros x _. apply schoen_low; [vm_compute; reflexivity|lia]. Qed.
Lemma low_schoen_6_2 : low schoen_6_2 (-1000).
Proof. intros x _. apply schoen_low; [vm_compute; reflexivity|lia]. Qed.
Lemma low_schoen_10_1 : low schoen_10_1 (-1000).
Proof. intros x _. apply schoen_low; [vm_compute; reflexivity|lia]. Qed.
Lemma low_schoen_10_2 : low schoen_10_2 (-1000).
Proof. intros x _. apply schoen_low; [vm_compute; reflexivity|lia]. Qed.
Lemma low_schoen_6_1_int : low schoen_6_1_int (-1000).
Proof. intros x _. apply schoen_low; [vm_compute; reflexivity|lia]. Qed.
Lemma low_schoen_6_2_int : low schoen_6_2_int (-1000).
Proof. intros x _. apply schoen_low; [vm_compute; reflexivity|lia]. Qed.
Lemma low_schoen_10_1_int : low schoen_10_1_int (-1000).
Proof. intros x _. apply schoen_low; [vm_compute; reflexivity|lia]. Qed.
Lemma low_schoen_10_2_int : low schoen_10_2_int (-1000).
Proof. intros x _. apply schoen_low; [vm_compute; reflexivity|lia]. Qed.

(** * Schaeffer *)
Lemma schaeffer_si_nonneg : forall base opt x i, 0 < base -> 0 <= schaeffer_si base opt x i.
Proof.
  intros. unfold schaeffer_si. apply Rmult_le_pos; [left; apply pow_lt; assumption|apply sqrt_pos].
Qed.
Lemma schaeffer_sum_nonneg : forall base opt g x, 0 <= schaeffer_sum base opt g x.
Proof. intros. apply rsum_nonneg. intros. apply pow2_ge_0. Qed.
Lemma schaeffer_sum_zero : forall base opt g x, (forall i, (i < 12)%nat -> x i = entry opt i) ->
  schaeffer_sum base opt g x = 0.
Proof.
  intros base opt g x H. apply rsum_zero. intros i Hi.
  replace (schaeffer_si base opt x i) with 0.
  - rewrite sqrt_0. ring.
  - unfold schaeffer_si. rewrite (H i), (H (i + 1)%nat) by lia.
    replace ((entry opt i - entry opt i) ^ 2 + (entry opt (i + 1) - entry opt (i + 1)) ^ 2) with 0 by ring.
    rewrite sqrt_0. ring.
Qed.

Lemma low_schaeffer_1 : low schaeffer_f7_12_1 (-10).
Proof.
  intros x _. eexists. split; [reflexivity|]. pose proof (schaeffer_sum_nonneg 2 schaeffer_f7_12_1_opt sin x). lra.
Qed.
Lemma low_schaeffer_2 : low schaeffer_f7_12_2 10.
Proof.
  intros x _. eexists. split; [reflexivity|]. pose proof (schaeffer_sum_nonneg 3 schaeffer_f7_12_2_opt sin x). lra.
Qed.

Lemma oneof4 : forall k, (0 <= k <= 3)%Z -> holds (OneOf (IZR k) [0; 1; 2; 3]%Z) = true.
Proof.
  intros k H. apply holds_oneof.
  assert (C : (k = 0 \/ k = 1 \/ k = 2 \/ k = 3)%Z) by lia.
  destruct C as [C|[C|[C|C]]]; subst; reflexivity.
Qed.

Lemma low_schaeffer_1_cat : low schaeffer_f7_12_1_int_cat (-10).
Proof.
  intros x H. cbn [b_f schaeffer_f7_12_1_int_cat]. unfold schaeffer_f7_12_1_int_cat_f_eval, schaeffer_cat.
  assert (O : holds (OneOf (x 12%nat) [0; 1; 2; 3]%Z) = true).
  { int H 12%nat k. apply oneof4. lia. }
  rewrite guard_some by (repeat constructor; exact O).
  eexists. split; [reflexivity|].
  match goal with |- _ <= schaeffer_sum ?b ?o ?g ?x + _ => pose proof (schaeffer_sum_nonneg b o g x) end. lra.
Qed.
Lemma low_schaeffer_2_cat : low schaeffer_f7_12_2_int_cat (-10).
Proof.
  intros x H. cbn [b_f schaeffer_f7_12_2_int_cat]. unfold schaeffer_f7_12_2_int_cat_f_eval, schaeffer_cat.
  assert (O : holds (OneOf (x 12%nat) [0; 1; 2; 3]%Z) = true).
  { int H 12%nat k. apply oneof4. lia. }
  rewrite guard_some by (repeat constructor; exact O).
  eexists. split; [reflexivity|].
  match goal with |- _ <= schaeffer_sum ?b ?o ?g ?x + _ => pose proof (schaeffer_sum_nonneg b o g x) end. lra.
Qed.
