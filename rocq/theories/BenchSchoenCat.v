(** The categorical Schoen benchmark functions. *)
From Coq Require Import List String ZArith QArith Reals Qreals Lra Lia Bool Psatz.
From Verif Require Import ModelBenchData ModelBench SpecBench BenchBase BenchPoly BenchSchoen.
Import ListNotations.
Open Scope R_scope.

(** The functions a category can select are non-negative on [-1, 1] and
    vanish only at 0. *)
Definition tame (g : R -> R) : Prop :=
  forall y, -1 <= y <= 1 -> 0 <= g y /\ (g y = 0 -> y = 0).

Lemma tame_sqr : tame (fun y => y ^ 2).
Proof. intros y H. split; [apply pow2_ge_0|]. intros E. nra. Qed.
Lemma tame_abs : tame (fun y => Rabs (y + 50)).
Proof. intros y H. rewrite Rabs_pos_eq by lra. split; lra. Qed.
Lemma tame_ln : tame (fun y => ln (y + 10)).
Proof.
  intros y H. assert (P : 0 < ln (y + 10)) by (rewrite <- ln_1; apply ln_increasing; lra).
  split; lra.
Qed.
Lemma tame_sin : tame (fun y => sin y ^ 2).
Proof.
  intros y H. split; [apply pow2_ge_0|]. intros E.
  assert (S0 : sin y = 0) by nra.
  assert (P1 := PI2_1).
  destruct (Rtotal_order y 0) as [L|[L|L]]; [|assumption|].
  - exfalso. assert (0 < sin (- y)) by (apply sin_gt_0; lra). rewrite sin_neg in *. lra.
  - exfalso. assert (0 < sin y) by (apply sin_gt_0; lra). lra.
Qed.
Lemma tame_ext : forall g h, (forall y, g y = h y) -> tame h -> tame g.
Proof. intros g h E T y H. rewrite E. apply T, H. Qed.

Definition cat1 (k : R) : R -> R := pick k
    [(0%Z, fun y => y ^ 2); (1%Z, fun y => Rabs (y + 50));
     (2%Z, fun y => ln (y + 10)); (3%Z, fun y => sin y ^ 2)].
Definition cat2 (k : R) : R -> R := pick k
    [(0%Z, fun y => ln (y + 10)); (1%Z, fun y => Rabs (y + 50));
     (2%Z, fun y => y ^ 2); (3%Z, fun y => sin y ^ 2)].

Lemma cat1_tame : forall k, (0 <= k <= 3)%Z -> tame (cat1 (IZR k)).
Proof.
  intros k H. unfold cat1. assert (C : (k = 0 \/ k = 1 \/ k = 2 \/ k = 3)%Z) by lia.
  destruct C as [C|[C|[C|C]]]; subst k; eapply tame_ext;
  try (intros y; rewrite ?pick_miss by lia; apply pick_hit);
  [apply tame_sqr|apply tame_abs|apply tame_ln|apply tame_sin].
Qed.
Lemma cat2_tame : forall k, (0 <= k <= 3)%Z -> tame (cat2 (IZR k)).
Proof.
  intros k H. unfold cat2. assert (C : (k = 0 \/ k = 1 \/ k = 2 \/ k = 3)%Z) by lia.
  destruct C as [C|[C|[C|C]]]; subst k; eapply tame_ext;
  try (intros y; rewrite ?pick_miss by lia; apply pick_hit);
  [apply tame_ln|apply tame_abs|apply tame_sqr|apply tame_sin].
Qed.

Definition arg (z : list (list Q)) (x : nat -> R) (j k : nat) : R := x (2 + k)%nat - entry (nth j z []) k.
Definition cat_dist (z : list (list Q)) (n : nat) (x : nat -> R) (i j : nat) : R :=
  rsum n (fun k => if Nat.ltb i 25 then cat1 (x 0%nat) (arg z x j k) else cat2 (x 1%nat) (arg z x j k)).

Definition unit_table (z : list (list Q)) : bool :=
  forallb (fun r => forallb (fun v => Qle_bool 0 v && Qle_bool v 1) r) z.

Lemma unit_entry : forall z j k, unit_table z = true -> 0 <= entry (nth j z []) k <= 1.
Proof.
  intros z j k H. unfold entry.
  assert (D : 0 <= Q2R 0 <= 1) by (unfold Q2R; cbn; lra).
  destruct (Nat.lt_ge_cases j (List.length z)) as [Hj|Hj].
  2:{ rewrite (nth_overflow z) by assumption. destruct k; cbn; exact D. }
  unfold unit_table in H. rewrite forallb_forall in H. specialize (H _ (nth_In z [] Hj)).
  rewrite forallb_forall in H.
  destruct (Nat.lt_ge_cases k (List.length (nth j z []))) as [Hk|Hk].
  2:{ rewrite nth_overflow by assumption. exact D. }
  specialize (H _ (nth_In _ 0%Q Hk)). apply andb_true_iff in H. destruct H as [H1 H2].
  apply Qle_bool_iff in H1, H2. apply Qle_Rle in H1, H2.
  replace (Q2R 0) with 0 in H1 by (unfold Q2R; cbn; lra).
  replace (Q2R 1) with 1 in H2 by (unfold Q2R; cbn; lra). lra.
Qed.

Section Cat.
  Variables (z : list (list Q)) (f : list Q) (n : nat) (x : nat -> R) (k1 k2 : Z).
  Hypothesis (G : good_tables z f = true) (Un : unit_table z = true) (Hn : (2 <= n)%nat).
  Hypothesis (X0 : x 0%nat = IZR k1) (X1 : x 1%nat = IZR k2) (K1 : (0 <= k1 <= 3)%Z) (K2 : (0 <= k2 <= 3)%Z).
  Hypothesis Xu : forall k, (k < n)%nat -> 0 <= x (2 + k)%nat <= 1.

  Lemma arg_bound : forall j k, (k < n)%nat -> -1 <= arg z x j k <= 1.
  Proof. intros j k Hk. unfold arg. pose proof (unit_entry z j k Un). pose proof (Xu k Hk). lra. Qed.

  Lemma term_tame : forall i j k, (k < n)%nat ->
    let t := if Nat.ltb i 25 then cat1 (x 0%nat) (arg z x j k) else cat2 (x 1%nat) (arg z x j k) in
    0 <= t /\ (t = 0 -> arg z x j k = 0).
  Proof.
    intros i j k Hk. cbv zeta. rewrite X0, X1. destruct (Nat.ltb i 25).
    - apply cat1_tame; [assumption|]. apply arg_bound, Hk.
    - apply cat2_tame; [assumption|]. apply arg_bound, Hk.
  Qed.

  Lemma cat_dist_nonneg : forall i j, 0 <= cat_dist z n x i j.
  Proof. intros i j. apply rsum_nonneg. intros k Hk. apply (term_tame i j k Hk). Qed.

  Lemma cat_dist_zero : forall i j, cat_dist z n x i j = 0 -> x 3%nat = entry (nth j z []) 1.
  Proof.
    intros i j H. unfold cat_dist in H.
    assert (H1 : (1 < n)%nat) by lia.
    pose proof (rsum_ge1 n (fun k => if Nat.ltb i 25 then cat1 (x 0%nat) (arg z x j k) else cat2 (x 1%nat) (arg z x j k))
      1 H1 ltac:(intros k Hk; apply (term_tame i j k Hk))) as L. rewrite H in L.
    destruct (term_tame i j 1 H1) as [T1 T2]. cbv zeta in T1, T2.
    assert (E : arg z x j 1 = 0) by (apply T2; apply Rle_antisym; assumption).
    unfold arg in E. cbn in E. lra.
  Qed.

  Lemma schoen_cat_some : schoen_cat z f n x = Some (schoen_value (cat_dist z n x) f).
  Proof.
    pose proof (good_inv _ _ G) as (L & D & Lf & F).
    unfold schoen_cat. fold (cat1 (x 0%nat)). fold (cat2 (x 1%nat)).
    change (fun i j : nat => rsum n (fun k : nat => if (i <? 25)%nat
      then cat1 (x 0%nat) (x (2 + k)%nat - entry (nth j z []) k)
      else cat2 (x 1%nat) (x (2 + k)%nat - entry (nth j z []) k))) with (cat_dist z n x).
    apply guard_some. apply Forall_app. split.
    - repeat constructor.
      + rewrite X0. apply oneof4, K1.
      + rewrite X1. apply oneof4, K2.
      + apply holds_nonzero. apply Rgt_not_eq.
        apply (schoen_den_pos z _ (x 3%nat) L D).
        * intros. apply cat_dist_nonneg.
        * intros i j _ _ H. apply (cat_dist_zero i j H).
    - apply Forall_forall. intros c Hc. apply in_flat_map in Hc. destruct Hc as [j [_ Hc]].
      apply in_flat_map in Hc. destruct Hc as [k [Hk Hc]]. apply in_seq in Hk.
      pose proof (arg_bound j k ltac:(lia)) as B. unfold arg in B.
      assert (P : holds (Pos (x (2 + k)%nat - entry (nth j z []) k + 10)) = true) by (apply holds_pos; lra).
      destruct Hc as [<-|[<-|[]]]; cbn [holds] in P |- *.
      + destruct (Req_EM_T (x 0%nat) 2); [exact P|reflexivity].
      + destruct (Req_EM_T (x 1%nat) 0); [exact P|reflexivity].
  Qed.

  Lemma schoen_cat_low : exists y, schoen_cat z f n x = Some y /\ -1000 <= y.
  Proof.
    eexists. split; [apply schoen_cat_some|].
    pose proof (good_inv _ _ G) as (L & D & Lf & F).
    apply (schoen_ge z f _ (x 3%nat) L D).
    - intros. apply cat_dist_nonneg.
    - intros i j _ _ H. apply (cat_dist_zero i j H).
    - intros i Hi. pose proof (forallb_entry f (-1000) Lf F i Hi) as E.
      unfold Q2R in E at 1. cbn in E. lra.
  Qed.

  Lemma schoen_cat_opt : forall r, (r < 50)%nat -> k1 = 0%Z -> k2 = 2%Z ->
    (forall k, (k < n)%nat -> x (2 + k)%nat = entry (nth r z []) k) ->
    schoen_cat z f n x = Some (entry f r).
  Proof.
    intros r Hr E1 E2 Hx. rewrite schoen_cat_some. f_equal.
    pose proof (good_inv _ _ G) as (L & D & Lf & F).
    apply (schoen_at z f _ (x 3%nat) L D).
    - intros. apply cat_dist_nonneg.
    - intros i j _ _ H. apply (cat_dist_zero i j H).
    - exact Hr.
    - intros i _. apply rsum_zero. intros k Hk. unfold arg. rewrite Hx by exact Hk.
      rewrite X0, X1, E1, E2. unfold cat1, cat2.
      destruct (Nat.ltb i 25); [rewrite pick_hit; ring|].
      rewrite pick_miss by lia. rewrite pick_miss by lia. rewrite pick_hit. ring.
  Qed.
End Cat.

Lemma low_schoen_10_1_cat : low schoen_10_1_cat (-1000).
Proof.
  intros x H. destruct (H 0%nat ltac:(cbn; lia)) as [B0 T0]. destruct (H 1%nat ltac:(cbn; lia)) as [B1 T1].
  cbn in B0, B1, T0, T1. q2r B0. q2r B1.
  destruct (T0 ltac:(discriminate)) as [k1 E1]. destruct (T1 ltac:(discriminate)) as [k2 E2].
  rewrite E1 in B0. rewrite E2 in B1.
  apply (schoen_cat_low schoen_10_1_cat_z schoen_10_1_cat_f 10 x k1 k2);
    [vm_compute; reflexivity|vm_compute; reflexivity|lia|assumption|assumption| | |].
  - split; apply le_IZR; lra.
  - split; apply le_IZR; lra.
  - intros k Hk. pose proof (proj1 (H (2 + k)%nat ltac:(cbn; lia))) as B.
    do 10 (destruct k as [|k]; [cbn in B; q2r B; cbn; lra|]). lia.
Qed.
Lemma low_schoen_10_2_cat : low schoen_10_2_cat (-1000).
Proof.
  intros x H. destruct (H 0%nat ltac:(cbn; lia)) as [B0 T0]. destruct (H 1%nat ltac:(cbn; lia)) as [B1 T1].
  cbn in B0, B1, T0, T1. q2r B0. q2r B1.
  destruct (T0 ltac:(discriminate)) as [k1 E1]. destruct (T1 ltac:(discriminate)) as [k2 E2].
  rewrite E1 in B0. rewrite E2 in B1.
  apply (schoen_cat_low schoen_10_2_cat_z schoen_10_2_cat_f 10 x k1 k2);
    [vm_compute; reflexivity|vm_compute; reflexivity|lia|assumption|assumption| | |].
  - split; apply le_IZR; lra.
  - split; apply le_IZR; lra.
  - intros k Hk. pose proof (proj1 (H (2 + k)%nat ltac:(cbn; lia))) as B.
    do 10 (destruct k as [|k]; [cbn in B; q2r B; cbn; lra|]). lia.
Qed.
