(** * C153: all optima of branin and branin_cat. *)
From Verif Require Import ModelOptima SpecBench SpecOptima BenchBase BenchLog BenchExtra PropertiesBench OptimaProofs.
From Coq Require Import Reals Qreals Lra Lia ZArith List.
Import ListNotations.
Open Scope R_scope.

(** The declared optima. *)
Definition declared (b : bench) (more : list (list Q)) : list (list R) := optimum_point b :: map (map Q2R) more.
Definition branin_minimizers : list (list R) :=
  [[3 * PI; 2475 / 1000]; [- PI; 12275 / 1000]; [PI; 2275 / 1000]].
Definition branin_cat_minimizers : list (list R) :=
  [[3 * PI; 2475 / 1000; 0]; [- PI; 12275 / 1000; 0]; [PI; 2275 / 1000; 0];
   [- (PI / 2); 881875 / 100000; 1]; [3 / 2 * PI; 136875 / 100000; 1]].

Lemma minimizer_value b v p : is_minimum b v -> (minimizer b p <-> in_space b p /\ evaluate b p = Some v).
Proof.
  intros (L & (q & Hq & Eq)). split.
  - intros (Hp & w & Ew & H). split; [exact Hp|]. destruct (L p Hp) as (y & Ey & Hy).
    rewrite Ew in Ey. injection Ey as <-. specialize (H q v Hq Eq). rewrite Ew. f_equal. lra.
  - intros (Hp & E). split; [exact Hp|]. exists v. split; [exact E|]. intros q' w Hq' Ew.
    destruct (L q' Hq') as (y & Ey & Hy). congruence.
Qed.
Lemma two (p : list R) : length p = 2%nat -> exists x y, p = [x; y].
Proof. destruct p as [|x [|y [|]]]; try discriminate. eauto. Qed.
Lemma three (p : list R) : length p = 3%nat -> exists x y z, p = [x; y; z].
Proof. destruct p as [|x [|y [|z [|]]]]; try discriminate. eauto. Qed.
Lemma branin_box x y : in_space branin [x; y] <-> -5 <= x <= 10 /\ 0 <= y <= 15.
Proof.
  split.
  - intros (_ & H). pose proof (H 0%nat ltac:(cbn; lia)) as (A & _). pose proof (H 1%nat ltac:(cbn; lia)) as (B & _).
    cbn [nth branin b_lo b_up] in A, B. unfold Q2R in A, B. cbn [Qnum Qden] in A, B. lra.
  - intros (A & B). split; [reflexivity|]. intros i Hi.
    do 2 (destruct i as [|i]; [cbn [nth branin b_lo b_up b_type]; unfold Q2R; cbn [Qnum Qden]; split; [lra|congruence]|]).
    cbn in Hi. lia.
Qed.
Lemma branin_cat_box x y z : in_space branin_cat [x; y; z] <->
  -5 <= x <= 10 /\ 0 <= y <= 15 /\ exists k : Z, z = IZR k /\ (0 <= k <= 3)%Z.
Proof.
  split.
  - intros (_ & H). pose proof (H 0%nat ltac:(cbn; lia)) as (A & _). pose proof (H 1%nat ltac:(cbn; lia)) as (B & _).
    pose proof (H 2%nat ltac:(cbn; lia)) as (D & E).
    cbn [nth branin_cat b_lo b_up b_type] in A, B, D, E. unfold Q2R in A, B, D. cbn [Qnum Qden] in A, B, D.
    split; [lra|]. split; [lra|]. destruct (E ltac:(discriminate)) as (k & ->). exists k. split; [reflexivity|].
    split; apply le_IZR; lra.
  - intros (A & B & k & -> & K). destruct K as (K1 & K2). apply IZR_le in K1, K2.
    split; [reflexivity|]. intros i Hi.
    do 2 (destruct i as [|i]; [cbn [nth branin_cat b_lo b_up b_type]; unfold Q2R; cbn [Qnum Qden]; split; [lra|congruence]|]).
    destruct i as [|i]; [cbn [nth branin_cat b_lo b_up b_type]; unfold Q2R; cbn [Qnum Qden]; split; [lra|exists k; reflexivity]|].
    cbn in Hi. lia.
Qed.
Lemma curve_values : curve (3 * PI / PI) = 2475 / 1000 /\ curve (- PI / PI) = 12275 / 1000 /\ curve (PI / PI) = 2275 / 1000 /\
  curve (- (PI / 2) / PI) = 881875 / 100000 /\ curve (3 / 2 * PI / PI) = 136875 / 100000.
Proof.
  pose proof PI_bounds as [A B]. unfold curve. repeat split; field; lra.
Qed.
Lemma branin_eval x y : evaluate branin [x; y] = Some (5 / (4 * PI)) <-> y = curve (x / PI) /\ cos x = -1.
Proof.
  unfold evaluate. cbn [branin b_dim b_f List.length Nat.eqb]. unfold branin_f_eval. cbn [nth].
  rewrite <- square_zero. pose proof (COS_bound x) as (C & _).
  match goal with |- Some (?s ^ 2 + _ + _) = _ <-> _ => rewrite <- (value_min s (cos x) C) end.
  split; [intros H; injection H as H; exact H|intros ->; reflexivity].
Qed.
Lemma branin_cat_eval x y k : (0 <= k <= 3)%Z -> evaluate branin_cat [x; y; IZR k] = Some (5 / (4 * PI)) <->
  y = curve (x / PI) /\ (k = 0%Z /\ cos x = -1 \/ k = 1%Z /\ sin x = -1).
Proof.
  intros K. unfold evaluate. cbn [branin_cat b_dim b_f List.length Nat.eqb]. unfold branin_cat_f_eval. cbn [nth].
  rewrite <- square_zero.
  assert (D : (k = 0 \/ k = 1 \/ k = 2 \/ k = 3)%Z) by lia.
  rewrite guard_some by (repeat constructor; apply holds_oneof; destruct D as [C|[C|[C|C]]]; subst; reflexivity).
  match goal with |- context [pick ?a ?l ?z] => set (c := pick a l z) end.
  assert (X : -1 <= c /\ (c = -1 <-> k = 0%Z /\ cos x = -1 \/ k = 1%Z /\ sin x = -1)).
  { unfold c. destruct D as [D|[D|[D|D]]]; subst k.
    - rewrite pick_hit. split; [apply COS_bound|]. split; [auto|]. intros [(_ & H)|(H & _)]; [exact H|lia].
    - rewrite pick_miss, pick_hit by lia. split; [apply SIN_bound|]. split; [auto|]. intros [(H & _)|(_ & H)]; [lia|exact H].
    - rewrite !pick_miss, pick_hit by lia. pose proof (pow2_ge_0 (cos (x + PI / 4))). split; [lra|]. split; [lra|].
      intros [(H0 & _)|(H0 & _)]; lia.
    - rewrite !pick_miss, pick_hit by lia. pose proof (pow2_ge_0 (sin (x + PI / 4))). split; [lra|]. split; [lra|].
      intros [(H0 & _)|(H0 & _)]; lia. }
  destruct X as (C & X). rewrite <- X.
  match goal with |- Some (?s ^ 2 + _ + _) = _ <-> _ => rewrite <- (value_min s c C) end.
  split; [intros H; injection H as H; exact H|intros ->; reflexivity].
Qed.

(** ** C153
    The declared optima of branin are, to 1e-7, exactly its global minimizers. *)
Theorem C153_branin_minimizers : forall p, minimizer branin p <-> In p branin_minimizers.
Proof.
  intros p. rewrite (minimizer_value branin _ p (proj1 C139_branin_attained)).
  pose proof PI_bounds as [PA PB]. destruct curve_values as (V1 & V2 & V3 & _ & _).
  split.
  - intros (Hp & E). destruct (two p (proj1 Hp)) as (x & y & ->). apply branin_box in Hp. destruct Hp as (Hx & _).
    apply branin_eval in E. destruct E as (-> & Hc). destruct (cos_m1 x Hx Hc) as [->|[->| ->]].
    + right; left. rewrite V2. reflexivity.
    + right; right; left. rewrite V3. reflexivity.
    + left. rewrite V1. reflexivity.
  - intros [<-|[<-|[<-|[]]]]; (split; [apply branin_box; lra|apply branin_eval; split; [auto|]]).
    + apply cos_3.
    + rewrite cos_neg. apply cos_PI.
    + apply cos_PI.
Qed.
Print Assumptions C153_branin_minimizers.
Theorem C153_branin_declared : Forall2 (close (1 / 10000000)) (declared branin branin_additional) branin_minimizers.
Proof.
  pose proof PI_bounds as [PA PB].
  unfold declared, close, branin_minimizers, optimum_point. cbn [branin b_opt branin_additional map].
  repeat (apply Forall2_cons || apply Forall2_nil); unfold Q2R; cbn [Qnum Qden]; apply Rabs_le; lra.
Qed.
Print Assumptions C153_branin_declared.
(** branin_cat has five global minimizers; three of them are the declared optima, ... *)
Theorem C153_branin_cat_minimizers : forall p, minimizer branin_cat p <-> In p branin_cat_minimizers.
Proof.
  intros p. rewrite (minimizer_value branin_cat _ p (proj2 C139_branin_attained)).
  pose proof PI_bounds as [PA PB]. destruct curve_values as (V1 & V2 & V3 & V4 & V5). destruct sin_half as (S1 & S2).
  split.
  - intros (Hp & E). destruct (three p (proj1 Hp)) as (x & y & z & ->). apply branin_cat_box in Hp.
    destruct Hp as (Hx & _ & k & -> & K).
    apply branin_cat_eval in E; [|exact K]. destruct E as (-> & [(-> & Hc)|(-> & Hs)]).
    + destruct (cos_m1 x Hx Hc) as [->|[->| ->]].
      * right; left. rewrite V2. reflexivity.
      * right; right; left. rewrite V3. reflexivity.
      * left. rewrite V1. reflexivity.
    + destruct (sin_m1 x Hx Hs) as [->| ->].
      * right; right; right; left. rewrite V4. reflexivity.
      * right; right; right; right; left. rewrite V5. reflexivity.
  - assert (X : forall x y k, (0 <= k <= 3)%Z -> -5 <= x <= 10 -> 0 <= y <= 15 -> y = curve (x / PI) ->
      k = 0%Z /\ cos x = -1 \/ k = 1%Z /\ sin x = -1 ->
      in_space branin_cat [x; y; IZR k] /\ evaluate branin_cat [x; y; IZR k] = Some (5 / (4 * PI))).
    { intros x y k K Hx Hy Ey D. split; [apply branin_cat_box; eauto|]. apply branin_cat_eval; auto. }
    intros [<-|[<-|[<-|[<-|[<-|[]]]]]].
    + apply (X _ _ 0%Z); [lia|lra|lra|auto|]. left. split; [reflexivity|apply cos_3].
    + apply (X _ _ 0%Z); [lia|lra|lra|auto|]. left. split; [reflexivity|rewrite cos_neg; apply cos_PI].
    + apply (X _ _ 0%Z); [lia|lra|lra|auto|]. left. split; [reflexivity|apply cos_PI].
    + apply (X _ _ 1%Z); [lia|lra|lra|auto|]. right. split; [reflexivity|exact S1].
    + apply (X _ _ 1%Z); [lia|lra|lra|auto|]. right. split; [reflexivity|exact S2].
Qed.
Print Assumptions C153_branin_cat_minimizers.
Theorem C153_branin_cat_declared :
  Forall2 (close (1 / 10000000)) (declared branin_cat branin_cat_additional) (firstn 3 branin_cat_minimizers).
Proof.
  pose proof PI_bounds as [PA PB].
  unfold declared, close, branin_cat_minimizers, optimum_point. cbn [branin_cat b_opt branin_cat_additional map firstn].
  repeat (apply Forall2_cons || apply Forall2_nil); unfold Q2R; cbn [Qnum Qden]; apply Rabs_le; lra.
Qed.
Print Assumptions C153_branin_cat_declared.
(** ... but the two others, with category 1, are not. *)
Theorem C153_branin_cat_complete_refuted : exists p, minimizer branin_cat p /\
  forall q, In q (declared branin_cat branin_cat_additional) -> ~ close (1 / 2) q p.
Proof.
  exists [3 / 2 * PI; 136875 / 100000; 1]. split; [apply C153_branin_cat_minimizers; right; right; right; right; left; reflexivity|].
  unfold declared, optimum_point. cbn [branin_cat b_opt branin_cat_additional map].
  assert (X : forall x y z, z = 0 -> ~ close (1 / 2) [x; y; z] [3 / 2 * PI; 136875 / 100000; 1]).
  { intros x y z -> H. inversion H as [|? ? ? ? _ H2]; subst. inversion H2 as [|? ? ? ? _ H3]; subst.
    inversion H3 as [|? ? ? ? H4 _]; subst. replace (0 - 1) with (-1) in H4 by ring. rewrite Rabs_left in H4; lra. }
  intros q [<-|[<-|[<-|[]]]]; apply X; unfold Q2R; cbn [Qnum Qden]; lra.
Qed.
Print Assumptions C153_branin_cat_complete_refuted.
Example C153_case : in_space branin [3 * PI; 2475 / 1000].
Proof. apply branin_box. pose proof PI_bounds as [PA PB]. lra. Qed.
