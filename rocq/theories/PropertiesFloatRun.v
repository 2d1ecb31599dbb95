(** * Properties in double arithmetic: the stopping test and proposed points (C158, C159) *)
From Coq Require Import Reals Lra Lia.
From Flocq Require Import Core.
From Verif Require Import FloatDist FloatAcc PropertiesFloat SpecFloatRun.
Open Scope R_scope.

(** The values of a default run: target -1e10, eps_zero 1e-15, eps_opt 1e-2; a target of 1, the values 1.005, 1.02. *)
(** Minus infinity. *)
Definition fminf : b64 := B754_infinity true.
Definition t_default : b64 := dbl true 5242880000000000 (-19) eq_refl.
Definition e_default : b64 := dbl false 5070602400912918 (-102) eq_refl.
Definition o_default : b64 := dbl false 5764607523034235 (-59) eq_refl.
Definition v_1005 : b64 := dbl false 4526117625507348 (-52) eq_refl.
Definition v_102 : b64 := dbl false 4593671619917906 (-52) eq_refl.

(** ** C158 *)
(** A worse best value never has a smaller gap: if the run stops at a value, it stops at every better one. *)
Theorem C158_monotone : forall target eps_zero f g : b64, is_finite target = true -> Bltb f0 eps_zero = true -> Bleb f g = true ->
  Bleb (fgap target eps_zero f) (fgap target eps_zero g) = true /\
  (forall eps_opt, is_nan eps_opt = false -> gap_goes_on target eps_zero eps_opt g = false -> gap_goes_on target eps_zero eps_opt f = false).
Proof.
  intros t e f g Ft He H. pose proof (gap_mono t e f g Ft He H) as M. split; [exact M|]. intros o No G. unfold gap_goes_on in *.
  destruct (leb_real _ _ M) as (N1 & N2). rewrite ltb_leb in G |- * by assumption. apply negb_false_iff in G. apply negb_false_iff.
  eapply leb_trans; eauto.
Qed.
Print Assumptions C158_monotone.
Example C158_monotone_case : is_finite t_default = true /\ Bltb f0 e_default = true /\ Bleb v_1005 v_102 = true /\
  gap_goes_on f1 e_default o_default v_102 = true /\ gap_goes_on f1 e_default o_default v_1005 = false.
Proof. repeat split; vm_compute; reflexivity. Qed.

(** Another iteration is made only if the target is a number and the best value is a number, or plus infinity, that is
    strictly worse than it: rounding never hides that the target was reached. *)
Theorem C158_goes_on_only_above_target : forall target eps_zero eps_opt f : b64, Bltb f0 eps_zero = true -> Bleb f0 eps_opt = true ->
  gap_goes_on target eps_zero eps_opt f = true -> is_finite target = true /\ is_nan f = false /\ Bltb target f = true.
Proof. exact goes_on_needs. Qed.
Print Assumptions C158_goes_on_only_above_target.
Example C158_goes_on_case : gap_goes_on t_default e_default o_default f0 = true /\ gap_goes_on t_default e_default o_default finf = true /\
  gap_goes_on t_default e_default o_default t_default = false /\ gap_goes_on t_default e_default o_default fnan = false.
Proof. repeat split; vm_compute; reflexivity. Qed.

(** The computed test agrees with the documented relative distance up to two roundings. *)
Theorem C158_accuracy : forall target eps_zero eps_opt f : b64,
  is_finite target = true -> is_finite f = true -> is_finite eps_zero = true -> Bltb f0 eps_zero = true ->
  is_finite eps_opt = true -> 0 <= B2R eps_opt <= 1 ->
  let D := documented_den target eps_zero in
  (gap_goes_on target eps_zero eps_opt f = true -> D * (B2R eps_opt - half_min) < (B2R f - B2R target) * ((1 + half_ulp) * (1 + half_ulp))) /\
  (gap_goes_on target eps_zero eps_opt f = false -> (B2R f - B2R target) * ((1 - half_ulp) * (1 - half_ulp)) <= D * (B2R eps_opt + half_min)).
Proof.
  intros t e o f Ft Ff Fe He Fo Ho D. assert (E : D = B2R (gap_den t e)).
  { unfold D, documented_den, gap_den. pose proof (Bleb_correct 53 1024 e (Babs t) Fe) as C. rewrite is_finite_Babs, B2R_Babs in C. rewrite (C Ft).
    destruct (Rle_bool _ _); [symmetry; apply B2R_Babs|symmetry; apply Bone_correct]. }
  rewrite E. exact (gap_accuracy t e o f Ft Ff He Fo Ho).
Qed.
Print Assumptions C158_accuracy.
Example C158_accuracy_case : is_finite t_default = true /\ is_finite v_1005 = true /\ is_finite e_default = true /\ Bltb f0 e_default = true /\
  is_finite o_default = true /\ 0 <= B2R o_default <= 1 /\ documented_den f1 e_default = 1.
Proof.
  do 5 (split; [vm_compute; reflexivity|]). split.
  - split; [apply (leb_R f0 o_default eq_refl eq_refl); vm_compute; reflexivity|].
    replace 1 with (B2R f1) by apply Bone_correct. apply (leb_R o_default f1 eq_refl eq_refl). vm_compute. reflexivity.
  - unfold documented_den. destruct (Rle_bool _ _); [|reflexivity]. replace (B2R f1) with 1 by (symmetry; apply Bone_correct). apply Rabs_R1.
Qed.

(** A user who wants no target and gives minus infinity gets no iteration at all: the gap is NaN and the loop test
    fails, whatever the best value. *)
Theorem C158_no_target_refuted : forall eps_zero eps_opt f : b64, Bltb f0 eps_zero = true ->
  is_nan (fgap fminf eps_zero f) = true /\ gap_goes_on fminf eps_zero eps_opt f = false.
Proof.
  intros e o f He. assert (N : is_nan (fgap fminf e f) = true).
  { unfold fgap, gap_den. assert (E : Bleb e (Babs fminf) = true) by (destruct e as [|[|]| |[|]]; try discriminate He; reflexivity).
    rewrite E. destruct f as [|[|]| |]; reflexivity. }
  split; [exact N|]. unfold gap_goes_on. apply nan_ltb. auto.
Qed.
Print Assumptions C158_no_target_refuted.
Example C158_no_target_case : Bltb f0 e_default = true /\ gap_goes_on fminf e_default o_default v_102 = false /\
  gap_goes_on t_default e_default o_default v_102 = true.
Proof. repeat split; vm_compute; reflexivity. Qed.

(** ** C159 *)
(** Clipping puts every real or infinite coordinate inside the bounds, and moves none that is inside already. *)
Theorem C159_clipped : forall lo up x : b64, Bleb lo up = true ->
  (is_nan x = false -> Bleb lo (fclip lo up x) = true /\ Bleb (fclip lo up x) up = true) /\
  (Bleb lo x = true -> Bleb x up = true -> Beqb (fclip lo up x) x = true) /\
  (is_nan x = true -> fclip lo up x = x).
Proof.
  intros lo up x H. split; [|split].
  - intros N. apply clip_box; assumption.
  - intros A B. destruct (clip_inside lo up x A B) as [E|E]; [|exact E]. rewrite E. destruct (leb_real _ _ A) as (_ & N).
    destruct x as [s|s| |s m e BD]; try discriminate N; [reflexivity|destruct s; reflexivity|].
    rewrite Beqb_correct by reflexivity. now apply Req_bool_true.
  - intros N. unfold fclip. rewrite N. reflexivity.
Qed.
Print Assumptions C159_clipped.
Example C159_clipped_case : Bleb lo_m2 up_01 = true /\ fclip lo_m2 up_01 f1 = up_01 /\ fclip lo_m2 up_01 fminf = lo_m2 /\ fclip lo_m2 up_01 f0 = f0.
Proof. repeat split; vm_compute; reflexivity. Qed.

(** Rounding an integer coordinate gives a whole number at most one half away, and keeps it inside whole bounds;
    rounding the bounds of an integer variable gives whole bounds that enclose the given ones, by less than one; clipping a
    whole coordinate to whole bounds keeps it whole. *)
Theorem C159_rounding : forall x : b64, is_finite x = true ->
  (whole_double (frint x) /\ Rabs (B2R (frint x) - B2R x) <= / 2 /\
   (forall lo up, whole_double lo -> whole_double up -> Bleb lo x = true -> Bleb x up = true ->
      Bleb lo (frint x) = true /\ Bleb (frint x) up = true)) /\
  (whole_double (ffloor x) /\ B2R x - 1 < B2R (ffloor x) <= B2R x) /\
  (whole_double (fceil x) /\ B2R x <= B2R (fceil x) < B2R x + 1) /\
  (forall lo up, whole_double lo -> whole_double up -> whole_double x -> Bleb lo up = true -> whole_double (fclip lo up x)).
Proof.
  intros x F. split; [exact (rint_spec x F)|]. split; [exact (floor_spec x F)|]. split; [exact (ceil_spec x F)|].
  intros lo up Wl Wu Wx H. apply clip_whole; auto. apply (fin_ext x F).
Qed.
Print Assumptions C159_rounding.
Definition half : b64 := dbl false 4503599627370496 (-53) eq_refl.
Example C159_rounding_case : is_finite up_01 = true /\ Beqb (frint up_01) f0 = true /\ Beqb (frint half) f0 = true /\ Beqb (fceil up_01) f1 = true /\
  Beqb (ffloor lo_m2) lo_m2 = true /\ whole_double f1 /\ whole_double f0.
Proof.
  do 5 (split; [vm_compute; reflexivity|]). split; (split; [reflexivity|]); [exists 1%Z; apply Bone_correct|exists 0%Z; reflexivity].
Qed.

(** Computed distances of finite points, summed in any order: never NaN, never negative, the same both ways, zero on the
    point itself. *)
Theorem C159_distance : forall p q r, all_finite p -> all_finite q -> fdistance p q r ->
  is_nan r = false /\ Bleb f0 r = true /\ fdistance q p r /\ (p = q -> Beqb r f0 = true).
Proof.
  intros p q r Hp Hq D. destruct (dist_nn p q r Hp Hq D) as (A & B). split; [exact A|]. split; [exact B|].
  split; [exact (dist_sym p q r Hp Hq D)|]. intros <-. destruct (dist_self p r Hp D) as (F & Z).
  rewrite (Beqb_correct 53 1024 _ f0 F eq_refl), Z. now apply Req_bool_true.
Qed.
Print Assumptions C159_distance.
(** A proposal equal to an interpolation point is discarded: it is never evaluated again by this test, whatever the
    rounding errors and the order of summation, for every [min_dist >= 0]. *)
Theorem C159_same_point_discarded : forall min_dist p nodes ans, Bleb f0 min_dist = true -> all_finite p -> (forall q, In q nodes -> all_finite q) ->
  In p nodes -> fdiscards min_dist p nodes ans -> ans = true.
Proof. exact discards_same. Qed.
Print Assumptions C159_same_point_discarded.
Lemma list2_eq (a b c d : b64) : B2SF a = B2SF c -> B2SF b = B2SF d -> [a; b] = [c; d].
Proof. intros H1 H2. apply B2SF_inj in H1, H2. congruence. Qed.
Example C159_distance_case : fdistance [f0; up_01] [f1; up_01] f1 /\ fdiscards e_default [f0; up_01] [[f1; up_01]; [f0; up_01]] true /\
  fdiscards e_default [f0; up_01] [[f1; up_01]] false /\
  all_finite [f0; up_01] /\ all_finite [f1; up_01] /\ Bleb f0 e_default = true.
Proof.
  assert (S2 : forall a b : b64, fsums [a; b] (fadd a b)) by (intros a b; apply (sum_two [a] [b]); apply sum_one).
  assert (D1 : fdistance [f0; up_01] [f1; up_01] f1).
  { exists (fadd f1 f0). split; [|apply B2SF_inj; vm_compute; reflexivity]. replace (fsquares [f0; up_01] [f1; up_01]) with [f1; f0]; [apply S2|].
    unfold fsquares. cbn [combine map fst snd]. apply list2_eq; vm_compute; reflexivity. }
  assert (D0 : fdistance [f0; up_01] [f0; up_01] f0).
  { exists (fadd f0 f0). split; [|apply B2SF_inj; vm_compute; reflexivity]. replace (fsquares [f0; up_01] [f0; up_01]) with [f0; f0]; [apply S2|].
    unfold fsquares. cbn [combine map fst snd]. apply list2_eq; vm_compute; reflexivity. }
  split; [exact D1|]. split; [exists [f1; f0]; split; [repeat (apply Forall2_cons; [assumption|]); apply Forall2_nil|vm_compute; reflexivity]|].
  split; [exists [f1]; split; [repeat (apply Forall2_cons; [assumption|]); apply Forall2_nil|vm_compute; reflexivity]|].
  split; [intros x [<-|[<-|[]]]; reflexivity|]. split; [intros x [<-|[<-|[]]]; reflexivity|vm_compute; reflexivity].
Qed.

(** The computed distance is the exact one up to rounding, for every order of summation; it overflows only for points more
    than about 2^512 apart. *)
Theorem C159_distance_accuracy : forall p q r, all_finite p -> all_finite q -> length p = length q -> fdistance p q r ->
  (is_finite r = true -> sqrt (least (length p) (sq_dist p q)) * (1 - half_ulp) - half_min <= B2R r <=
                         sqrt (most (length p) (sq_dist p q)) * (1 + half_ulp) + half_min) /\
  (is_finite r = false -> r = finf /\ bpow radix2 512 <= sqrt (most (length p) (sq_dist p q))).
Proof. exact dist_accuracy. Qed.
Print Assumptions C159_distance_accuracy.
(** The test is the documented one up to rounding: a proposal that is discarded is within [min_dist] of an interpolation
    point, one that is not is further than [min_dist] from all of them. *)
Theorem C159_discard_accuracy : forall min_dist p nodes ans, is_finite min_dist = true -> 0 <= B2R min_dist <= bpow radix2 512 ->
  all_finite p -> nodes <> [] -> (forall q, In q nodes -> all_finite q /\ length q = length p) -> fdiscards min_dist p nodes ans ->
  (ans = true -> exists q, In q nodes /\ sqrt (least (length p) (sq_dist p q)) * (1 - half_ulp) - half_min <= B2R min_dist) /\
  (ans = false -> forall q, In q nodes -> B2R min_dist < sqrt (most (length p) (sq_dist p q)) * (1 + half_ulp) + half_min).
Proof. exact discard_accuracy. Qed.
Print Assumptions C159_discard_accuracy.
Example C159_accuracy_case : is_finite e_default = true /\ 0 <= B2R e_default <= bpow radix2 512 /\
  (forall q, In q [[f1; up_01]; [f0; up_01]] -> all_finite q /\ length q = length [f0; up_01]) /\
  sq_dist [f0; up_01] [f1; up_01] = 1 /\ sq_dist [f0; up_01] [f0; up_01] = 0.
Proof.
  split; [reflexivity|]. split.
  - split; [apply (leb_R f0 e_default eq_refl eq_refl); vm_compute; reflexivity|].
    apply Rle_trans with (B2R f1); [apply (leb_R e_default f1 eq_refl eq_refl); vm_compute; reflexivity|].
    replace (B2R f1) with (bpow radix2 0) by (symmetry; apply Bone_correct). apply bpow_le. discriminate.
  - split; [intros q [<-|[<-|[]]]; (split; [intros x [<-|[<-|[]]]; reflexivity|reflexivity])|].
    assert (E1 : B2R f1 = 1) by apply Bone_correct. assert (E0 : B2R f0 = 0) by reflexivity.
    unfold sq_dist. cbn [combine fold_right fst snd]. rewrite E1, E0. generalize (B2R up_01). intros u. split; ring.
Qed.

(** Zero distance does not mean the same point: two different points whose squared difference underflows. *)
Theorem C159_zero_distance_refuted : exists p q : list b64, all_finite p /\ all_finite q /\ length p = length q /\ p <> q /\
  fdistance p q f0 /\ forall min_dist ans, Bleb f0 min_dist = true -> fdiscards min_dist p [q] ans -> ans = true.
Proof.
  exists [f0], [dbl false 4503599627370496 (-652) eq_refl]. split; [intros x [<-|[]]; reflexivity|]. split; [intros x [<-|[]]; reflexivity|].
  split; [reflexivity|]. split; [intros E; apply (f_equal (fun l => B2SF (hd f1 l))) in E; discriminate E|].
  set (q := dbl false 4503599627370496 (-652) eq_refl).
  assert (SQ : fsquares [f0] [q] = [f0]) by (unfold fsquares; cbn [combine map fst snd]; f_equal; apply B2SF_inj; vm_compute; reflexivity).
  assert (Q : fdistance [f0] [q] f0) by (exists f0; split; [rewrite SQ; apply sum_one|apply B2SF_inj; vm_compute; reflexivity]).
  split; [exact Q|]. intros md ans Hm (ds & HF & ->). inversion HF as [|? r ? ? D HF' E1 E2]; subst. inversion HF'; subst. clear HF HF'.
  destruct D as (s & Hs & ->). rewrite SQ in Hs. cbn [fminimum fold_left].
  assert (Z : zero s) by (eapply sums_zero; [exact Hs|constructor; [split; reflexivity|constructor]]).
  destruct (sqrt_zero s Z) as (F & V). apply leb_trans with f0; [|exact Hm]. apply leb_R; auto. rewrite V. cbn. lra.
Qed.
Print Assumptions C159_zero_distance_refuted.

(** A proposal with a NaN coordinate is not discarded: clipping keeps the NaN, the distance to every point is NaN, the test
    [NaN <= min_dist] is false, so the point goes to the black box. *)
Theorem C159_nan_point_discarded_refuted : forall min_dist bounds p nodes ans, some_nan p -> length bounds = length p -> nodes <> [] ->
  (forall q, In q nodes -> length q = length p) ->
  let clipped := map (fun bx => fclip (fst (fst bx)) (snd (fst bx)) (snd bx)) (combine bounds p) in
  some_nan clipped /\ (fdiscards min_dist clipped nodes ans -> ans = false).
Proof.
  intros md bs p nodes ans (x & Hx & N) HL Hn Hq. cbv zeta.
  assert (C : some_nan (map (fun bx => fclip (fst (fst bx)) (snd (fst bx)) (snd bx)) (combine bs p))).
  { exists x. split; [|exact N]. clear Hq. revert bs HL. induction p as [|a p IH]; intros [|b bs] HL; try discriminate HL; [destruct Hx|].
    cbn in HL. injection HL as HL. cbn [combine map fst snd]. destruct Hx as [->|Hx]; [left; unfold fclip; rewrite N; reflexivity|right; apply IH; assumption]. }
  split; [exact C|]. intros D. eapply discards_nan; [exact C|exact Hn| |exact D]. intros q Hin. rewrite (Hq q Hin), map_length, combine_length. lia.
Qed.
Print Assumptions C159_nan_point_discarded_refuted.
Example C159_nan_case : some_nan [fnan; up_01] /\ [[f1; up_01]] <> [] /\ fdiscards e_default [fnan; up_01] [[f1; up_01]] false.
Proof.
  split; [exists fnan; split; [left; reflexivity|reflexivity]|]. split; [discriminate|].
  exists [fnan]. split; [|reflexivity]. constructor; [|constructor]. exists fnan. split; [|reflexivity].
  replace (fsquares [fnan; up_01] [f1; up_01]) with [fnan; f0] by (unfold fsquares; cbn [combine map fst snd]; apply list2_eq; vm_compute; reflexivity).
  change fnan with (fadd fnan f0) at 2. apply (sum_two [fnan] [f0]); apply sum_one.
Qed.
