(** * Properties of value rescaling in double arithmetic (C160) *)
From Coq Require Import Reals Lra Lia.
From Flocq Require Import Core.
From Verif Require Import FloatValues FloatCutoff PropertiesFloat SpecFloatValues SpecFloatRun.
Open Scope R_scope.

(** One description of all cases. *)
Lemma fvalues_form affine m thr ez fmin fmax vals : sample vals fmin fmax -> sensible thr ez ->
  exists (g : b64 -> b64) (top : b64), lim 1000 fmin /\ lim 1020 top /\ B2R fmin <= B2R top /\ is_finite ez = true /\ 0 < B2R ez <= 1 /\
    (forall x, In x vals -> is_finite (g x) = true /\ B2R (g x) = Rmin (B2R x) (B2R top) /\ is_finite x = true /\ B2R fmin <= B2R x) /\
    (m <> ClipAtDyn -> B2R top <= B2R fmax) /\ top = match cutoff m thr ez fmin fmax vals with Some c => c | None => fmax end /\
    g = match cutoff m thr ez fmin fmax vals with Some c => fclipmax c | None => fun x => x end /\
    fvalues affine m thr ez fmin fmax vals =
      if affine then (map (fun v => T fmin top ez (g v)) vals, f0, if Bltb ez (fsub top fmin) then f1 else f0)
      else (map g vals, fmin, top).
Proof.
  intros (Hmin & Hmax & H) (Ft & Ht & Fe & He).
  assert (LA : forall x, In x vals -> lim 1000 x /\ Bleb fmin x = true /\ Bleb x fmax = true).
  { intros x Hx. destruct (H x Hx) as (A & B & C & D). split; [split; assumption|auto]. }
  destruct (LA fmin Hmin) as (Lmin & _). destruct (LA fmax Hmax) as (Lmax & MM & _).
  assert (Q : B2R fmin <= B2R fmax) by (apply leb_R in MM; [exact MM|apply Lmin|apply Lmax]).
  destruct (cutoff m thr ez fmin fmax vals) as [c|] eqn:E.
  - destruct (cut_bounds m thr ez fmin fmax vals c ltac:(intros ->; destruct Hmin) LA Lmin Lmax Ft Ht Fe He E) as (Lc & Qc).
    exists (fclipmax c), c. split; [exact Lmin|]. split; [exact Lc|]. split; [exact Qc|]. split; [exact Fe|]. split; [exact He|]. split; [|split; [|split; [reflexivity|split; [reflexivity|]]]].
    + intros x Hx. destruct (LA x Hx) as ((Fx & _) & B & _). destruct (clipmax_spec c x (proj1 Lc) Fx) as (X1 & X2).
      split; [exact X1|]. split; [exact X2|]. split; [exact Fx|]. apply leb_R in B; auto. apply Lmin.
    + intros NM. unfold cutoff in E. destruct m; [discriminate| |congruence]. destruct (high_dynamism thr ez fmin fmax); [|discriminate]. assert (EC : c = fmedian vals) by congruence.
      rewrite EC. apply (median_bounds vals fmin fmax ltac:(intros ->; destruct Hmin) LA (proj1 Lmin) (proj1 Lmax)).
    + unfold fvalues. rewrite E. destruct affine; [|reflexivity]. rewrite map_map. reflexivity.
  - exists (fun x => x), fmax. split; [exact Lmin|]. split; [apply (lim_le 1000); [lia|exact Lmax]|]. split; [exact Q|]. split; [exact Fe|]. split; [exact He|].
    split; [|split; [intros _; apply Rle_refl|split; [reflexivity|split; [reflexivity|]]]].
    + intros x Hx. destruct (LA x Hx) as ((Fx & _) & B & C). split; [exact Fx|]. apply leb_R in B, C; auto; try apply Lmin; try apply Lmax.
      rewrite Rmin_left by lra. auto.
    + unfold fvalues. rewrite E. destruct affine; [reflexivity|]. rewrite map_id. reflexivity.
Qed.
Lemma nth_map_in (f : b64 -> b64) l i d d' : (i < length l)%nat -> nth i (map f l) d = f (nth i l d').
Proof. intros H. rewrite (nth_indep _ d (f d')) by (rewrite map_length; exact H). apply map_nth. Qed.
Lemma eqb_R (x y : b64) : is_finite x = true -> is_finite y = true -> (Beqb x y = true <-> B2R x = B2R y).
Proof. intros Fx Fy. rewrite (Beqb_correct 53 1024 _ _ Fx Fy). destruct (Req_bool_spec (B2R x) (B2R y)); split; congruence. Qed.

(** For every setting of clipping, with and without affine scaling: no transformed value is NaN or infinite, they lie between
    the transformed minimum and maximum (up to eps_zero when the values are flat), the order is kept, and the best value goes to
    the transformed minimum.  Except when cut off at the threshold, the worst value goes to the transformed maximum unless the values are flat. *)
Theorem C160_values : forall affine m thr eps_zero fmin fmax vals, sample vals fmin fmax -> sensible thr eps_zero ->
  let '(tv, tmin, tmax) := fvalues affine m thr eps_zero fmin fmax vals in
  length tv = length vals /\
  forall i, (i < length vals)%nat -> let v := nth i vals fnan in let t := nth i tv fnan in
    is_finite t = true /\ Bleb tmin t = true /\
    (Bleb t tmax = true \/ (affine = true /\ tmax = f0 /\ Bleb t eps_zero = true)) /\
    (forall j, (j < length vals)%nat -> Bleb v (nth j vals fnan) = true -> Bleb t (nth j tv fnan) = true) /\
    (Beqb v fmin = true -> Beqb t tmin = true) /\
    (m <> ClipAtDyn -> Beqb v fmax = true -> Beqb t tmax = true \/ (affine = true /\ tmax = f0)).
Proof.
  intros affine m thr ez fmin fmax vals HS HE. destruct (fvalues_form affine m thr ez fmin fmax vals HS HE) as (g & top & Lmin & Ltop & Hle & Fe & He & G & HC & _ & _ & ->).
  destruct HS as (_ & Hmax & HS). assert (Fmax : is_finite fmax = true) by (apply HS; exact Hmax). clear HE.
  assert (E1 : B2R f1 = 1) by apply Bone_correct.
  assert (K : forall i, (i < length vals)%nat -> In (nth i vals fnan) vals) by (intros; now apply nth_In).
  assert (GB : forall x, In x vals -> B2R fmin <= B2R (g x) <= B2R top).
  { intros x Hx. destruct (G x Hx) as (_ & -> & _ & B). split; [apply Rmin_glb; assumption|apply Rmin_r]. }
  assert (GM : forall x y, In x vals -> In y vals -> Bleb x y = true -> B2R (g x) <= B2R (g y)).
  { intros x y Hx Hy L. destruct (G x Hx) as (_ & -> & Fx & _). destruct (G y Hy) as (_ & -> & Fy & _). apply leb_R in L; auto.
    apply Rle_min_compat_r. exact L. }
  assert (GN : forall x, In x vals -> Beqb x fmin = true -> B2R (g x) = B2R fmin).
  { intros x Hx Q. destruct (G x Hx) as (_ & -> & Fx & _). apply eqb_R in Q; [|exact Fx|apply Lmin]. rewrite Q. apply Rmin_left. exact Hle. }
  assert (GX : forall x, In x vals -> m <> ClipAtDyn -> Beqb x fmax = true -> B2R (g x) = B2R top).
  { intros x Hx M Q. destruct (G x Hx) as (_ & -> & Fx & _). apply eqb_R in Q; [|exact Fx|exact Fmax]. rewrite Q. apply Rmin_right. auto. }
  destruct affine.
  - split; [apply map_length|]. intros i Hi. cbv zeta. pose proof (K i Hi) as Hx.
    rewrite (nth_map_in (fun w => T fmin top ez (g w)) vals i fnan fnan Hi). set (x := nth i vals fnan) in *.
    destruct (G x Hx) as (Fg & _). pose proof (GB x Hx) as B.
    destruct (T_spec fmin top ez Lmin Ltop Fe He (g x) Fg B) as (FT & _ & T0 & T1 & TE).
    split; [exact FT|]. split; [apply leb_R; auto|]. split.
    { destruct (Bltb ez (fsub top fmin)) eqn:W; [left; apply leb_R; auto; rewrite E1; auto|right]. split; [reflexivity|]. split; [reflexivity|]. apply leb_R; auto. }
    split.
    { intros j Hj L. pose proof (K j Hj) as Hy. rewrite (nth_map_in (fun w => T fmin top ez (g w)) vals j fnan fnan Hj). set (y := nth j vals fnan) in *.
      destruct (G y Hy) as (Fy & _). pose proof (GB y Hy) as By. destruct (T_spec fmin top ez Lmin Ltop Fe He (g y) Fy By) as (FTy & _).
      apply leb_R; auto. apply T_mono; auto; try lra. }
    split.
    { intros Q. apply eqb_R; auto. change (B2R f0) with 0. apply T_min; auto. }
    intros M Q. destruct (Bltb ez (fsub top fmin)) eqn:W; [left|right; auto]. apply eqb_R; auto. rewrite E1. apply T_max; auto.
  - split; [apply map_length|]. intros i Hi. cbv zeta. pose proof (K i Hi) as Hx.
    rewrite (nth_map_in g vals i fnan fnan Hi). set (x := nth i vals fnan) in *.
    destruct (G x Hx) as (Fg & _). pose proof (GB x Hx) as B. destruct Lmin as (Fmin & _). destruct Ltop as (Ftop & _).
    split; [exact Fg|]. split; [apply leb_R; auto; lra|]. split; [left; apply leb_R; auto; lra|]. split.
    { intros j Hj L. pose proof (K j Hj) as Hy. rewrite (nth_map_in g vals j fnan fnan Hj). destruct (G _ Hy) as (Fy & _). apply leb_R; auto. }
    split; [intros Q; apply eqb_R; auto|]. intros M Q. left. apply eqb_R; auto.
Qed.
Print Assumptions C160_values.
(** Values 1, 4 and 1000000 with the default threshold 1000: the last one is cut off at 1000, or at the median. *)
Definition v_4 : b64 := dbl false 4503599627370496 (-50) eq_refl.
Definition v_1000 : b64 := dbl false 8796093022208000 (-43) eq_refl.
Definition v_1e6 : b64 := dbl false 8589934592000000 (-33) eq_refl.
Definition v_1em15 : b64 := dbl false 5070602400912918 (-102) eq_refl.
Definition v_m1e17 : b64 := dbl true 6250000000000000 4 eq_refl.
Definition v_1e308 : b64 := dbl false 5010420900022432 971 eq_refl.
Definition v_m1e308 : b64 := dbl true 5010420900022432 971 eq_refl.
Lemma le_R (x y : b64) : is_finite x = true -> is_finite y = true -> Bleb x y = true -> B2R x <= B2R y.
Proof. intros A B C. apply leb_R; assumption. Qed.
Lemma abs_lim (x : b64) : is_finite x = true -> Bleb (Babs x) (dbl false 4503599627370496 948 eq_refl) = true -> Rabs (B2R x) <= bpow radix2 1000.
Proof.
  intros F L. apply le_R in L; [|rewrite is_finite_Babs; exact F|reflexivity]. rewrite B2R_Babs in L. eapply Rle_trans; [exact L|].
  unfold dbl. cbn [B2R]. unfold F2R. cbn [Fnum Fexp cond_Zopp]. replace (IZR (Z.pos 4503599627370496)) with (bpow radix2 52) by (cbn; lra).
  rewrite <- bpow_plus. apply Rle_refl.
Qed.
Lemma v_sensible : sensible v_1000 v_1em15.
Proof.
  assert (E1 : B2R f1 = 1) by apply Bone_correct. split; [reflexivity|]. split.
  - split; [rewrite <- E1; apply le_R; vm_compute; reflexivity|].
    apply Rle_trans with (B2R v_1e6); [apply le_R; vm_compute; reflexivity|]. unfold v_1e6, dbl. cbn [B2R]. unfold F2R. cbn [Fnum Fexp cond_Zopp].
    apply Rle_trans with (bpow radix2 53 * bpow radix2 (-33)); [|rewrite <- bpow_plus; apply Rle_refl].
    apply Rmult_le_compat_r; [apply bpow_ge_0|]. change (bpow radix2 53) with (IZR (2 ^ 53)). apply IZR_le. vm_compute. discriminate.
  - split; [reflexivity|]. split; [|rewrite <- E1; apply le_R; vm_compute; reflexivity].
    unfold v_1em15, dbl. cbn [B2R]. apply F2R_gt_0. reflexivity.
Qed.
Example C160_case : sample [f1; v_4; v_1e6] f1 v_1e6 /\ sensible v_1000 v_1em15 /\
  (let '(tv, tmin, tmax) := fvalues false ClipAtDyn v_1000 v_1em15 f1 v_1e6 [f1; v_4; v_1e6] in
   map B2SF tv = map B2SF [f1; v_4; v_1000] /\ B2SF tmin = B2SF f1 /\ B2SF tmax = B2SF v_1000) /\
  (let '(tv, tmin, tmax) := fvalues true ClipMedian v_1000 v_1em15 f1 v_1e6 [f1; v_4; v_1e6] in
   map B2SF tv = map B2SF [f0; f1; f1] /\ B2SF tmin = B2SF f0 /\ B2SF tmax = B2SF f1).
Proof.
  split; [|split; [exact v_sensible|split; vm_compute; auto]].
  split; [left; reflexivity|]. split; [right; right; left; reflexivity|].
  intros x [<-|[<-|[<-|[]]]]; (split; [reflexivity|]; split; [apply abs_lim; vm_compute; reflexivity|split; vm_compute; reflexivity]).
Qed.

(** The affine image of a value is its relative position between the minimum and the cutoff, up to rounding; the values count
    as flat (maximum 0) when they are within eps_zero of each other. *)
Theorem C160_affine_accuracy : forall m thr eps_zero fmin fmax vals, sample vals fmin fmax -> sensible thr eps_zero ->
  let '(tv, tmin, tmax) := fvalues true m thr eps_zero fmin fmax vals in
  let top := match cutoff m thr eps_zero fmin fmax vals with Some c => c | None => fmax end in
  tmin = f0 /\
  ((tmax = f1 /\ B2R eps_zero < (B2R top - B2R fmin) * (1 + half_ulp)) \/
   (tmax = f0 /\ (B2R top - B2R fmin) * (1 - half_ulp) <= B2R eps_zero)) /\
  forall i, (i < length vals)%nat -> let t := nth i tv fnan in tmax = f1 ->
    let q := (Rmin (B2R (nth i vals fnan)) (B2R top) - B2R fmin) / (B2R top - B2R fmin) in
    q * ((1 - half_ulp) * (1 - half_ulp) / (1 + half_ulp)) - half_min <= B2R t <= q * ((1 + half_ulp) * (1 + half_ulp) / (1 - half_ulp)) + half_min.
Proof.
  intros m thr ez fmin fmax vals HS HE. destruct (fvalues_form true m thr ez fmin fmax vals HS HE) as (g & top & Lmin & Ltop & Hle & Fe & He & G & _ & ET & _ & ->).
  rewrite <- ET. split; [reflexivity|]. split.
  { destruct (spread fmin top Lmin Ltop) as (FS & VS). pose proof (sub_error top fmin ltac:(lra)) as (S1 & S2). change u53 with half_ulp in S1, S2.
    rewrite (Bltb_correct 53 1024 _ _ Fe FS), VS. destruct (Rlt_bool_spec (B2R ez) (rnd (B2R top - B2R fmin))); [left|right]; split; try reflexivity; lra. }
  intros i Hi. cbv zeta.
  destruct (Bltb ez (fsub top fmin)) eqn:W; [intros _|intros X; apply (f_equal B2SF) in X; discriminate X].
  rewrite (nth_map_in (fun w => T fmin top ez (g w)) vals i fnan fnan Hi). destruct (G _ (nth_In vals fnan Hi)) as (Fg & <- & _ & B).
  assert (GB : B2R fmin <= B2R (g (nth i vals fnan)) <= B2R top).
  { destruct (G _ (nth_In vals fnan Hi)) as (_ & -> & _ & _). split; [apply Rmin_glb; assumption|apply Rmin_r]. }
  apply T_acc; assumption.
Qed.
Print Assumptions C160_affine_accuracy.

(** When large values are cut off, and where.  Under the documented condition (the ratio of the extreme values, or the largest
    one when the smallest is near zero, exceeds the threshold; up to one rounding) they are cut off at a median, or at
    threshold times the smallest one (up to one rounding). *)
Theorem C160_cutoff : forall m thr eps_zero fmin fmax vals, sample vals fmin fmax -> sensible thr eps_zero ->
  let near_zero := Rabs (B2R fmin) <= B2R eps_zero in
  (cutoff m thr eps_zero fmin fmax vals = None -> m <> ClipOff ->
     (near_zero -> Rabs (B2R fmax) <= B2R thr) /\
     (~ near_zero -> Rabs (B2R fmax) * (1 - half_ulp) <= (B2R thr + half_min) * Rabs (B2R fmin))) /\
  (forall c, cutoff m thr eps_zero fmin fmax vals = Some c -> m <> ClipOff /\ is_finite c = true /\
     (near_zero -> B2R thr < Rabs (B2R fmax)) /\
     (~ near_zero -> B2R thr * Rabs (B2R fmin) < Rabs (B2R fmax)) /\
     (m = ClipMedian -> (length vals <= 2 * length (filter (fun v : b64 => Bleb v c) vals) /\ length vals <= 2 * length (filter (fun v : b64 => Bleb c v) vals))%nat) /\
     (m = ClipAtDyn ->
        (near_zero -> B2R c = B2R thr) /\
        (~ near_zero -> Rabs (B2R c - B2R thr * Rabs (B2R fmin)) <= half_ulp * (B2R thr * Rabs (B2R fmin)) + half_min))).
Proof. exact cutoff_documented. Qed.
Print Assumptions C160_cutoff.
(** Without scaling, a value that is not above the cutoff is used as it is, one above it is replaced by the cutoff. *)
Theorem C160_unscaled : forall m thr eps_zero fmin fmax vals, sample vals fmin fmax -> sensible thr eps_zero ->
  let '(tv, tmin, tmax) := fvalues false m thr eps_zero fmin fmax vals in
  tmin = fmin /\ tmax = match cutoff m thr eps_zero fmin fmax vals with Some c => c | None => fmax end /\
  forall i, (i < length vals)%nat -> let v := nth i vals fnan in let t := nth i tv fnan in
    (Bleb v tmax = true -> Beqb t v = true) /\ (Bleb v tmax = false -> t = tmax).
Proof. exact unscaled_values. Qed.
Print Assumptions C160_unscaled.
Example C160_cutoff_case : option_map B2SF (cutoff ClipAtDyn v_1000 v_1em15 f1 v_1e6 [f1; v_4; v_1e6]) = Some (B2SF v_1000) /\
  option_map B2SF (cutoff ClipMedian v_1000 v_1em15 f1 v_1e6 [f1; v_4; v_1e6]) = Some (B2SF v_4) /\
  cutoff ClipMedian v_1000 v_1em15 f1 v_4 [f1; v_4] = None.
Proof. repeat split; vm_compute; reflexivity. Qed.

(** The order is not kept strictly: next to a value of -10^17, affine scaling makes 1 and 4 the same. *)
Theorem C160_strict_order_refuted : exists thr eps_zero fmin fmax vals i j, sample vals fmin fmax /\ sensible thr eps_zero /\
  Bltb (nth i vals fnan) (nth j vals fnan) = true /\
  let '(tv, _, _) := fvalues true ClipMedian thr eps_zero fmin fmax vals in Beqb (nth i tv fnan) (nth j tv fnan) = true.
Proof.
  exists v_1000, v_1em15, v_m1e17, v_4, [v_m1e17; f1; v_4], 1%nat, 2%nat. split; [|split; [exact v_sensible|split; vm_compute; reflexivity]].
  split; [left; reflexivity|]. split; [right; right; left; reflexivity|].
  intros x [<-|[<-|[<-|[]]]]; (split; [reflexivity|]; split; [apply abs_lim; vm_compute; reflexivity|split; vm_compute; reflexivity]).
Qed.
Print Assumptions C160_strict_order_refuted.
(** Without the limit on the size of the values the scaled maximum can be NaN: values -10^308 and 10^308. *)
Theorem C160_finite_refuted : exists eps_zero fmin fmax, sensible v_1000 eps_zero /\ is_finite fmin = true /\ is_finite fmax = true /\ Bltb fmin fmax = true /\
  let '(tv, _, _) := fvalues true ClipMedian v_1000 eps_zero fmin fmax [fmin; fmax] in is_nan (nth 1 tv f0) = true.
Proof. exists v_1em15, v_m1e308, v_1e308. split; [exact v_sensible|]. repeat split; vm_compute; reflexivity. Qed.
Print Assumptions C160_finite_refuted.
