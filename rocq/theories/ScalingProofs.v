(** * Proofs about function value scaling. *)
From Verif Require Export SpecScaling GeomProofs.
From Coq Require Import Sorting.Permutation Sorting.Sorted Lra Lia.
Open Scope R_scope.

(** ** Sorting and the median *)
Lemma rinsert_perm x l : Permutation (x :: l) (rinsert x l).
Proof.
  induction l as [|y r IH]; cbn; auto. destruct (Rleb x y); auto.
  rewrite perm_swap. constructor. auto.
Qed.
Lemma rsort_perm l : Permutation l (rsort l).
Proof. induction l as [|x r IH]; cbn; auto. rewrite <- rinsert_perm. constructor; auto. Qed.
Lemma rinsert_sorted x l : StronglySorted Rle l -> StronglySorted Rle (rinsert x l).
Proof.
  induction l as [|y r IH]; cbn; intros H.
  - repeat constructor.
  - destruct (Rleb x y) eqn:E.
    + apply Rleb_le in E. inversion H as [|? ? Hs Hf]; subst. constructor; auto. constructor; auto.
      eapply Forall_impl; [|exact Hf]. intros; cbn in *; lra.
    + apply Rleb_gt in E. inversion H as [|? ? Hs Hf]; subst. constructor; auto.
      rewrite Forall_forall in *. intros z Hz. apply (Permutation_in _ (Permutation_sym (rinsert_perm x r))) in Hz.
      destruct Hz as [<-|Hz]; [lra|auto].
Qed.
Lemma rsort_sorted l : StronglySorted Rle (rsort l).
Proof. induction l; cbn; [constructor|apply rinsert_sorted; auto]. Qed.
Lemma sorted_nth l : StronglySorted Rle l -> forall i j, (i <= j)%nat -> (j < length l)%nat -> nth i l 0 <= nth j l 0.
Proof.
  induction 1 as [|x r Hs IH Hf]; intros i j Hij Hj; [cbn in Hj; lia|].
  destruct i as [|i], j as [|j]; cbn in *; try lra; try lia.
  - rewrite Forall_forall in Hf. apply Hf, nth_In. lia.
  - apply IH; lia.
Qed.
Lemma count_le_perm m l l' : Permutation l l' -> count_le m l = count_le m l'.
Proof. induction 1; cbn; lia. Qed.
Lemma count_ge_perm m l l' : Permutation l l' -> count_ge m l = count_ge m l'.
Proof. induction 1; cbn; lia. Qed.
Lemma count_le_prefix m l : forall k, (k <= length l)%nat -> (forall i, (i < k)%nat -> nth i l 0 <= m) -> (k <= count_le m l)%nat.
Proof.
  induction l as [|x r IH]; intros k Hk H; cbn in *; [lia|].
  destruct k as [|k]; [lia|].
  destruct (Rle_dec x m) as [L|L]; [|exfalso; apply L, (H 0%nat); lia].
  enough (k <= count_le m r)%nat by lia. apply IH; [lia|]. intros i Hi. apply (H (S i)). lia.
Qed.
Lemma count_ge_suffix m l : forall k, (forall i, (k <= i)%nat -> (i < length l)%nat -> m <= nth i l 0) -> (length l - k <= count_ge m l)%nat.
Proof.
  induction l as [|x r IH]; intros k H; cbn in *; [lia|].
  destruct k as [|k].
  - specialize (IH 0%nat). destruct (Rle_dec m x) as [L|L]; [|exfalso; apply L, (H 0%nat); lia].
    enough (length r - 0 <= count_ge m r)%nat by lia. apply IH. intros i _ Hi. apply (H (S i)); lia.
  - enough (length r - k <= count_ge m r)%nat by lia. apply IH. intros i Hk Hi. apply (H (S i)); lia.
Qed.
Lemma median_spec l : l <> [] -> is_median l (median l).
Proof.
  intros Hl. unfold median. set (s := rsort l). set (k := length l).
  assert (P : Permutation l s) by apply rsort_perm.
  assert (Ls : length s = k) by (symmetry; apply Permutation_length; auto).
  assert (Hk : (1 <= k)%nat) by (unfold k; destruct l; cbn; [congruence|lia]).
  assert (S : StronglySorted Rle s) by apply rsort_sorted.
  pose proof (Nat.div_mod k 2 ltac:(lia)) as D. pose proof (Nat.mod_upper_bound k 2 ltac:(lia)) as B.
  assert (I : forall i, (i < k)%nat -> In (nth i s 0) l).
  { intros i Hi. eapply Permutation_in; [symmetry; exact P|]. apply nth_In. lia. }
  assert (CL : forall i, (i < k)%nat -> (i + 1 <= count_le (nth i s 0%R) l)%nat).
  { intros i Hi. rewrite (count_le_perm _ l s P). apply count_le_prefix; [lia|].
    intros j Hj. apply sorted_nth; auto; lia. }
  assert (CG : forall i, (i < k)%nat -> (k - i <= count_ge (nth i s 0%R) l)%nat).
  { intros i Hi. rewrite (count_ge_perm _ l s P), <- Ls. apply count_ge_suffix.
    intros j Hj Hj'. apply sorted_nth; auto; lia. }
  destruct (Nat.even k) eqn:Ev.
  - apply Nat.even_spec in Ev. destruct Ev as [h Eh].
    assert (E : (k / 2 = h)%nat) by (rewrite Eh, Nat.mul_comm; apply Nat.div_mul; lia).
    rewrite E. exists (nth (h - 1) s 0), (nth h s 0).
    split; [apply I; lia|]. split; [apply I; lia|]. split; [reflexivity|]. fold k.
    pose proof (CL (h - 1)%nat ltac:(lia)). pose proof (CL h ltac:(lia)).
    pose proof (CG (h - 1)%nat ltac:(lia)). pose proof (CG h ltac:(lia)). lia.
  - assert (Ev' : Nat.odd k = true) by (unfold Nat.odd; rewrite Ev; auto).
    apply Nat.odd_spec in Ev'. destruct Ev' as [h Eh].
    assert (E : (k / 2 = h)%nat) by (symmetry; apply (Nat.div_unique k 2 h 1); lia).
    rewrite E. exists (nth h s 0), (nth h s 0).
    split; [apply I; lia|]. split; [apply I; lia|]. split; [lra|]. fold k.
    pose proof (CL h ltac:(lia)). pose proof (CG h ltac:(lia)). lia.
Qed.

(** ** Clipping *)
Lemma high_spec clip eps thr fmin fmax :
  high_dynamism clip eps thr fmin fmax = true <-> clip <> ClipOff /\ spans eps thr fmin fmax.
Proof.
  unfold high_dynamism, spans.
  assert (L : forall a b, Rltb a b = true <-> a < b) by (intros; unfold Rltb; destruct (Rlt_dec a b); split; auto; discriminate || lra).
  assert (L' : forall a b, Rleb a b = true <-> a <= b) by (intros; unfold Rleb; destruct (Rle_dec a b); split; auto; discriminate || lra).
  rewrite Bool.andb_true_iff, Bool.orb_true_iff, !Bool.andb_true_iff, !L, L'.
  destruct clip; intuition congruence.
Qed.
Lemma extremes_clip vals lo hi c : extremes vals lo hi -> lo <= c -> c <= hi ->
  extremes (map (fun v => Rmin v c) vals) lo c.
Proof.
  intros (I1 & I2 & B) H1 H2. split; [|split].
  - apply in_map_iff. exists lo. split; auto. apply Rmin_left; auto.
  - apply in_map_iff. exists hi. split; auto. apply Rmin_right; auto.
  - intros v Hv. apply in_map_iff in Hv as (w & <- & Hw). apply B in Hw. unfold Rmin. destruct (Rle_dec w c); lra.
Qed.
Lemma median_between vals lo hi m : extremes vals lo hi -> is_median vals m -> lo <= m <= hi.
Proof. intros (_ & _ & B) (a & b & Ha & Hb & -> & _). apply B in Ha, Hb. lra. Qed.
Lemma extremes_nonempty vals lo hi : extremes vals lo hi -> vals <> [].
Proof. intros (H & _) ->. destruct H. Qed.
Lemma spans_big eps thr fmin fmax : 0 < eps -> eps <= 1 -> 1 <= thr -> fmin <= fmax -> spans eps thr fmin fmax ->
  fmin <= thr * (if Rltb eps (Rabs fmin) then Rabs fmin else 1) <= fmax.
Proof.
  intros He He1 Ht L [[H1 H2]|[H1 H2]]; unfold Rltb; destruct (Rlt_dec eps (Rabs fmin)); try lra.
  - assert (H3 : thr * Rabs fmin < Rabs fmax).
    { apply (Rmult_lt_reg_r (/ Rabs fmin)); [apply Rinv_0_lt_compat; lra|].
      rewrite Rmult_assoc, Rinv_r by lra. unfold Rdiv in H2. lra. }
    assert (H4 : Rabs fmin <= thr * Rabs fmin) by nra.
    pose proof (Rle_abs fmin). split; [lra|].
    revert H3 H4. unfold Rabs. destruct (Rcase_abs fmax), (Rcase_abs fmin); lra.
  - revert H1 H2. unfold Rabs. destruct (Rcase_abs fmax), (Rcase_abs fmin); lra.
Qed.
Lemma clip_extremes clip eps thr vals fmin fmax : 0 < eps -> eps <= 1 -> 1 <= thr -> extremes vals fmin fmax ->
  extremes (fst (clip_values clip eps thr vals fmin fmax)) fmin (snd (clip_values clip eps thr vals fmin fmax)) /\
  snd (clip_values clip eps thr vals fmin fmax) <= fmax /\
  fst (clip_values clip eps thr vals fmin fmax) = map (fun v => Rmin v (snd (clip_values clip eps thr vals fmin fmax))) vals.
Proof.
  intros He He1 Ht X. unfold clip_values. destruct (high_dynamism clip eps thr fmin fmax) eqn:E.
  - apply high_spec in E as [Hc Hs].
    assert (L : fmin <= fmax) by (destruct X as (I1 & _ & B); apply B in I1; lra).
    destruct clip; [congruence| |]; cbn.
    + pose proof (median_between _ _ _ _ X (median_spec vals (extremes_nonempty _ _ _ X))).
      split; [apply (extremes_clip _ _ fmax); auto; lra|]. split; [lra|reflexivity].
    + pose proof (spans_big _ _ _ _ He He1 Ht L Hs).
      split; [apply (extremes_clip _ _ fmax); auto; lra|]. split; [lra|reflexivity].
  - cbn. split; [auto|]. split; [lra|]. destruct X as (_ & _ & B).
    rewrite <- (map_id vals) at 1. apply map_ext_in. intros v Hv. apply B in Hv. rewrite Rmin_left; lra.
Qed.

(** ** The logarithm shift *)
Lemma amin_map2_le vals errs i : (i < length vals)%nat -> length errs = length vals ->
  amin (map2 Rplus vals errs) <= nth i vals 0 + nth i errs 0.
Proof.
  intros Hi Hl. assert (Hn : map2 Rplus vals errs <> []).
  { intros E. apply (f_equal (@length R)) in E. rewrite map2_len in E by lia. cbn in E. lia. }
  apply (proj2 (amin_spec _ Hn)). rewrite <- (map2_nth Rplus vals errs i 0 0 0) by lia.
  apply nth_In. rewrite map2_len by lia. lia.
Qed.
Lemma log_shift_spec eps vals err : 0 < eps -> length err = length vals ->
  0 <= log_shift eps vals err /\
  forall i, (i < length vals)%nat -> 1 <= nth i vals 0 + nth i err 0 + log_shift eps vals err.
Proof.
  intros He Hl. unfold log_shift. set (m := Rmax 0 _).
  assert (M0 : 0 <= m) by apply Rmax_l.
  assert (M1 : forall i, (i < length vals)%nat -> 1 <= nth i vals 0 + nth i err 0 + m).
  { intros i Hi. pose proof (amin_map2_le vals err i Hi Hl).
    assert (1 - amin (map2 Rplus vals err) <= m) by apply Rmax_r. lra. }
  assert (0 < 1 / eps) by (apply Rdiv_lt_0_compat; lra).
  destruct (Rltb 0 m && Rltb (amin vals / m) eps); split; try lra; auto.
  intros i Hi. specialize (M1 i Hi). lra.
Qed.
Lemma log_shift_vals eps vals err : 0 < eps -> proper_errors vals err ->
  forall v, In v vals -> 1 <= v + log_shift eps vals (map fst err).
Proof.
  intros He [Hl Hp] v Hv. destruct (In_nth _ _ 0 Hv) as (i & Hi & <-).
  destruct (log_shift_spec eps vals (map fst err) He) as [_ H]; [rewrite map_length; auto|].
  specialize (H i Hi).
  assert (N : nth i (map fst err) 0 <= 0).
  { rewrite (nth_indep _ 0 (fst (0, 0))) by (rewrite map_length; lia). rewrite map_nth. apply Hp, nth_In. lia. }
  lra.
Qed.

(** ** The scaled values *)
Section Scaled.
Variables (fs : fscaling) (clip : clipping) (eps thr : R) (vals : list R) (fmin fmax : R) (err : list (R * R)).
Hypotheses (He : 0 < eps) (He1 : eps <= 1) (Ht : 1 <= thr) (X : extremes vals fmin fmax) (Pe : proper_errors vals err).
Let S := transform_function_values fs clip eps thr vals fmin fmax err.
Let cap := snd (clip_values clip eps thr vals fmin fmax).
(** One strictly increasing function gives every scaled value. *)
Definition base_fun : R -> R :=
  match fs with
  | ScaleOff => fun x => x
  | ScaleAffine => fun x => (x - fmin) / (if Rltb eps (cap - fmin) then cap - fmin else 1)
  | ScaleLog => fun x => ln (x + log_shift eps vals (map fst err))
  end.
Lemma den_pos : 0 < (if Rltb eps (cap - fmin) then cap - fmin else 1).
Proof. unfold Rltb. destruct (Rlt_dec eps (cap - fmin)); lra. Qed.
Lemma base_strict x y : fmin <= x -> x < y -> base_fun x < base_fun y.
Proof.
  intros Hx L. unfold base_fun. destruct fs; auto.
  - pose proof den_pos as D. unfold Rdiv. apply Rmult_lt_compat_r; [apply Rinv_0_lt_compat; auto|lra].
  - pose proof (log_shift_vals eps vals err He Pe fmin (proj1 X)). apply ln_increasing; lra.
Qed.
Lemma base_mono x y : fmin <= x -> x <= y -> base_fun x <= base_fun y.
Proof. intros Hx [L|<-]; [|lra]. apply Rlt_le, base_strict; auto. Qed.
Lemma cap_facts : fmin <= cap <= fmax /\ fst (clip_values clip eps thr vals fmin fmax) = map (fun v => Rmin v cap) vals
  /\ extremes (fst (clip_values clip eps thr vals fmin fmax)) fmin cap.
Proof.
  destruct (clip_extremes clip eps thr vals fmin fmax He He1 Ht X) as (E & L & M).
  fold cap in E, L, M. split; [|split; auto]. split; auto. destruct E as (_ & I2 & B). apply B in I2. lra.
Qed.
Lemma sc_val_spec : sc_val S = map (fun v => base_fun (Rmin v cap)) vals.
Proof.
  destruct cap_facts as (_ & M & _).
  unfold S, transform_function_values, base_fun, cap in *.
  destruct (clip_values clip eps thr vals fmin fmax) as [cv fm] eqn:E; cbn [fst snd] in *.
  destruct fs; cbn [sc_val]; rewrite M, ?map_map; auto.
Qed.
Lemma sc_fmin_spec : sc_fmin S = base_fun fmin.
Proof.
  unfold S, transform_function_values, base_fun, cap. destruct (clip_values clip eps thr vals fmin fmax) as [cv fm].
  destruct fs; cbn [sc_fmin snd]; auto. unfold Rminus. rewrite Rplus_opp_r. unfold Rdiv. ring.
Qed.
Lemma sc_fmax_spec : sc_fmax S <= base_fun cap <= sc_fmax S + eps /\
  (fs <> ScaleAffine \/ eps < cap - fmin -> sc_fmax S = base_fun cap).
Proof.
  destruct cap_facts as (Bc & _). revert Bc.
  unfold S, transform_function_values, base_fun, cap. destruct (clip_values clip eps thr vals fmin fmax) as [cv fm].
  cbn [snd]. intros Bc.
  destruct fs; cbn [sc_fmax]; try (split; [lra|auto]).
  unfold Rltb. destruct (Rlt_dec eps (fm - fmin)) as [L|L].
  - unfold Rdiv. rewrite Rinv_r by lra. split; [lra|auto].
  - split; [unfold Rdiv; rewrite Rinv_1; lra|]. intros [H|H]; [congruence|lra].
Qed.
Lemma min_clip v : In v vals -> fmin <= Rmin v cap.
Proof. intros Hv. destruct cap_facts as (B & _). apply (proj2 (proj2 X)) in Hv. apply Rmin_glb; lra. Qed.
Lemma scaled_order i j : (i < length vals)%nat -> (j < length vals)%nat -> nth i vals 0 <= nth j vals 0 ->
  nth i (sc_val S) 0 <= nth j (sc_val S) 0.
Proof.
  intros Hi Hj L. rewrite sc_val_spec.
  rewrite !(nth_indep _ 0 (base_fun (Rmin 0 cap))) by (rewrite map_length; auto).
  rewrite !(map_nth (fun v => base_fun (Rmin v cap))). apply base_mono; [apply min_clip, nth_In; auto|].
  unfold Rmin. destruct (Rle_dec _ cap), (Rle_dec _ cap); lra.
Qed.
Lemma scaled_strict i j : (i < length vals)%nat -> (j < length vals)%nat -> ~ (clip <> ClipOff /\ spans eps thr fmin fmax) ->
  nth i vals 0 < nth j vals 0 -> nth i (sc_val S) 0 < nth j (sc_val S) 0.
Proof.
  intros Hi Hj Nc L. rewrite sc_val_spec.
  rewrite !(nth_indep _ 0 (base_fun (Rmin 0 cap))) by (rewrite map_length; auto).
  rewrite !(map_nth (fun v => base_fun (Rmin v cap))).
  assert (C : cap = fmax).
  { unfold cap, clip_values. destruct (high_dynamism clip eps thr fmin fmax) eqn:E; auto. apply high_spec in E. tauto. }
  assert (B : forall k, (k < length vals)%nat -> fmin <= nth k vals 0 <= fmax) by (intros; apply X, nth_In; auto).
  rewrite !Rmin_left by (rewrite C; apply B; auto). apply base_strict; auto. apply B; auto.
Qed.
Lemma scaled_extremes : extremes (sc_val S) (sc_fmin S) (base_fun cap).
Proof.
  destruct cap_facts as (B & M & (I1 & I2 & Bd)). rewrite sc_val_spec, sc_fmin_spec. split; [|split].
  - apply in_map_iff. exists fmin. split; [rewrite Rmin_left by lra; auto|apply X].
  - apply in_map_iff. exists fmax. split; [rewrite Rmin_right by lra; auto|apply X].
  - intros w Hw. apply in_map_iff in Hw as (v & <- & Hv). pose proof (min_clip v Hv).
    pose proof (Rmin_r v cap). split; apply base_mono; lra.
Qed.
End Scaled.

(** ** Logarithms are of positive numbers *)
Lemma log_args_positive clip eps thr vals fmin fmax err :
  0 < eps -> extremes vals fmin fmax -> proper_errors vals err -> ~ (clip <> ClipOff /\ spans eps thr fmin fmax) ->
  forall a, In a (log_args clip eps thr vals fmin fmax err) -> 0 < a.
Proof.
  intros He X Pe Nc a. unfold log_args, clip_values.
  assert (E : high_dynamism clip eps thr fmin fmax = false).
  { destruct (high_dynamism clip eps thr fmin fmax) eqn:E; auto. apply high_spec in E. tauto. }
  rewrite E. set (sh := log_shift eps vals (map fst err)).
  pose proof (log_shift_vals eps vals err He Pe) as V. fold sh in V. destruct Pe as [Hl Hp].
  destruct (log_shift_spec eps vals (map fst err) He ltac:(rewrite map_length; auto)) as [S0 S1]. fold sh in S0, S1.
  assert (Q : forall (f : R * R -> R) i, (i < length vals)%nat -> 0 < f (nth i err (0,0)) + nth i vals 0 + sh ->
     0 < (f (nth i err (0,0)) + nth i vals 0 + sh) / (nth i vals 0 + sh)).
  { intros f i Hi H. apply Rdiv_lt_0_compat; auto. specialize (V _ (nth_In vals 0 Hi)). lra. }
  rewrite !in_app_iff. intros [H|[H|[H|H]]].
  - apply in_map_iff in H as (v & <- & Hv). apply V in Hv. lra.
  - destruct (In_nth _ _ 0 H) as (i & Hi & <-). rewrite map2_len in Hi by lia.
    rewrite (map2_nth _ err vals i (0,0) 0 0) by lia. apply (Q fst); [lia|].
    specialize (S1 i ltac:(lia)). replace (nth i (map fst err) 0) with (fst (nth i err (0,0))) in S1 by (symmetry; rewrite (nth_indep _ 0 (fst (0, 0))) by (rewrite map_length; lia); apply map_nth). lra.
  - destruct (In_nth _ _ 0 H) as (i & Hi & <-). rewrite map2_len in Hi by lia.
    rewrite (map2_nth _ err vals i (0,0) 0 0) by lia. apply (Q snd); [lia|].
    assert (Hv : In (nth i vals 0) vals) by (apply nth_In; lia).
    assert (Hq : In (nth i err (0,0)) err) by (apply nth_In; lia).
    apply V in Hv. apply Hp in Hq. lra.
  - destruct X as (X1 & X2 & _). cbn in H. destruct H as [<-|[<-|[]]]; [apply V in X1|apply V in X2]; lra.
Qed.

(** ** Scaled error bounds *)
Lemma scaled_errors fs clip eps thr vals fmin fmax err i :
  let S := transform_function_values fs clip eps thr vals fmin fmax err in
  0 < eps -> extremes vals fmin fmax -> proper_errors vals err -> ~ (clip <> ClipOff /\ spans eps thr fmin fmax) ->
  (i < length vals)%nat ->
  nth i (sc_val S) 0 = sc_fun S (nth i vals 0) /\
  nth i (sc_val S) 0 + fst (nth i (sc_err S) (0, 0)) = sc_fun S (nth i vals 0 + fst (nth i err (0, 0))) /\
  nth i (sc_val S) 0 + snd (nth i (sc_err S) (0, 0)) = sc_fun S (nth i vals 0 + snd (nth i err (0, 0))).
Proof.
  intros S He X Pe Nc Hi. unfold S, transform_function_values, clip_values.
  assert (E : high_dynamism clip eps thr fmin fmax = false).
  { destruct (high_dynamism clip eps thr fmin fmax) eqn:E; auto. apply high_spec in E. tauto. }
  rewrite E. pose proof (log_shift_vals eps vals err He Pe) as V. destruct Pe as [Hl Hp].
  assert (Hv : In (nth i vals 0) vals) by (apply nth_In; lia).
  assert (Hq : In (nth i err (0,0)) err) by (apply nth_In; lia).
  destruct fs; cbn [sc_val sc_err sc_fun].
  - auto.
  - set (d := if Rltb eps (fmax - fmin) then _ else _).
    rewrite (nth_indep _ 0 ((fun v => (v - fmin) / d) 0)) by (rewrite map_length; auto). rewrite (map_nth (fun v => (v - fmin) / d)).
    rewrite (nth_indep _ (0, 0) ((fun e => (fst e / d, snd e / d)) (0, 0))) by (rewrite map_length; lia).
    rewrite (map_nth (fun e => (fst e / d, snd e / d))). cbn [fst snd].
    unfold Rdiv. repeat split; ring.
  - set (sh := log_shift eps vals (map fst err)) in *.
    destruct (log_shift_spec eps vals (map fst err) He ltac:(rewrite map_length; auto)) as [S0 S1]. fold sh in S0, S1. specialize (S1 i Hi).
    replace (nth i (map fst err) 0) with (fst (nth i err (0,0))) in S1 by (symmetry; rewrite (nth_indep _ 0 (fst (0, 0))) by (rewrite map_length; lia); apply map_nth).
    apply V in Hv. apply Hp in Hq.
    rewrite (nth_indep _ 0 ((fun v => ln (v + sh)) 0)) by (rewrite map_length; auto). rewrite (map_nth (fun v => ln (v + sh))).
    rewrite (map2_nth _ err vals i (0,0) 0 (0,0)) by lia. cbn [fst snd].
    assert (R1 : forall x, 0 < x -> Rltb 0 x = true) by (intros; apply Rltb_lt; auto).
    rewrite !R1 by lra. split; [auto|].
    split; rewrite <- ln_mult; try (apply Rdiv_lt_0_compat; lra); try lra; f_equal; field; lra.
Qed.
