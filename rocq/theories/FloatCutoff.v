(** * Proofs: when values are cut off, and where *)
From Coq Require Import Reals Lra Lia Sorted.
From Flocq Require Import Core.
From Verif Require Export FloatValues.
From Verif Require Import SpecFloatValues SpecFloatRun.
Open Scope R_scope.

(** ** The median *)
Lemma finsert_perm x l : Permutation (x :: l) (finsert x l).
Proof.
  induction l as [|y l IH]; cbn; [constructor; constructor|]. destruct (Bleb x y); [apply Permutation_refl|].
  eapply Permutation_trans; [apply perm_swap|]. constructor. exact IH.
Qed.
Lemma fsort_perm l : Permutation l (fsort l).
Proof. induction l as [|x l IH]; cbn; [constructor|]. eapply Permutation_trans; [constructor; exact IH|apply finsert_perm]. Qed.
Definition allf (l : list b64) := forall x, In x l -> is_finite x = true.
Lemma finsert_sorted x l : is_finite x = true -> allf l -> StronglySorted (fun a b : b64 => B2R a <= B2R b) l ->
  StronglySorted (fun a b : b64 => B2R a <= B2R b) (finsert x l).
Proof.
  intros Fx. induction l as [|y l IH]; intros A H; cbn; [repeat constructor|]. inversion H as [|? ? S1 S2]; subst.
  assert (Fy : is_finite y = true) by (apply A; left; reflexivity). destruct (Bleb x y) eqn:E.
  - apply leb_R in E; auto. constructor; [exact H|]. constructor; [exact E|]. eapply Forall_impl; [|exact S2]. cbn. intros. lra.
  - constructor; [apply IH; [intros z Hz; apply A; right; exact Hz|exact S1]|]. apply Forall_forall. intros z Hz. apply in_finsert in Hz. destruct Hz as [->|Hz].
    + apply Rnot_lt_le. intros C. assert (L : B2R x <= B2R y) by lra. apply leb_R in L; auto. congruence.
    + rewrite Forall_forall in S2. apply S2. exact Hz.
Qed.
Lemma fsort_sorted l : allf l -> StronglySorted (fun a b : b64 => B2R a <= B2R b) (fsort l).
Proof.
  induction l as [|x l IH]; intros A; cbn; [constructor|]. apply finsert_sorted.
  - apply A. left. reflexivity.
  - intros z Hz. apply in_fsort in Hz. apply A. right. exact Hz.
  - apply IH. intros z Hz. apply A. right. exact Hz.
Qed.
Lemma sorted_nth l : StronglySorted (fun a b : b64 => B2R a <= B2R b) l -> forall i j, (i <= j < length l)%nat -> B2R (nth i l fnan) <= B2R (nth j l fnan).
Proof.
  induction 1 as [|x l S1 IH S2]; intros i j Hij; [cbn in Hij; lia|]. destruct i as [|i]; destruct j as [|j]; cbn in *; try lra; try lia.
  - rewrite Forall_forall in S2. apply S2. apply nth_In. lia.
  - apply IH. lia.
Qed.
Lemma filter_perm (f : b64 -> bool) a b : Permutation a b -> length (filter f a) = length (filter f b).
Proof. induction 1; cbn; try (destruct (f x)); try (destruct (f y)); cbn; congruence. Qed.
Lemma filter_all (f : b64 -> bool) l : (forall x, In x l -> f x = true) -> filter f l = l.
Proof. induction l as [|x l IH]; intros H; cbn; [reflexivity|]. rewrite (H x) by (left; reflexivity). f_equal. apply IH. intros y Hy. apply H. right. exact Hy. Qed.
Lemma in_firstn_nth (l : list b64) k x : In x (firstn k l) -> exists i, (i < k /\ i < length l)%nat /\ x = nth i l fnan.
Proof.
  revert k. induction l as [|y l IH]; intros [|k] H; cbn in *; try contradiction. destruct H as [<-|H]; [exists 0%nat; cbn; split; [lia|reflexivity]|].
  destruct (IH k H) as (i & I1 & I2). exists (S i). cbn. split; [lia|exact I2].
Qed.
Lemma in_skipn_nth (l : list b64) k x : In x (skipn k l) -> exists i, (k <= i < length l)%nat /\ x = nth i l fnan.
Proof.
  revert k. induction l as [|y l IH]; intros [|k] H; cbn in *; try contradiction.
  - destruct H as [<-|H]; [exists 0%nat; cbn; split; [lia|reflexivity]|]. destruct (IH 0%nat H) as (i & I1 & I2). exists (S i). cbn. split; [lia|exact I2].
  - destruct (IH k H) as (i & I1 & I2). exists (S i). cbn. split; [lia|exact I2].
Qed.
Lemma count_low (f : b64 -> bool) l k : (forall i, (i < k /\ i < length l)%nat -> f (nth i l fnan) = true) -> (Nat.min k (length l) <= length (filter f l))%nat.
Proof.
  intros H. rewrite <- (firstn_skipn k l) at 2. rewrite filter_app, app_length, (filter_all f (firstn k l)); [rewrite firstn_length; lia|].
  intros x Hx. apply in_firstn_nth in Hx. destruct Hx as (i & Hi & ->). auto.
Qed.
Lemma count_high (f : b64 -> bool) l k : (forall i, (k <= i < length l)%nat -> f (nth i l fnan) = true) -> (length l - k <= length (filter f l))%nat.
Proof.
  intros H. rewrite <- (firstn_skipn k l) at 2. rewrite filter_app, app_length, (filter_all f (skipn k l)); [rewrite skipn_length; lia|].
  intros x Hx. apply in_skipn_nth in Hx. destruct Hx as (i & Hi & ->). auto.
Qed.
Lemma median_middle l : l <> [] -> (forall x, In x l -> lim 1000 x) ->
  is_finite (fmedian l) = true /\
  let s := fsort l in let n := length l in
  (forall i, (2 * i < n)%nat -> B2R (nth i s fnan) <= B2R (fmedian l)) /\ (forall i, (n <= 2 * i + 1)%nat -> (i < n)%nat -> B2R (fmedian l) <= B2R (nth i s fnan)).
Proof.
  intros Hl H. cbv zeta. assert (A : allf l) by (intros x Hx; apply H; exact Hx). pose proof (fsort_sorted l A) as SS. pose proof (length_fsort l) as LS.
  assert (L0 : (0 < length l)%nat) by (destruct l; [congruence|cbn; lia]). unfold fmedian. cbv zeta.
  assert (M : (Nat.div2 (length l) < length l)%nat) by (apply Nat.lt_div2; exact L0).
  assert (G : forall i, (i < length l)%nat -> lim 1000 (nth i (fsort l) fnan)) by (intros i Hi; apply H, nth_sort; exact Hi).
  destruct (Nat.odd (length l)) eqn:O.
  - apply Nat.odd_spec in O. destruct O as (k & O). assert (D : Nat.div2 (length l) = k) by (rewrite O; replace (2 * k + 1)%nat with (S (2 * k)) by lia; apply Nat.div2_succ_double).
    rewrite D in *. split; [apply G; exact M|]. split; intros; apply sorted_nth; auto; lia.
  - assert (E : Nat.even (length l) = true) by (rewrite <- Nat.negb_odd, O; reflexivity). apply Nat.even_spec in E. destruct E as (k & E).
    assert (D : Nat.div2 (length l) = k) by (rewrite E; apply Nat.div2_double). rewrite D in *.
    pose proof (G (k - 1)%nat ltac:(lia)) as A1. pose proof (G k M) as A2.
    pose proof (sorted_nth _ SS (k - 1)%nat k ltac:(lia)) as XY.
    assert (P1 : forall i, (i <= k - 1)%nat -> B2R (nth i (fsort l) fnan) <= B2R (nth (k - 1) (fsort l) fnan)) by (intros; apply sorted_nth; auto; lia).
    assert (P2 : forall i, (k <= i < length l)%nat -> B2R (nth k (fsort l) fnan) <= B2R (nth i (fsort l) fnan)) by (intros; apply sorted_nth; auto; lia).
    set (x := nth (k - 1) (fsort l) fnan) in *. set (y := nth k (fsort l) fnan) in *.
    destruct (fadd_lim x y 1000 ltac:(lia) A1 A2) as ((F & L) & V). destruct f2_R as (_ & E2).
    set (s := fadd x y) in *. assert (Q1 : 2 * B2R x <= B2R s <= 2 * B2R y).
    { rewrite V, <- (fmt_double x), <- (fmt_double y). split; apply rnd_le; lra. }
    assert (HS : Rabs (B2R s / B2R f2) <= bpow radix2 1001).
    { rewrite E2. unfold Rdiv. rewrite Rabs_mult, (Rabs_pos_eq (/ 2)) by lra. pose proof (Rabs_pos (B2R s)). change (1000 + 1)%Z with 1001%Z in L. lra. }
    destruct (rnd_lim _ 1001 ltac:(lia) HS) as (R1 & R2). destruct (fdiv_fits s f2 F ltac:(lra) R2) as (C & DD).
    assert (Q2 : B2R x <= B2R (fdiv s f2) <= B2R y) by (rewrite DD, E2, <- (rnd_id x), <- (rnd_id y); split; apply rnd_le; lra).
    split; [exact C|]. split; intros i Hi.
    + apply Rle_trans with (B2R x); [apply P1; lia|apply Q2].
    + intros Hn. apply Rle_trans with (B2R y); [apply Q2|apply P2; lia].
Qed.
Lemma median_half l : l <> [] -> (forall x, In x l -> lim 1000 x) ->
  (length l <= 2 * length (filter (fun v : b64 => Bleb v (fmedian l)) l) /\ length l <= 2 * length (filter (fun v : b64 => Bleb (fmedian l) v) l))%nat.
Proof.
  intros Hl H. destruct (median_middle l Hl H) as (F & A & B). cbv zeta in A, B. pose proof (length_fsort l) as LS.
  assert (G : forall i, (i < length l)%nat -> is_finite (nth i (fsort l) fnan) = true) by (intros i Hi; apply H, nth_sort; exact Hi).
  set (n := length l) in *. assert (E : exists k, (n = 2 * k \/ n = 2 * k + 1)%nat) by (destruct (Nat.Even_or_Odd n) as [(k & K)|(k & K)]; exists k; lia).
  destruct E as (k & E). split.
  - match goal with |- (_ <= 2 * length (filter ?f l))%nat => rewrite (filter_perm f _ _ (fsort_perm l)); pose proof (count_low f (fsort l) (n - k)) as C end. rewrite LS in C.
    assert (C' := C ltac:(intros i Hi; apply leb_R; [apply G; lia|exact F|apply A; lia])). lia.
  - match goal with |- (_ <= 2 * length (filter ?f l))%nat => rewrite (filter_perm f _ _ (fsort_perm l)); pose proof (count_high f (fsort l) k) as C end. rewrite LS in C.
    assert (C' := C ltac:(intros i Hi; apply leb_R; [exact F|apply G; lia|apply B; lia])). lia.
Qed.

(** ** The condition *)
Lemma high_spec thr ez fmin fmax : is_finite fmin = true -> is_finite fmax = true -> is_finite thr = true -> is_finite ez = true -> 0 < B2R ez -> 0 <= B2R thr ->
  let near_zero := Rabs (B2R fmin) <= B2R ez in
  (high_dynamism thr ez fmin fmax = true -> (near_zero -> B2R thr < Rabs (B2R fmax)) /\ (~ near_zero -> B2R thr * Rabs (B2R fmin) < Rabs (B2R fmax))) /\
  (high_dynamism thr ez fmin fmax = false -> (near_zero -> Rabs (B2R fmax) <= B2R thr) /\
     (~ near_zero -> Rabs (B2R fmax) * (1 - half_ulp) <= (B2R thr + half_min) * Rabs (B2R fmin))).
Proof.
  intros Fmin Fmax Ft Fe He Ht. cbv zeta.
  assert (FA : is_finite (Babs fmin : b64) = true) by (rewrite is_finite_Babs; exact Fmin).
  assert (FB : is_finite (Babs fmax : b64) = true) by (rewrite is_finite_Babs; exact Fmax).
  unfold high_dynamism. rewrite (Bltb_correct 53 1024 _ _ Fe FA), (Bleb_correct 53 1024 _ _ FA Fe), (Bltb_correct 53 1024 _ _ Ft FB), !B2R_Babs.
  destruct (Rle_bool_spec (Rabs (B2R fmin)) (B2R ez)) as [NZ|NZ].
  - rewrite Rlt_bool_false by exact NZ. cbn [andb orb]. destruct (Rlt_bool_spec (B2R thr) (Rabs (B2R fmax))) as [X|X]; split; try discriminate; intros _; split; intros; try lra; contradiction.
  - rewrite Rlt_bool_true by exact NZ. cbn [andb]. rewrite orb_false_r.
    assert (PA : 0 < B2R (Babs fmin : b64)) by (rewrite B2R_Babs; lra). destruct (fdiv_ext (Babs fmax) (Babs fmin) FB PA) as (N & E). rewrite !B2R_Babs in E.
    set (x := Rabs (B2R fmax) / Rabs (B2R fmin)) in *. assert (PX : 0 <= x) by (unfold x; apply Rmult_le_pos; [apply Rabs_pos|apply Rlt_le, Rinv_0_lt_compat; lra]).
    assert (XE : x * Rabs (B2R fmin) = Rabs (B2R fmax)) by (unfold x, Rdiv; rewrite Rmult_assoc, Rinv_l by lra; ring).
    set (d := fdiv (Babs fmax) (Babs fmin)) in *. pose proof (small thr) as ST. rewrite Rabs_pos_eq in ST by exact Ht.
    assert (CASES : (Bltb thr d = true -> B2R thr < x) /\ (Bltb thr d = false -> rnd x <= B2R thr)).
    { destruct (rext_pos x PX) as [(R1 & R2)|(R1 & R2)]; rewrite R1 in E.
      - destruct (ext_fin _ _ N E) as (FD & VD). rewrite (Bltb_correct 53 1024 _ _ Ft FD), VD.
        destruct (Rlt_bool_spec (B2R thr) (rnd x)) as [X|X]; split; try discriminate; intros _; [|exact X].
        apply Rnot_le_lt. intros C. apply rnd_le in C. rewrite rnd_id in C. lra.
      - apply ext_pinf in E; [|exact N]. rewrite E. split.
        + intros _. apply Rnot_le_lt. intros C. apply rnd_le in C. rewrite rnd_id in C. lra.
        + destruct thr as [a|a| |a m e B]; try discriminate Ft; discriminate. }
    destruct CASES as (C1 & C2). destruct (Bltb thr d); split; try discriminate; intros _; (split; [intros; lra|intros _]).
    + specialize (C1 eq_refl). rewrite <- XE. apply Rmult_lt_compat_r; lra.
    + specialize (C2 eq_refl). pose proof (rnd_error x PX) as (E1 & _). change u53 with half_ulp in E1. change eta with half_min in E1. rewrite <- XE.
      replace (x * Rabs (B2R fmin) * (1 - half_ulp)) with (x * (1 - half_ulp) * Rabs (B2R fmin)) by ring. apply Rmult_le_compat_r; lra.
Qed.
Lemma sample_lim vals fmin fmax : sample vals fmin fmax ->
  vals <> [] /\ lim 1000 fmin /\ lim 1000 fmax /\ forall x, In x vals -> lim 1000 x /\ Bleb fmin x = true /\ Bleb x fmax = true.
Proof.
  intros (A & B & H). assert (G : forall x, In x vals -> lim 1000 x /\ Bleb fmin x = true /\ Bleb x fmax = true).
  { intros x Hx. destruct (H x Hx) as (X1 & X2 & X3 & X4). split; [split; assumption|auto]. }
  split; [intros ->; destruct A|]. split; [apply G; exact A|]. split; [apply G; exact B|exact G].
Qed.
Lemma cutoff_documented : forall m thr eps_zero fmin fmax vals, sample vals fmin fmax -> sensible thr eps_zero ->
  let near_zero := Rabs (B2R fmin) <= B2R eps_zero in
  (cutoff m thr eps_zero fmin fmax vals = None -> m <> ClipOff ->
     (near_zero -> Rabs (B2R fmax) <= B2R thr) /\
     (~ near_zero -> Rabs (B2R fmax) * (1 - half_ulp) <= (B2R thr + half_min) * Rabs (B2R fmin))) /\
  (forall c, cutoff m thr eps_zero fmin fmax vals = Some c -> m <> ClipOff /\ is_finite c = true /\
     (near_zero -> B2R thr < Rabs (B2R fmax)) /\
     (~ near_zero -> B2R thr * Rabs (B2R fmin) < Rabs (B2R fmax)) /\
     (m = ClipMedian -> (length vals <= 2 * length (filter (fun v : b64 => Bleb v c) vals) /\ length vals <= 2 * length (filter (fun v : b64 => Bleb c v) vals))%nat) /\
     (m = ClipAtDyn ->
        (near_zero -> B2R c = B2R thr) /\
        (~ near_zero -> Rabs (B2R c - B2R thr * Rabs (B2R fmin)) <= half_ulp * (B2R thr * Rabs (B2R fmin)) + half_min))).
Proof.
  intros m thr ez fmin fmax vals HS (Ft & Ht & Fe & He). destruct (sample_lim _ _ _ HS) as (NE & Lmin & Lmax & LA). cbv zeta.
  destruct (high_spec thr ez fmin fmax (proj1 Lmin) (proj1 Lmax) Ft Fe ltac:(lra) ltac:(lra)) as (H1 & H2). cbv zeta in H1, H2. split.
  - intros E NM. apply H2. unfold cutoff in E. destruct m; [congruence| |]; destruct (high_dynamism thr ez fmin fmax); congruence.
  - intros c E. destruct (cut_bounds m thr ez fmin fmax vals c NE LA Lmin Lmax Ft Ht Fe He E) as ((Fc & _) & _).
    assert (HD : high_dynamism thr ez fmin fmax = true) by (unfold cutoff in E; destruct m; [discriminate| |]; destruct (high_dynamism thr ez fmin fmax); congruence).
    destruct (H1 HD) as (D1 & D2). split; [intros ->; discriminate E|]. split; [exact Fc|]. split; [exact D1|]. split; [exact D2|]. split.
    + intros ->. unfold cutoff in E. rewrite HD in E. assert (EC : c = fmedian vals) by congruence. rewrite EC. apply median_half; [exact NE|]. intros x Hx. apply LA. exact Hx.
    + intros ->. unfold cutoff in E. rewrite HD in E. pose (w := if Bltb ez (Babs fmin) then (Babs fmin : b64) else f1). assert (EC : c = fmul thr w) by (unfold w; congruence).
      clear E. assert (FA : is_finite (Babs fmin : b64) = true) by (rewrite is_finite_Babs; apply Lmin). assert (E1 : B2R f1 = 1) by apply Bone_correct.
      assert (FW : is_finite w = true) by (unfold w; destruct (Bltb ez (Babs fmin)); [exact FA|reflexivity]).
      assert (VC : B2R c = rnd (B2R thr * B2R w)).
      { rewrite EC. unfold fmul. pose proof (Bmult_correct 53 1024 _ _ mode_NE thr w) as C. destruct (Rlt_bool _ _); [apply C|].
        exfalso. rewrite EC in Fc. unfold fmul in Fc. rewrite <- is_finite_SF_B2SF, C in Fc. destruct (xorb _ _); discriminate. }
      unfold w in VC. rewrite (Bltb_correct 53 1024 _ _ Fe FA), B2R_Babs in VC. split.
      * intros Z. rewrite Rlt_bool_false in VC by exact Z. rewrite VC, E1, Rmult_1_r. apply rnd_id.
      * intros Z. rewrite Rlt_bool_true in VC by lra. rewrite B2R_Babs in VC. rewrite VC.
        pose proof (rnd_error (B2R thr * Rabs (B2R fmin)) ltac:(apply Rmult_le_pos; [lra|apply Rabs_pos])) as R. change u53 with half_ulp in R. change eta with half_min in R.
        apply Rabs_le. lra.
Qed.
Lemma unscaled_values : forall m thr eps_zero fmin fmax vals, sample vals fmin fmax -> sensible thr eps_zero ->
  let '(tv, tmin, tmax) := fvalues false m thr eps_zero fmin fmax vals in
  tmin = fmin /\ tmax = match cutoff m thr eps_zero fmin fmax vals with Some c => c | None => fmax end /\
  forall i, (i < length vals)%nat -> let v := nth i vals fnan in let t := nth i tv fnan in
    (Bleb v tmax = true -> Beqb t v = true) /\ (Bleb v tmax = false -> t = tmax).
Proof.
  intros m thr ez fmin fmax vals HS (Ft & Ht & Fe & He). destruct (sample_lim _ _ _ HS) as (NE & Lmin & Lmax & LA). unfold fvalues. cbv zeta.
  assert (EQ : forall x y : b64, is_finite x = true -> is_finite y = true -> B2R x = B2R y -> Beqb x y = true) by (intros x y A B C; rewrite (Beqb_correct 53 1024 _ _ A B); now apply Req_bool_true).
  destruct (cutoff m thr ez fmin fmax vals) as [c|] eqn:E; (split; [reflexivity|]; split; [reflexivity|]); intros i Hi.
  - destruct (cut_bounds m thr ez fmin fmax vals c NE LA Lmin Lmax Ft Ht Fe He E) as ((Fc & _) & _).
    assert (NM : nth i (map (fclipmax c) vals) fnan = fclipmax c (nth i vals fnan)) by (rewrite <- (map_nth (fclipmax c)); apply nth_indep; rewrite map_length; exact Hi).
    rewrite NM. destruct (LA _ (nth_In vals fnan Hi)) as ((Fx & _) & _).
    set (x := nth i vals fnan) in *. destruct (clipmax_spec c x Fc Fx) as (A & B). split.
    + intros L. apply leb_R in L; auto. apply EQ; auto. rewrite B. apply Rmin_left. exact L.
    + intros L. unfold fclipmax. destruct (fin_ext x Fx) as (_ & ->). rewrite (Bltb_correct 53 1024 _ _ Fx Fc). rewrite (Bleb_correct 53 1024 _ _ Fx Fc) in L.
      destruct (Rle_bool_spec (B2R x) (B2R c)) as [X|X]; [discriminate|]. rewrite Rlt_bool_false by lra. reflexivity.
  - destruct (LA _ (nth_In vals fnan Hi)) as ((Fx & _) & _ & L2). set (x := nth i vals fnan) in *. split; [intros _; apply EQ; auto|]. congruence.
Qed.
