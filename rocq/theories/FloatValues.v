(** * Proofs: rescaling of values in doubles *)
From Coq Require Import Reals Lra Lia.
From Flocq Require Import Core.
From Verif Require Export ModelFloatValues FloatRun.
Open Scope R_scope.

Definition lim (n : Z) (x : b64) : Prop := is_finite x = true /\ Rabs (B2R x) <= bpow radix2 n.
Lemma rnd_lim r n : (0 <= n <= 1023)%Z -> Rabs r <= bpow radix2 n -> Rabs (rnd r) <= bpow radix2 n /\ Rabs (rnd r) < big.
Proof.
  intros Hn H. assert (A : Rabs (rnd r) <= bpow radix2 n).
  { apply abs_round_le_generic; [auto with typeclass_instances|auto with typeclass_instances| |exact H].
    rewrite fe_FLT. apply generic_format_bpow. unfold FLT_exp. lia. }
  split; [exact A|]. eapply Rle_lt_trans; [exact A|]. unfold big. apply bpow_lt. lia.
Qed.
Lemma fadd_lim x y n : (0 <= n <= 1022)%Z -> lim n x -> lim n y -> lim (n + 1) (fadd x y) /\ B2R (fadd x y) = rnd (B2R x + B2R y).
Proof.
  intros Hn (Fx & Lx) (Fy & Ly). assert (S : Rabs (B2R x + B2R y) <= bpow radix2 (n + 1)).
  { rewrite bpow_plus. change (bpow radix2 1) with 2. pose proof (Rabs_triang (B2R x) (B2R y)). lra. }
  destruct (rnd_lim _ (n + 1)%Z ltac:(lia) S) as (A & B). destruct (fadd_cases x y Fx Fy) as [(C & D & _)|(C & _)]; [|lra].
  split; [|exact D]. split; [exact C|]. rewrite D. exact A.
Qed.
Lemma fsub_lim x y n : (0 <= n <= 1022)%Z -> lim n x -> lim n y -> lim (n + 1) (fsub x y) /\ B2R (fsub x y) = rnd (B2R x - B2R y).
Proof.
  intros Hn (Fx & Lx) (Fy & Ly). assert (S : Rabs (B2R x - B2R y) <= bpow radix2 (n + 1)).
  { rewrite bpow_plus. change (bpow radix2 1) with 2. pose proof (Rabs_triang (B2R x) (- B2R y)). rewrite Rabs_Ropp in H. unfold Rminus. lra. }
  destruct (rnd_lim _ (n + 1)%Z ltac:(lia) S) as (A & B). destruct (fsub_ext x y Fx Fy) as (N & E). unfold rext in E.
  rewrite Rlt_bool_true in E by exact B. destruct (ext_fin _ _ N E) as (C & D). split; [|exact D]. split; [exact C|]. rewrite D. exact A.
Qed.
Lemma lim_le n m x : (n <= m)%Z -> lim n x -> lim m x.
Proof. intros H (F & L). split; [exact F|]. eapply Rle_trans; [exact L|]. apply bpow_le. exact H. Qed.
Lemma fmt_double (x : b64) : rnd (2 * B2R x) = 2 * B2R x.
Proof.
  apply round_generic; [auto with typeclass_instances|]. rewrite fe_FLT.
  pose proof (fmt x) as F. rewrite fe_FLT in F. apply FLT_format_generic in F; [|reflexivity]. destruct F as [[m e] E1 E2 E3]. cbn in E2, E3.
  apply generic_format_FLT. exists (Float radix2 m (e + 1)); cbn; [|exact E2|lia].
  rewrite E1. unfold F2R. cbn [Fnum Fexp]. rewrite bpow_plus. change (bpow radix2 1) with 2. ring.
Qed.
Lemma f2_R : is_finite f2 = true /\ B2R f2 = 2.
Proof.
  assert (L : lim 0 f1) by (split; [reflexivity|]; replace (B2R f1) with 1 by (symmetry; apply Bone_correct); rewrite Rabs_R1; cbn; lra).
  destruct (fadd_lim f1 f1 0 ltac:(lia) L L) as ((F & _) & V). split; [exact F|]. unfold f2. rewrite V.
  replace (B2R f1 + B2R f1) with (2 * B2R f1) by ring. rewrite fmt_double. replace (B2R f1) with 1 by (symmetry; apply Bone_correct). ring.
Qed.
Lemma in_finsert x y l : In x (finsert y l) -> x = y \/ In x l.
Proof. induction l as [|z l IH]; cbn; [intuition|]. destruct (Bleb y z); cbn; intuition. Qed.
Lemma in_fsort x l : In x (fsort l) -> In x l.
Proof. induction l as [|y l IH]; cbn; [auto|]. intros H. apply in_finsert in H. intuition. Qed.
Lemma length_finsert y l : length (finsert y l) = S (length l).
Proof. induction l as [|z l IH]; cbn; [reflexivity|]. destruct (Bleb y z); cbn; lia. Qed.
Lemma length_fsort l : length (fsort l) = length l.
Proof. induction l as [|y l IH]; cbn; [reflexivity|]. rewrite length_finsert. fold (fsort l). lia. Qed.
Lemma nth_sort l i : (i < length l)%nat -> In (nth i (fsort l) fnan) l.
Proof. intros H. apply in_fsort. apply nth_In. rewrite length_fsort. exact H. Qed.
Lemma median_bounds l lo hi : l <> [] -> (forall x, In x l -> lim 1000 x /\ Bleb lo x = true /\ Bleb x hi = true) ->
  is_finite lo = true -> is_finite hi = true -> lim 1001 (fmedian l) /\ B2R lo <= B2R (fmedian l) <= B2R hi.
Proof.
  intros Hl H Flo Fhi. unfold fmedian. assert (L0 : (0 < length l)%nat) by (destruct l; [congruence|cbn; lia]).
  assert (M : (Nat.div2 (length l) < length l)%nat) by (apply Nat.lt_div2; exact L0).
  assert (G : forall i, (i < length l)%nat -> let x := nth i (fsort l) fnan in lim 1000 x /\ B2R lo <= B2R x <= B2R hi).
  { intros i Hi x. destruct (H x (nth_sort l i Hi)) as (A & B & C). split; [exact A|]. destruct A as (F & _). apply leb_R in B, C; auto. }
  destruct (Nat.odd (length l)).
  - destruct (G _ M) as (A & B). split; [apply (lim_le 1000); [lia|exact A]|exact B].
  - destruct (G (Nat.div2 (length l) - 1)%nat ltac:(lia)) as (A1 & B1). destruct (G _ M) as (A2 & B2).
    set (x := nth (Nat.div2 (length l) - 1) (fsort l) fnan) in *. set (y := nth (Nat.div2 (length l)) (fsort l) fnan) in *.
    destruct (fadd_lim x y 1000 ltac:(lia) A1 A2) as ((F & L) & V). destruct f2_R as (_ & E2).
    set (s := fadd x y) in *. assert (Q1 : 2 * B2R lo <= B2R s <= 2 * B2R hi).
    { rewrite V, <- (fmt_double lo), <- (fmt_double hi). split; apply rnd_le; lra. }
    assert (HS : Rabs (B2R s / B2R f2) <= bpow radix2 1001).
    { rewrite E2. unfold Rdiv. rewrite Rabs_mult, (Rabs_pos_eq (/ 2)) by lra. pose proof (Rabs_pos (B2R s)). change (1000 + 1)%Z with 1001%Z in L. lra. }
    destruct (rnd_lim _ 1001 ltac:(lia) HS) as (R1 & R2). destruct (fdiv_fits s f2 F ltac:(lra) R2) as (C & D).
    split; [split; [exact C|rewrite D; exact R1]|]. rewrite D, E2, <- (rnd_id lo), <- (rnd_id hi). split; apply rnd_le; lra.
Qed.

Lemma cut_bounds m thr ez fmin fmax l c : l <> [] -> (forall x, In x l -> lim 1000 x /\ Bleb fmin x = true /\ Bleb x fmax = true) ->
  lim 1000 fmin -> lim 1000 fmax -> is_finite thr = true -> 1 <= B2R thr <= bpow radix2 20 -> is_finite ez = true -> 0 < B2R ez <= 1 ->
  cutoff m thr ez fmin fmax l = Some c -> lim 1020 c /\ B2R fmin <= B2R c.
Proof.
  intros Hl H Lmin Lmax Ft Ht Fe He E. destruct m; unfold cutoff in E; [discriminate| |]; destruct (high_dynamism thr ez fmin fmax) eqn:HD; try discriminate.
  - assert (c = fmedian l) as -> by congruence. destruct (median_bounds l fmin fmax Hl H (proj1 Lmin) (proj1 Lmax)) as (A & B & C).
    split; [apply (lim_le 1001); [lia|exact A]|exact B].
  - pose (w := if Bltb ez (Babs fmin) then (Babs fmin : b64) else f1). assert (EC : c = fmul thr w) by (unfold w; congruence). clear E. destruct Lmin as (Fm & Lm).
    assert (E1 : B2R f1 = 1) by apply Bone_correct.
    assert (FA : is_finite (Babs fmin) = true) by (rewrite is_finite_Babs; exact Fm).
    assert (W : is_finite w = true /\ 0 <= B2R w <= bpow radix2 1000 /\ B2R fmin <= B2R w).
    { unfold w. rewrite (Bltb_correct 53 1024 _ _ Fe FA), B2R_Babs. destruct (Rlt_bool_spec (B2R ez) (Rabs (B2R fmin))) as [X|X].
      - split; [exact FA|]. rewrite B2R_Babs. split; [split; [apply Rabs_pos|exact Lm]|apply RRle_abs].
      - split; [reflexivity|]. rewrite E1. split; [split; [lra|]; change 1 with (bpow radix2 0); apply bpow_le; lia|]. pose proof (RRle_abs (B2R fmin)). lra. }
    destruct W as (FW & W1 & W2).
    assert (P : Rabs (B2R thr * B2R w) <= bpow radix2 1020).
    { rewrite Rabs_pos_eq by (apply Rmult_le_pos; lra). change 1020%Z with (20 + 1000)%Z. rewrite bpow_plus. apply Rmult_le_compat; lra. }
    destruct (rnd_lim _ 1020 ltac:(lia) P) as (R1 & R2). destruct (fmul_fits thr w Ft FW R2) as (A & B). rewrite EC.
    split; [split; [exact A|rewrite B; exact R1]|]. rewrite B. apply Rle_trans with (B2R w); [exact W2|]. rewrite <- (rnd_id w) at 1. apply rnd_le. nra.
Qed.
Lemma clipmax_spec c x : is_finite c = true -> is_finite x = true ->
  is_finite (fclipmax c x) = true /\ B2R (fclipmax c x) = Rmin (B2R x) (B2R c).
Proof.
  intros Fc Fx. unfold fclipmax. destruct (fin_ext x Fx) as (_ & ->). rewrite (Bltb_correct 53 1024 _ _ Fx Fc).
  destruct (Rlt_bool_spec (B2R x) (B2R c)); [rewrite Rmin_left by lra|rewrite Rmin_right by lra]; auto.
Qed.
(** The affine map of one value. *)
Section Affine.
  Variables (fmin top ez : b64).
  Hypothesis Lmin : lim 1000 fmin.
  Hypothesis Ltop : lim 1020 top.
  Hypothesis Hle : B2R fmin <= B2R top.
  Hypothesis Fe : is_finite ez = true.
  Hypothesis He : 0 < B2R ez <= 1.
  Definition dn := if Bltb ez (fsub top fmin) then fsub top fmin else f1.
  Definition T (v : b64) := fdiv (fsub v fmin) dn.
  Lemma spread : is_finite (fsub top fmin) = true /\ B2R (fsub top fmin) = rnd (B2R top - B2R fmin).
  Proof. destruct (fsub_lim top fmin 1020 ltac:(lia) Ltop (lim_le 1000 1020 _ ltac:(lia) Lmin)) as ((A & _) & B). auto. Qed.
  Lemma dn_cases : is_finite dn = true /\ 0 < B2R dn /\
    ((Bltb ez (fsub top fmin) = true /\ dn = fsub top fmin /\ B2R dn = rnd (B2R top - B2R fmin)) \/
     (Bltb ez (fsub top fmin) = false /\ B2R dn = 1 /\ rnd (B2R top - B2R fmin) <= B2R ez)).
  Proof.
    destruct spread as (A & B). unfold dn. pose proof (Bltb_correct 53 1024 _ _ Fe A) as C. rewrite C, B.
    destruct (Rlt_bool_spec (B2R ez) (rnd (B2R top - B2R fmin))) as [X|X].
    - split; [exact A|]. split; [rewrite B; lra|]. left. auto.
    - split; [reflexivity|]. assert (E1 : B2R f1 = 1) by apply Bone_correct. split; [lra|]. right. auto.
  Qed.
  Lemma num v : is_finite v = true -> B2R fmin <= B2R v <= B2R top ->
    is_finite (fsub v fmin) = true /\ B2R (fsub v fmin) = rnd (B2R v - B2R fmin) /\ 0 <= B2R (fsub v fmin) <= rnd (B2R top - B2R fmin).
  Proof.
    intros Fv Hv. assert (Lv : lim 1020 v).
    { split; [exact Fv|]. destruct Ltop as (_ & L1). destruct Lmin as (_ & L2). assert (L3 : bpow radix2 1000 <= bpow radix2 1020) by (apply bpow_le; lia).
      apply Rabs_le_inv in L1, L2. apply Rabs_le. lra. }
    destruct (fsub_lim v fmin 1020 ltac:(lia) Lv (lim_le 1000 1020 _ ltac:(lia) Lmin)) as ((A & _) & B).
    split; [exact A|]. split; [exact B|]. rewrite B. split; [rewrite <- rnd_0; apply rnd_le; lra|apply rnd_le; lra].
  Qed.
  Lemma T_spec v : is_finite v = true -> B2R fmin <= B2R v <= B2R top ->
    is_finite (T v) = true /\ B2R (T v) = rnd (B2R (fsub v fmin) / B2R dn) /\ 0 <= B2R (T v) /\
    (Bltb ez (fsub top fmin) = true -> B2R (T v) <= 1) /\ (Bltb ez (fsub top fmin) = false -> B2R (T v) <= B2R ez).
  Proof.
    intros Fv Hv. destruct (num v Fv Hv) as (A & B & C). destruct dn_cases as (FD & PD & D).
    assert (Q : 0 <= B2R (fsub v fmin) / B2R dn <= 1).
    { split; [apply Rmult_le_pos; [lra|apply Rlt_le, Rinv_0_lt_compat; exact PD]|].
      apply Rmult_le_reg_r with (B2R dn); [exact PD|]. unfold Rdiv. rewrite Rmult_assoc, Rinv_l, Rmult_1_r, Rmult_1_l by lra.
      destruct D as [(_ & _ & ->)|(_ & -> & D)]; lra. }
    assert (R1 : rnd 1 = 1) by (replace 1 with (B2R f1) by apply Bone_correct; apply rnd_id).
    assert (RQ : 0 <= rnd (B2R (fsub v fmin) / B2R dn) <= 1) by (split; [rewrite <- rnd_0|rewrite <- R1]; apply rnd_le; lra).
    assert (BG : 1 < big) by (unfold big; change 1 with (bpow radix2 0); apply bpow_lt; lia).
    destruct (fdiv_fits (fsub v fmin) dn A ltac:(lra)) as (X & Y); [rewrite Rabs_pos_eq; lra|].
    unfold T. split; [exact X|]. split; [exact Y|]. rewrite Y. split; [lra|]. split; [intros _; lra|]. intros W.
    destruct D as [(D & _)|(_ & E & D)]; [congruence|]. rewrite E. unfold Rdiv. rewrite Rinv_1, Rmult_1_r, rnd_id. lra.
  Qed.
  Lemma T_mono v w : is_finite v = true -> is_finite w = true -> B2R fmin <= B2R v -> B2R v <= B2R w -> B2R w <= B2R top -> B2R (T v) <= B2R (T w).
  Proof.
    intros Fv Fw H1 H2 H3. destruct (T_spec v Fv ltac:(lra)) as (_ & -> & _). destruct (T_spec w Fw ltac:(lra)) as (_ & -> & _).
    destruct dn_cases as (_ & PD & _). apply rnd_le. unfold Rdiv. apply Rmult_le_compat_r; [apply Rlt_le, Rinv_0_lt_compat; exact PD|].
    destruct (num v Fv ltac:(lra)) as (_ & -> & _). destruct (num w Fw ltac:(lra)) as (_ & -> & _). apply rnd_le. lra.
  Qed.
  Lemma T_min v : is_finite v = true -> B2R v = B2R fmin -> B2R (T v) = 0.
  Proof.
    intros Fv E. destruct (T_spec v Fv ltac:(lra)) as (_ & -> & _). destruct (num v Fv ltac:(lra)) as (_ & -> & _).
    rewrite E, Rminus_diag_eq by reflexivity. rewrite rnd_0. unfold Rdiv. rewrite Rmult_0_l. apply rnd_0.
  Qed.
  Lemma T_max v : is_finite v = true -> B2R v = B2R top -> Bltb ez (fsub top fmin) = true -> B2R (T v) = 1.
  Proof.
    intros Fv E W. destruct (T_spec v Fv ltac:(lra)) as (_ & -> & _). destruct (num v Fv ltac:(lra)) as (_ & -> & _).
    destruct dn_cases as (_ & PD & [(_ & _ & D)|(D & _)]); [|congruence]. rewrite E. rewrite D in PD |- *. unfold Rdiv. rewrite Rinv_r by lra.
    replace 1 with (B2R f1) by apply Bone_correct. apply rnd_id.
  Qed.
  Lemma T_acc v : is_finite v = true -> B2R fmin <= B2R v <= B2R top -> Bltb ez (fsub top fmin) = true ->
    let q := (B2R v - B2R fmin) / (B2R top - B2R fmin) in
    q * ((1 - u53) * (1 - u53) / (1 + u53)) - eta <= B2R (T v) <= q * ((1 + u53) * (1 + u53) / (1 - u53)) + eta.
  Proof.
    intros Fv Hv W. cbv zeta. destruct (T_spec v Fv Hv) as (_ & -> & _). destruct (num v Fv Hv) as (_ & EN & NB).
    destruct dn_cases as (_ & PD & [(_ & _ & D)|(D & _)]); [|congruence]. pose proof u53_pos as U.
    pose proof (sub_error v fmin ltac:(lra)) as (N1 & N2). pose proof (sub_error top fmin ltac:(lra)) as (D1 & D2).
    rewrite <- EN in N1, N2. rewrite <- D in D1, D2. set (a := B2R (fsub v fmin)) in *. set (b := B2R dn) in *. set (x := B2R v - B2R fmin) in *. set (y := B2R top - B2R fmin) in *.
    assert (X0 : 0 <= x) by (unfold x; lra). assert (Y0 : 0 < y) by (apply Rnot_le_lt; intros C; assert (y * (1 + u53) <= 0) by nra; lra).
    clearbody a b x y. assert (Q0 : 0 <= a / b) by (apply Rmult_le_pos; [lra|apply Rlt_le, Rinv_0_lt_compat; exact PD]).
    pose proof (rnd_error (a / b) Q0) as (R1 & R2).
    assert (B1 : x / y * ((1 - u53) / (1 + u53)) <= a / b).
    { apply Rmult_le_reg_r with b; [exact PD|]. replace (a / b * b) with a by (field; lra).
      apply Rle_trans with (x / y * ((1 - u53) / (1 + u53)) * (y * (1 + u53))); [|replace (x / y * ((1 - u53) / (1 + u53)) * (y * (1 + u53))) with (x * (1 - u53)) by (field; lra); exact N1].
      apply Rmult_le_compat_l; [|exact D2]. apply Rmult_le_pos; [apply Rmult_le_pos; [exact X0|apply Rlt_le, Rinv_0_lt_compat; exact Y0]|].
      apply Rmult_le_pos; [lra|apply Rlt_le, Rinv_0_lt_compat; lra]. }
    assert (B2 : a / b <= x / y * ((1 + u53) / (1 - u53))).
    { apply Rmult_le_reg_r with b; [exact PD|]. replace (a / b * b) with a by (field; lra).
      apply Rle_trans with (x / y * ((1 + u53) / (1 - u53)) * (y * (1 - u53))); [replace (x / y * ((1 + u53) / (1 - u53)) * (y * (1 - u53))) with (x * (1 + u53)) by (field; lra); exact N2|].
      apply Rmult_le_compat_l; [|exact D1]. apply Rmult_le_pos; [apply Rmult_le_pos; [exact X0|apply Rlt_le, Rinv_0_lt_compat; exact Y0]|].
      apply Rmult_le_pos; [lra|apply Rlt_le, Rinv_0_lt_compat; lra]. }
    split.
    - eapply Rle_trans; [|exact R1]. replace (x / y * ((1 - u53) * (1 - u53) / (1 + u53))) with (x / y * ((1 - u53) / (1 + u53)) * (1 - u53)) by (field; lra).
      apply Rplus_le_compat_r. apply Rmult_le_compat_r; lra.
    - eapply Rle_trans; [exact R2|]. replace (x / y * ((1 + u53) * (1 + u53) / (1 - u53))) with (x / y * ((1 + u53) / (1 - u53)) * (1 + u53)) by (field; lra).
      apply Rplus_le_compat_r. apply Rmult_le_compat_r; lra.
  Qed.
End Affine.
