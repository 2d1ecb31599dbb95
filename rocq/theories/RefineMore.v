(** * Lemmas for the refinement properties (candidate, rounding, choices). *)
From Verif Require Export RefineGlue.
From Coq Require Import Lra Lia.
Open Scope R_scope.

Lemma rdot_minus_r h : forall u v : rpoint, length u = length v -> rdot h (map2 Rminus u v) = rdot h u - rdot h v.
Proof.
  induction h as [|a h IH]; intros [|x u] [|y v] L; cbn in *; try lra; try discriminate.
  injection L as L. specialize (IH u v L). unfold rdot in *. cbn in *. rewrite IH. lra.
Qed.

Lemma grad_pos eps h : 0 <= eps -> ~ sqrt (rdot h h) <= eps -> 0 < sqrt (rdot h h).
Proof. lra. Qed.

Lemma candidate_spec eps min_dist lo up h start radius : 0 <= eps -> rin_box start lo up -> length h = length start -> 0 <= radius ->
  let '(c, impr, g) := get_candidate_point eps min_dist lo up h start radius in
  rin_box c lo up /\ distance c start <= radius /\ length c = length start /\
  (forall b, impr = linear_value h b start - linear_value h b c) /\
  (forall j, (j < length h)%nat -> 0 <= nth j h 0 * (nth j start 0 - nth j c 0)) /\
  (forall j, (j < length h)%nat -> nth j h 0 = 0 -> nth j c 0 = nth j start 0) /\
  0 <= impr /\ g = sqrt (rdot h h).
Proof.
  intros He B Lh Hr. unfold get_candidate_point. cbv zeta. destruct (Rleb (sqrt (rdot h h)) eps) eqn:G.
  - apply Rleb_le in G. split; [auto|]. split; [rewrite distance_self; auto|]. split; auto. split; [intros; lra|].
    split; [intros; nra|]. split; [auto|]. split; [lra|auto].
  - apply Rleb_gt in G. assert (Hh : 0 < sqrt (rdot h h)) by lra.
    set (c := rclip _ lo up).
    pose proof (cand_in_box min_dist radius lo up h start B Lh) as C1. fold c in C1.
    pose proof (cand_distance min_dist radius lo up h start B Lh Hr Hh) as C2. fold c in C2.
    pose proof (cand_improves min_dist radius lo up h start B Lh Hr Hh) as C3. fold c in C3.
    pose proof (cand_len min_dist radius lo up h start B Lh) as C4. fold c in C4.
    assert (M : rdot h (map2 Rminus start c) = rdot h start - rdot h c) by (apply rdot_minus_r; auto).
    split; auto. split; auto. split; auto. split; [intros b; unfold linear_value; rewrite M; lra|].
    split; auto. split; [|split; auto].
    + intros j Hj Z. unfold c. rewrite (nth_cand min_dist radius lo up h start B Lh) by lia. rewrite Z.
      rewrite Rmult_0_r, Rminus_0_r. destruct B as (_ & _ & Bj). apply rclip1_id. apply Bj. lia.
    + apply rdot_nonneg_terms. intros j Hj. rewrite (map2_nth Rminus start c j 0 0 0) by lia. apply C3. auto.
Qed.

(** How far the step goes. *)
Lemma candidate_step eps min_dist lo up h start radius : 0 <= eps -> rin_box start lo up -> length h = length start -> 0 <= radius ->
  eps < sqrt (rdot h h) ->
  let '(c, _, _) := get_candidate_point eps min_dist lo up h start radius in
  exists t, 0 <= t /\
    (forall j, (j < length h)%nat -> nth j c 0 = Rmin (Rmax (nth j start 0 - t * nth j h 0) (nth j lo 0)) (nth j up 0)) /\
    (forall j, (j < length h)%nat -> room min_dist lo up h start j -> nth j c 0 = nth j start 0 - t * nth j h 0) /\
    (t * sqrt (rdot h h) = radius \/
     exists j, (j < length h)%nat /\ room min_dist lo up h start j /\ nth j c 0 = (if Rlt_dec 0 (nth j h 0) then nth j lo 0 else nth j up 0)).
Proof.
  intros He B Lh Hr Hg. unfold get_candidate_point. cbv zeta.
  replace (Rleb (sqrt (rdot h h)) eps) with false by (symmetry; apply Rleb_gt; auto).
  assert (Hh : 0 < sqrt (rdot h h)) by lra. set (c := rclip _ lo up).
  exists (step_length min_dist lo up h start radius). split; [apply step_nonneg; auto|]. split; [|split].
  - intros j Hj. unfold c. rewrite (nth_cand min_dist radius lo up h start B Lh) by lia. reflexivity.
  - intros j Hj Rm. apply (cand_room min_dist radius lo up h start B Lh Hr Hh j Hj Rm).
  - destruct (step_cases min_dist radius lo up h start Lh) as (_ & _ & [E|(j & Hj & Rm & E)]).
    + left. rewrite E. field. lra.
    + right. exists j. split; auto. split; auto. unfold c.
      rewrite (cand_room min_dist radius lo up h start B Lh Hr Hh j Hj Rm), E. unfold limit.
      destruct (Rlt_dec 0 (nth j h 0)); [field; lra|]. destruct Rm as [[]|[N _]]; [lra|]. field; lra.
Qed.

(** Progress: if some coordinate can move in its descent direction, the model improves. *)
Lemma candidate_progress eps min_dist lo up h start radius j0 : 0 <= eps -> 0 < min_dist -> rin_box start lo up ->
  length h = length start -> 0 < radius -> eps < sqrt (rdot h h) -> (j0 < length h)%nat ->
  (0 < nth j0 h 0 /\ nth j0 lo 0 < nth j0 start 0) \/ (nth j0 h 0 < 0 /\ nth j0 start 0 < nth j0 up 0) ->
  0 < snd (fst (get_candidate_point eps min_dist lo up h start radius)).
Proof.
  intros He Hm B Lh Hr Hg Hj0 Cj. unfold get_candidate_point. cbv zeta.
  replace (Rleb (sqrt (rdot h h)) eps) with false by (symmetry; apply Rleb_gt; auto).
  assert (Hh : 0 < sqrt (rdot h h)) by lra. cbn [fst snd]. set (c := rclip _ lo up).
  set (t := step_length min_dist lo up h start radius).
  assert (Ht : 0 < t).
  { destruct (step_cases min_dist radius lo up h start Lh) as (_ & _ & [E|(j & Hj & Rm & E)]); fold t in E; rewrite E.
    - apply Rdiv_lt_0_compat; lra.
    - unfold limit. destruct Rm as [[P L]|[P L]]; destruct (Rlt_dec 0 (nth j h 0)); try lra.
      + apply Rdiv_lt_0_compat; lra.
      + replace ((nth j start 0 - nth j up 0) / nth j h 0) with ((nth j up 0 - nth j start 0) / - nth j h 0) by (field; lra).
        apply Rdiv_lt_0_compat; lra. }
  pose proof (cand_improves min_dist radius lo up h start B Lh (Rlt_le _ _ Hr) Hh) as C3. fold c in C3.
  pose proof (cand_len min_dist radius lo up h start B Lh) as C4. fold c in C4.
  assert (Hp : 0 < nth j0 h 0 * (nth j0 start 0 - nth j0 c 0)).
  { unfold c. rewrite (nth_cand min_dist radius lo up h start B Lh) by lia. fold t.
    destruct B as (_ & _ & Bj). specialize (Bj j0 ltac:(lia)). unfold rclip1.
    destruct Cj as [[P L]|[P L]].
    - assert (0 < t * nth j0 h 0) by (apply Rmult_lt_0_compat; auto).
      apply Rmult_lt_0_compat; auto. unfold Rmin, Rmax. repeat destruct (Rle_dec _ _); lra.
    - assert (0 < t * - nth j0 h 0) by (apply Rmult_lt_0_compat; lra).
      assert (0 < - nth j0 h 0 * (Rmin (Rmax (nth j0 start 0 - t * nth j0 h 0) (nth j0 lo 0)) (nth j0 up 0) - nth j0 start 0)).
      { apply Rmult_lt_0_compat; [lra|]. unfold Rmin, Rmax. repeat destruct (Rle_dec _ _); lra. }
      lra. }
  assert (S : forall (u v : rpoint) j, length u = length v -> (j < length u)%nat -> (forall i, (i < length u)%nat -> 0 <= nth i u 0 * nth i v 0) ->
              nth j u 0 * nth j v 0 <= rdot u v).
  { clear. induction u as [|a u IH]; intros [|b v] j L Hj P; cbn in Hj, L; try lia.
    assert (Pt : forall i, (i < length u)%nat -> 0 <= nth i u 0 * nth i v 0) by (intros i Hi; apply (P (S i)); cbn; lia).
    pose proof (rdot_nonneg_terms u v Pt). pose proof (P 0%nat ltac:(cbn; lia)) as P0. cbn in P0.
    change (rdot (a :: u) (b :: v)) with (a * b + rdot u v). destruct j as [|j]; cbn [nth]; [lra|].
    pose proof (IH v j ltac:(lia) ltac:(lia) Pt). lra. }
  assert (Lm : length h = length (map2 Rminus start c)) by (rewrite map2_len; lia).
  pose proof (S h (map2 Rminus start c) j0 Lm Hj0) as Q.
  rewrite (map2_nth Rminus start c j0 0 0 0) in Q by lia.
  assert (nth j0 h 0 * (nth j0 start 0 - nth j0 c 0) <= rdot h (map2 Rminus start c)); [|lra].
  apply Q. intros i Hi. rewrite (map2_nth Rminus start c i 0 0 0) by lia. apply C3; auto.
Qed.

(** Rounding seen from a whole start, no categorical blocks. *)
Lemma integer_within eps min_dist lo up h start radius ints draws : 0 <= eps -> rin_box start lo up -> length h = length start -> 0 <= radius ->
  (forall j, In j ints -> whole (nth j start 0)) ->
  let '(c, impr, _) := get_candidate_point eps min_dist lo up h start radius in
  let (q, adj) := get_integer_candidate h start c radius ints [] [] draws in
  distance q start <= radius /\ 0 <= impr + adj.
Proof.
  intros He B Lh Hr W. pose proof (candidate_spec eps min_dist lo up h start radius He B Lh Hr) as S.
  destruct (get_candidate_point eps min_dist lo up h start radius) as [[c impr] g].
  destruct S as (S1 & S2 & S3 & S4 & S5 & S6 & S7 & S8).
  unfold get_integer_candidate. set (p0 := initial_rounding h c ints [] []).
  pose proof (best_rounding_spec h start c radius ints [] draws p0 (rdot h p0) eq_refl) as R.
  destruct (best_rounding _ _ _ _ _ _ draws p0 _) as [q v]. destruct R as (-> & R2 & R3 & _).
  assert (Bt : forall j, (j < length c)%nat -> Rabs (nth j p0 0 - nth j start 0) <= Rabs (nth j c 0 - nth j start 0) /\ 0 <= nth j h 0 * (nth j start 0 - nth j p0 0)).
  { intros j Hj. apply (initial_rounding_between h start c ints j); auto; try congruence.
    - apply S5. unfold rpoint in *; lia.
    - apply S6. unfold rpoint in *; lia. }
  assert (Lp : length p0 = length c).
  { unfold p0, initial_rounding, round_categorical. cbn [combine fold_left]. apply mapi_len. }
  split.
  - destruct R3 as [->|(d & _ & -> & Hd)]; [|auto]. eapply Rle_trans; [|exact S2]. unfold distance. cbv zeta.
    apply sqrt_le_1_alt. apply rdot_sq_le; rewrite !map2_len by congruence; [congruence|].
    intros j Hj. rewrite Lp in Hj.
    rewrite (map2_nth Rminus p0 start j 0 0 0), (map2_nth Rminus c start j 0 0 0) by (unfold rpoint in *; lia). apply Bt; auto.
  - rewrite (S4 0). unfold linear_value.
    assert (0 <= rdot h (map2 Rminus start p0)).
    { apply rdot_nonneg_terms. intros j Hj. rewrite (map2_nth Rminus start p0 j 0 0 0) by (unfold rpoint in *; lia). apply Bt. unfold rpoint in *; lia. }
    rewrite rdot_minus_r in H by congruence. lra.
Qed.

(** Categorical choice. *)
Lemma rsum_nonneg l : (forall x, In x l -> 0 <= x) -> 0 <= rsum l.
Proof. induction l as [|a l IH]; cbn; intros H; [lra|]. pose proof (H a (or_introl eq_refl)). specialize (IH (fun x h => H x (or_intror h))). unfold rsum in IH. lra. Qed.
Lemma pick_from_spec total u : 0 < total -> 0 <= u < 1 -> forall ws acc i, (forall w, In w ws -> 0 <= w) -> acc + rsum ws = total ->
  acc / total <= u ->
  exists m, pick_from total u acc ws i = (i + m)%nat /\ (m < length ws)%nat /\ 0 < nth m ws 0 /\
    (acc + rsum (firstn m ws)) / total <= u < (acc + rsum (firstn (S m) ws)) / total.
Proof.
  intros Ht Hu. induction ws as [|w r IH]; intros acc i P E A.
  - cbn in E. rewrite Rplus_0_r in E. subst. exfalso. unfold Rdiv in A. rewrite Rinv_r in A; lra.
  - cbn [pick_from]. destruct (Rltb u ((acc + w) / total)) eqn:G.
    + apply Rltb_lt in G. exists 0%nat. split; [lia|]. split; [cbn; lia|]. split.
      * cbn. assert (acc / total < (acc + w) / total) by lra. apply Rmult_lt_reg_r in H; [lra|apply Rinv_0_lt_compat; lra].
      * cbn. rewrite !Rplus_0_r. split; auto.
    + apply Rltb_ge in G. destruct (IH (acc + w) (S i)) as (m & M1 & M2 & M3 & M4).
      * intros x Hx. apply P. right; auto.
      * unfold rsum in *. cbn in E. lra.
      * auto.
      * exists (S m). split; [rewrite M1; lia|]. split; [cbn; lia|]. split; [auto|].
        cbn [firstn]. unfold rsum in *. cbn [fold_right] in *. rewrite <- !Rplus_assoc. auto.
Qed.
Lemma pick_possible p block u r : block <> [] -> (forall j, In j block -> 0 <= nth j p 0) -> 0 <= u < 1 -> (r < length block)%nat ->
  possible_choice p block (pick_category p block u r).
Proof.
  intros Nb P Hu Hr. unfold pick_category. cbv zeta. set (ws := map (fun j => nth j p 0) block).
  destruct (Req_EM_T (rsum ws) 0) as [Z|Z].
  - split; [apply nth_In; auto|]. intros C. contradiction.
  - assert (Pw : forall w, In w ws -> 0 <= w) by (intros w Hw; apply in_map_iff in Hw as (j & <- & Hj); auto).
    pose proof (rsum_nonneg ws Pw).
    destruct (pick_from_spec (rsum ws) u ltac:(lra) Hu ws 0 0 Pw ltac:(lra)) as (m & -> & M2 & M3 & _).
    { unfold Rdiv. rewrite Rmult_0_l. lra. }
    cbn [Nat.add]. unfold ws in M2. rewrite map_length in M2. split; [apply nth_In; auto|]. intros _.
    unfold ws in M3. rewrite (nth_map_in _ block m 0%nat) in M3 by auto. auto.
Qed.
