(** * Proofs about domain scaling and the optimality gap (rational arithmetic). *)
From Verif Require Export ModelAlg BaseLemmas AlgBox SpecScaling.
From Coq Require Import Lia Lqa.
Open Scope Q_scope.

Lemma scale_unscale1 x lo up : lo < up -> scale1 (unscale1 x lo up) lo up == x.
Proof.
  intros H. unfold scale1, unscale1. destruct (Qeq_bool (up - lo) 0) eqn:E.
  - apply Qeq_bool_iff in E. lra.
  - apply Qeq_bool_neq in E. field. intros F. apply E. lra.
Qed.
Lemma unscale_scale1 x lo up : lo <= x <= up -> unscale1 (scale1 x lo up) lo up == x.
Proof.
  intros H. unfold scale1, unscale1. destruct (Qeq_bool (up - lo) 0) eqn:E.
  - apply Qeq_bool_iff in E. rewrite E. lra.
  - apply Qeq_bool_neq in E. field. intros F. apply E. lra.
Qed.
Lemma scale1_unit x lo up : lo <= x <= up -> 0 <= scale1 x lo up <= 1.
Proof.
  intros H. unfold scale1. destruct (Qeq_bool (up - lo) 0) eqn:E.
  - apply Qeq_bool_iff in E. unfold Qdiv. change (/ 1) with 1. lra.
  - apply Qeq_bool_neq in E.
    assert (D : 0 < up - lo) by (destruct (Qlt_le_dec 0 (up - lo)); auto; exfalso; apply E; lra).
    split; [apply Qle_shift_div_l; lra|apply Qle_shift_div_r; lra].
Qed.
Lemma scale1_unit_conv x lo up : lo < up -> 0 <= scale1 x lo up <= 1 -> lo <= x <= up.
Proof.
  intros H [H0 H1]. unfold scale1 in *. destruct (Qeq_bool (up - lo) 0) eqn:E.
  - apply Qeq_bool_iff in E. lra.
  - assert (D : 0 < up - lo) by lra.
    assert (X : (x - lo) / (up - lo) * (up - lo) == x - lo) by (field; lra).
    assert (0 <= (x - lo) / (up - lo) * (up - lo)) by (apply Qmult_le_0_compat; lra).
    assert ((x - lo) / (up - lo) * (up - lo) <= 1 * (up - lo)) by (apply Qmult_le_compat_r; lra).
    lra.
Qed.

(** Points. *)
Lemma map3_len (f : Q -> Q -> Q -> Q) p lo up : length p = length lo -> length p = length up -> length (map3 f p lo up) = length p.
Proof. intros. apply map3_length; lia. Qed.
Lemma round_trip lo up p : in_box p lo up ->
  agree (transform_domain true lo up [] (transform_domain true lo up [] p false) true) p.
Proof.
  intros (L1 & L2 & B). unfold transform_domain; cbn [scaling_on andb].
  split; [rewrite !map3_len; rewrite ?map3_len; lia|].
  intros j Hj. rewrite !map3_len in Hj by (rewrite ?map3_len; lia).
  rewrite (nth_map3 unscale1 _ lo up j 0 0 0) by (rewrite ?map3_len; lia).
  rewrite (nth_map3 scale1 p lo up j 0 0 0) by lia. apply unscale_scale1. auto.
Qed.
Lemma round_trip_back lo up p : length p = length lo -> length p = length up ->
  (forall j, (j < length lo)%nat -> nth j lo 0 < nth j up 0) ->
  agree (transform_domain true lo up [] (transform_domain true lo up [] p true) false) p.
Proof.
  intros L1 L2 B. unfold transform_domain; cbn [scaling_on andb].
  split; [rewrite !map3_len; rewrite ?map3_len; lia|].
  intros j Hj. rewrite !map3_len in Hj by (rewrite ?map3_len; lia).
  rewrite (nth_map3 scale1 _ lo up j 0 0 0) by (rewrite ?map3_len; lia).
  rewrite (nth_map3 unscale1 p lo up j 0 0 0) by lia. apply scale_unscale1. apply B. lia.
Qed.
Lemma nth_map_const (l : point) (v : Q) j : (j < length l)%nat -> nth j (map (fun _ => v) l) 0 = v.
Proof. revert j; induction l; intros [|j] H; cbn in *; auto; try lia. apply IHl. lia. Qed.
Lemma to_unit lo up p : in_box p lo up -> in_box (transform_domain true lo up [] p false) (zeros_for lo) (ones_for up).
Proof.
  intros (L1 & L2 & B). unfold transform_domain; cbn [scaling_on andb].
  unfold zeros_for, ones_for. split; [rewrite map3_len, map_length; lia|]. split; [rewrite map3_len, map_length; lia|].
  intros j Hj. rewrite map3_len in Hj by lia. rewrite !nth_map_const by lia.
  rewrite (nth_map3 scale1 p lo up j 0 0 0) by lia. apply scale1_unit. auto.
Qed.
Lemma from_unit lo up p : box_ok lo up -> in_box p (zeros_for lo) (ones_for up) -> in_box (transform_domain true lo up [] p true) lo up.
Proof.
  intros [L B] (L1 & L2 & U). unfold zeros_for, ones_for in *. rewrite map_length in *. unfold transform_domain; cbn [scaling_on andb].
  split; [rewrite map3_len; lia|]. split; [rewrite map3_len; lia|].
  intros j Hj. rewrite map3_len in Hj by lia.
  rewrite (nth_map3 unscale1 p lo up j 0 0 0) by lia. apply unscale1_bounds; [apply B; lia|].
  specialize (U j Hj). rewrite !nth_map_const in U by lia. auto.
Qed.
Lemma corners lo up : box_ok lo up ->
  agree (transform_domain true lo up [] (zeros_for lo) true) lo /\ agree (transform_domain true lo up [] (ones_for lo) true) up /\
  agree (transform_domain true lo up [] lo false) (zeros_for lo) /\
  ((forall j, (j < length lo)%nat -> nth j lo 0 < nth j up 0) -> agree (transform_domain true lo up [] up false) (ones_for lo)).
Proof.
  intros [L B]. unfold transform_domain; cbn [scaling_on andb]. unfold zeros_for, ones_for.
  repeat match goal with |- _ /\ _ => split end; rewrite ?map_length; try (rewrite map3_len; rewrite ?map_length; lia);
    intros; try (split; [rewrite map3_len; rewrite ?map_length; lia|]; intros j Hj);
    match goal with H : (?j < length (map3 _ _ _ _))%nat |- _ => rewrite map3_len in H by (rewrite ?map_length; lia); rewrite ?map_length in H end.
  - rewrite (nth_map3 unscale1 _ lo up j 0 0 0) by (rewrite ?map_length; lia). rewrite nth_map_const by lia. unfold unscale1. ring.
  - rewrite (nth_map3 unscale1 _ lo up j 0 0 0) by (rewrite ?map_length; lia). rewrite nth_map_const by lia. unfold unscale1. ring.
  - rewrite (nth_map3 scale1 _ lo up j 0 0 0) by (rewrite ?map_length; lia). rewrite nth_map_const by lia. unfold scale1.
    setoid_replace (nth j lo 0 - nth j lo 0) with 0 by ring. unfold Qdiv. ring.
  - rewrite (nth_map3 scale1 _ lo up j 0 0 0) by (rewrite ?map_length; lia). rewrite nth_map_const by lia. unfold scale1.
    assert (nth j lo 0 < nth j up 0) by (apply H; lia).
    destruct (Qeq_bool (nth j up 0 - nth j lo 0) 0) eqn:E; [apply Qeq_bool_iff in E; lra|]. field. lra.
Qed.

(** ** Gap *)
Lemma gap_den_pos c : 0 < eps_zero c -> 0 < gap_den c.
Proof.
  intros H. unfold gap_den. destruct (Qle_bool (eps_zero c) (Qabs (target_objval c))) eqn:E; [|reflexivity].
  apply Qle_bool_iff in E. lra.
Qed.
Lemma gap_den_cases c : (eps_zero c <= Qabs (target_objval c) /\ gap_den c = Qabs (target_objval c)) \/
  (Qabs (target_objval c) < eps_zero c /\ gap_den c = 1).
Proof.
  unfold gap_den. destruct (Qle_bool (eps_zero c) (Qabs (target_objval c))) eqn:E.
  - left. apply Qle_bool_iff in E. auto.
  - right. split; auto. apply Qnot_le_lt. intros F. apply Qle_bool_iff in F. congruence.
Qed.
Lemma gap_zero c f : 0 < eps_zero c -> (compute_gap c f == 0 <-> f == target_objval c).
Proof.
  intros H. pose proof (gap_den_pos c H). unfold compute_gap. split; intros E.
  - assert (X : (f - target_objval c) / gap_den c * gap_den c == f - target_objval c) by (field; lra).
    rewrite E in X. lra.
  - rewrite E. setoid_replace (target_objval c - target_objval c) with 0 by ring. unfold Qdiv. ring.
Qed.
Lemma gap_mono c f g : 0 < eps_zero c -> (f < g <-> compute_gap c f < compute_gap c g).
Proof.
  intros H. pose proof (gap_den_pos c H) as D. unfold compute_gap. split; intros E.
  - unfold Qdiv. apply Qmult_lt_compat_r; [apply Qinv_lt_0_compat; auto|lra].
  - assert (X : forall z, (z - target_objval c) / gap_den c * gap_den c == z - target_objval c) by (intros; field; lra).
    apply (Qmult_lt_compat_r _ _ (gap_den c)) in E; auto. rewrite !X in E. lra.
Qed.
Lemma gap_le c f e : 0 < eps_zero c -> (compute_gap c f <= e <-> f <= target_objval c + e * gap_den c).
Proof.
  intros H. pose proof (gap_den_pos c H) as D. unfold compute_gap. split; intros E.
  - assert (X : (f - target_objval c) / gap_den c * gap_den c == f - target_objval c) by (field; lra).
    apply (Qmult_le_compat_r _ _ (gap_den c)) in E; [|lra]. rewrite X in E. lra.
  - apply Qle_shift_div_r; auto. lra.
Qed.
