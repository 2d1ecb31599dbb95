(** * Proofs about the refinement step. *)
From Verif Require Export SpecRefine ScalingProofs RBFProofs.
From Coq Require Import Sorting.Permutation Lra Lia.
Open Scope R_scope.

(** ** Lists *)
Lemma mapi_from_len {A B} (f : nat -> A -> B) l : forall i, length (mapi_from i f l) = length l.
Proof. induction l; intros; cbn; auto. Qed.
Lemma nth_mapi_from {A B} (f : nat -> A -> B) l da db : forall i j, (j < length l)%nat ->
  nth j (mapi_from i f l) db = f (i + j)%nat (nth j l da).
Proof.
  induction l as [|x r IH]; intros i j Hj; cbn in *; [lia|].
  destruct j as [|j]; [f_equal; lia|]. rewrite IH by lia. f_equal; lia.
Qed.
Lemma mapi_len {A B} (f : nat -> A -> B) l : length (mapi f l) = length l.
Proof. apply mapi_from_len. Qed.
Lemma nth_mapi {A B} (f : nat -> A -> B) l da db j : (j < length l)%nat -> nth j (mapi f l) db = f j (nth j l da).
Proof. intros. unfold mapi. rewrite (nth_mapi_from f l da db 0 j) by auto. reflexivity. Qed.
Lemma memb_in ints j : memb ints j = true <-> In j ints.
Proof.
  unfold memb. rewrite existsb_exists. split.
  - intros (x & H & E). apply Nat.eqb_eq in E. congruence.
  - intros H. exists j. split; auto. apply Nat.eqb_refl.
Qed.
Lemma map3_rlen (f : R -> R -> R -> R) p lo up : length p = length lo -> length p = length up -> length (map3 f p lo up) = length p.
Proof. intros. apply map3_length; lia. Qed.

(** ** Clipping *)
Lemma rclip1_in x lo up : lo <= up -> lo <= rclip1 x lo up <= up.
Proof. intros. unfold rclip1, Rmin, Rmax. destruct (Rle_dec x lo), (Rle_dec _ up); lra. Qed.
Lemma rclip1_near x s lo up : lo <= s <= up -> Rabs (rclip1 x lo up - s) <= Rabs (x - s).
Proof.
  intros. unfold rclip1, Rmin, Rmax. destruct (Rle_dec x lo), (Rle_dec _ up);
  unfold Rabs; repeat destruct (Rcase_abs _); lra.
Qed.
Lemma rclip1_id x lo up : lo <= x <= up -> rclip1 x lo up = x.
Proof. intros. unfold rclip1, Rmin, Rmax. destruct (Rle_dec x lo), (Rle_dec _ up); lra. Qed.
Lemma rclip1_below x s lo up : lo <= s <= up -> x <= s -> rclip1 x lo up <= s.
Proof. intros. unfold rclip1, Rmin, Rmax. destruct (Rle_dec x lo), (Rle_dec _ up); lra. Qed.
Lemma rclip1_above x s lo up : lo <= s <= up -> s <= x -> s <= rclip1 x lo up.
Proof. intros. unfold rclip1, Rmin, Rmax. destruct (Rle_dec x lo), (Rle_dec _ up); lra. Qed.

(** ** Scalar products, coordinate by coordinate *)
Lemma rdot_nonneg_terms u : forall v, (forall j, (j < length u)%nat -> 0 <= nth j u 0 * nth j v 0) -> 0 <= rdot u v.
Proof.
  induction u as [|a u IH]; intros [|b v] H; cbn; try lra.
  pose proof (H 0%nat ltac:(cbn; lia)) as H0. cbn in H0.
  assert (0 <= rdot u v) by (apply IH; intros j Hj; apply (H (S j)); cbn; lia). lra.
Qed.
Lemma rdot_sq_le u : forall v, length u = length v -> (forall j, (j < length u)%nat -> Rabs (nth j u 0) <= Rabs (nth j v 0)) ->
  rdot u u <= rdot v v.
Proof.
  induction u as [|a u IH]; intros [|b v] L H; cbn in *; try discriminate; try lra.
  pose proof (H 0%nat ltac:(lia)) as H0. cbn in H0.
  assert (rdot u u <= rdot v v) by (apply IH; [lia|]; intros j Hj; apply (H (S j)); lia).
  assert (a * a <= b * b) by (apply Rsqr_le_abs_1 in H0; unfold Rsqr in H0; lra). lra.
Qed.
Lemma rdot_scale_sq t u : rdot (map (fun a => t * a) u) (map (fun a => t * a) u) = t * t * rdot u u.
Proof. induction u; cbn; [ring|]. rewrite IHu. ring. Qed.

(** ** The step length *)
Section Step.
Variables (min_dist radius : R) (lo up h start : rpoint).
Hypotheses (B : rin_box start lo up) (Lh : length h = length start) (Hr : 0 <= radius) (Hh : 0 < sqrt (rdot h h)).
Let t := step_length min_dist lo up h start radius.
Definition room (j : nat) : Prop :=
  (0 < nth j h 0 /\ nth j lo 0 + min_dist <= nth j start 0) \/ (nth j h 0 < 0 /\ nth j start 0 <= nth j up 0 - min_dist).
Definition limit (j : nat) : R :=
  if Rlt_dec 0 (nth j h 0) then (nth j start 0 - nth j lo 0) / nth j h 0 else (nth j start 0 - nth j up 0) / nth j h 0.
Lemma limit_nonneg j : (j < length h)%nat -> nth j h 0 <> 0 -> 0 <= limit j.
Proof.
  intros Hj N. destruct B as (_ & _ & Bj). specialize (Bj j ltac:(lia)). unfold limit. destruct (Rlt_dec 0 (nth j h 0)).
  - apply Rle_mult_inv_pos; lra.
  - replace ((nth j start 0 - nth j up 0) / nth j h 0) with ((nth j up 0 - nth j start 0) / - nth j h 0) by (field; lra).
    apply Rle_mult_inv_pos; lra.
Qed.
Lemma step_cases : (t <= radius / sqrt (rdot h h)) /\ (forall j, (j < length h)%nat -> room j -> t <= limit j) /\
  (t = radius / sqrt (rdot h h) \/ exists j, (j < length h)%nat /\ room j /\ t = limit j).
Proof.
  unfold t, step_length.
  set (uw := filter _ (seq 0 (length h))). set (dn := filter _ (seq 0 (length h))).
  assert (Dn : forall j, In j dn <-> (j < length h)%nat /\ 0 < nth j h 0 /\ nth j lo 0 + min_dist <= nth j start 0).
  { intros j. unfold dn. rewrite filter_In, in_seq, Bool.andb_true_iff, Rltb_lt, Rleb_le. split; [intros ((? & ?) & ? & ?)|intros (? & ? & ?)]; repeat split; auto; unfold rpoint in *; try lia. }
  assert (Up : forall j, In j uw <-> (j < length h)%nat /\ nth j h 0 < 0 /\ nth j start 0 <= nth j up 0 - min_dist).
  { intros j. unfold uw. rewrite filter_In, in_seq, Bool.andb_true_iff, Rltb_lt, Rleb_le. split; [intros ((? & ?) & ? & ?)|intros (? & ? & ?)]; repeat split; auto; unfold rpoint in *; try lia. }
  assert (LD : forall j, In j dn -> limit j = (nth j start 0 - nth j lo 0) / nth j h 0).
  { intros j H. apply Dn in H. unfold limit. destruct (Rlt_dec 0 (nth j h 0)); [auto|lra]. }
  assert (LU : forall j, In j uw -> limit j = (nth j start 0 - nth j up 0) / nth j h 0).
  { intros j H. apply Up in H. unfold limit. destruct (Rlt_dec 0 (nth j h 0)); [lra|auto]. }
  set (t0 := radius / sqrt (rdot h h)).
  assert (G : forall (idx : list nat) (g : nat -> R) (x : R), (forall j, In j idx -> limit j = g j) ->
     let y := match idx with [] => x | _ => Rmin x (amin (map g idx)) end in
     y <= x /\ (forall j, In j idx -> y <= limit j) /\ (y = x \/ exists j, In j idx /\ y = limit j)).
  { intros idx g x Hg. destruct idx as [|i0 r]; [cbn; split; [lra|]; split; [intros j []|auto]|].
    cbv zeta. destruct (amin_spec (map g (i0 :: r)) ltac:(discriminate)) as [Hin Hle].
    split; [apply Rmin_l|]. split.
    - intros j Hj. eapply Rle_trans; [apply Rmin_r|]. rewrite (Hg j Hj). apply Hle. apply in_map. auto.
    - unfold Rmin. destruct (Rle_dec x _); [auto|]. right. apply in_map_iff in Hin as (j & Ej & Hj).
      exists j. split; auto. rewrite (Hg j Hj). auto. }
  destruct (G dn _ t0 LD) as (A1 & A2 & A3). cbv zeta in *.
  set (t1 := match dn with [] => t0 | _ => _ end) in *.
  destruct (G uw _ t1 LU) as (B1 & B2 & B3). cbv zeta in *.
  set (t2 := match uw with [] => t1 | _ => _ end) in *.
  split; [lra|]. split.
  - intros j Hj [[H1 H2]|[H1 H2]]; [|apply B2, Up; auto].
    assert (In j dn) by (apply Dn; auto). apply A2 in H. lra.
  - destruct B3 as [E|(j & Hj & E)].
    + rewrite E. destruct A3 as [E'|(j & Hj & E')]; [auto|]. right. exists j. apply Dn in Hj. split; [tauto|]. split; [left; tauto|auto].
    + right. exists j. apply Up in Hj. split; [tauto|]. split; [right; tauto|auto].
Qed.
Lemma step_nonneg : 0 <= t.
Proof.
  destruct step_cases as (_ & _ & [->|(j & Hj & Rm & ->)]).
  - apply Rle_mult_inv_pos; auto.
  - apply limit_nonneg; auto. destruct Rm as [[]|[]]; lra.
Qed.
Lemma step_radius : t * sqrt (rdot h h) <= radius.
Proof.
  destruct step_cases as (H & _ & _). apply (Rmult_le_compat_r (sqrt (rdot h h))) in H; [|lra].
  unfold Rdiv in H. rewrite Rmult_assoc, Rinv_l in H by lra. lra.
Qed.
Let moved := map2 (fun s a => s - t * a) start h.
Let cand := rclip moved lo up.
Lemma moved_len : length moved = length start.
Proof. unfold moved. rewrite map2_len; auto. Qed.
Lemma cand_len : length cand = length start.
Proof. destruct B as (L1 & L2 & _). unfold cand, rclip. rewrite map3_rlen; rewrite moved_len; auto. Qed.
Lemma nth_cand j : (j < length start)%nat -> nth j cand 0 = rclip1 (nth j start 0 - t * nth j h 0) (nth j lo 0) (nth j up 0).
Proof.
  intros Hj. destruct B as (L1 & L2 & _). unfold cand, rclip. rewrite (nth_map3 rclip1 moved lo up j 0 0 0) by (rewrite ?moved_len; lia).
  f_equal. unfold moved. rewrite (map2_nth _ start h j 0 0 0) by lia. reflexivity.
Qed.
Lemma cand_in_box : rin_box cand lo up.
Proof.
  destruct B as (L1 & L2 & Bj). split; [rewrite cand_len; auto|]. split; [rewrite cand_len; auto|].
  rewrite cand_len. intros j Hj. rewrite nth_cand by auto. specialize (Bj j Hj). apply rclip1_in. lra.
Qed.
Lemma cand_distance : distance cand start <= radius.
Proof.
  destruct B as (L1 & L2 & Bj). unfold distance. cbv zeta.
  apply Rle_trans with (sqrt (rdot (map (fun a => t * a) h) (map (fun a => t * a) h))).
  - apply sqrt_le_1_alt. apply rdot_sq_le.
    + rewrite map2_len, map_length by (rewrite cand_len; auto). rewrite cand_len. auto.
    + rewrite map2_len by (rewrite cand_len; auto). rewrite cand_len. intros j Hj.
      rewrite (map2_nth Rminus cand start j 0 0 0) by (rewrite ?cand_len; auto).
      rewrite (nth_map_in _ h j 0) by lia.
      rewrite nth_cand by auto. eapply Rle_trans; [apply rclip1_near; apply Bj; auto|].
      replace (nth j start 0 - t * nth j h 0 - nth j start 0) with (- (t * nth j h 0)) by ring. rewrite Rabs_Ropp. lra.
  - rewrite rdot_scale_sq. rewrite sqrt_mult_alt by (apply Rle_0_sqr).
    rewrite sqrt_square by apply step_nonneg. apply step_radius.
Qed.
Lemma cand_improves : forall j, (j < length h)%nat -> 0 <= nth j h 0 * (nth j start 0 - nth j cand 0).
Proof.
  intros j Hj. destruct B as (L1 & L2 & Bj). specialize (Bj j ltac:(lia)). rewrite nth_cand by lia. pose proof step_nonneg.
  destruct (Rtotal_order (nth j h 0) 0) as [N|[->|N]].
  - assert (nth j start 0 <= rclip1 (nth j start 0 - t * nth j h 0) (nth j lo 0) (nth j up 0)).
    { apply rclip1_above; auto. assert (t * nth j h 0 <= 0) by nra. lra. }
    nra.
  - lra.
  - assert (rclip1 (nth j start 0 - t * nth j h 0) (nth j lo 0) (nth j up 0) <= nth j start 0).
    { apply rclip1_below; auto. assert (0 <= t * nth j h 0) by nra. lra. }
    nra.
Qed.
(** Coordinates with room move by exactly [- t * h]. *)
Lemma cand_room j : (j < length h)%nat -> room j -> nth j cand 0 = nth j start 0 - t * nth j h 0.
Proof.
  intros Hj Rm. destruct B as (L1 & L2 & Bj). specialize (Bj j ltac:(lia)). rewrite nth_cand by lia. apply rclip1_id.
  destruct step_cases as (_ & H & _). specialize (H j Hj Rm). pose proof step_nonneg. unfold limit in H.
  destruct (Rlt_dec 0 (nth j h 0)).
  - apply (Rmult_le_compat_r (nth j h 0)) in H; [|lra]. unfold Rdiv in H. rewrite Rmult_assoc, Rinv_l in H by lra.
    assert (0 <= t * nth j h 0) by nra. lra.
  - destruct Rm as [[]|[N _]]; [lra|].
    apply (Rmult_le_compat_r (- nth j h 0)) in H; [|lra].
    replace ((nth j start 0 - nth j up 0) / nth j h 0 * - nth j h 0) with (nth j up 0 - nth j start 0) in H by (field; lra).
    assert (t * nth j h 0 <= 0) by nra. lra.
Qed.
End Step.
