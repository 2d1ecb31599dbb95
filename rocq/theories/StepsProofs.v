(** Proofs about the search steps. *)
From Verif Require Export SpecSteps RefineMore.
From Coq Require Import Lia Lra.
Open Scope R_scope.

(** ** Target and weights *)
Lemma ratio_bounds s g : (1 <= s <= g)%nat -> 1 / INR g <= 1 - (INR s - 1) / INR g <= 1.
Proof.
  intros H. assert (0 < INR g) by (apply lt_0_INR; lia). assert (1 <= INR s) by (apply (le_INR 1); lia).
  assert (INR s <= INR g) by (apply le_INR; lia).
  assert (A : 1 = INR g / INR g) by (field; lra). split.
  - rewrite A at 2. unfold Rdiv. rewrite <- Rmult_minus_distr_r. apply Rmult_le_compat_r; [left; apply Rinv_0_lt_compat; lra|lra].
  - assert (0 <= (INR s - 1) / INR g); [|lra]. apply Rmult_le_pos; [lra|left; apply Rinv_0_lt_compat; lra].
Qed.
Lemma scaling_bounds s g : (1 <= s <= g)%nat -> 0 < target_scaling s g <= 1.
Proof.
  intros H. pose proof (ratio_bounds s g H) as [A B]. unfold target_scaling.
  assert (0 < 1 / INR g) by (apply Rdiv_lt_0_compat; [lra|apply lt_0_INR; lia]). cbn. split; [nra|nra].
Qed.
Lemma scaling_decreases s t g : (1 <= s < t)%nat -> (t <= g)%nat -> target_scaling t g < target_scaling s g.
Proof.
  intros H1 H2. pose proof (ratio_bounds t g ltac:(lia)) as [A B]. pose proof (ratio_bounds s g ltac:(lia)) as [A' B'].
  assert (0 < INR g) by (apply lt_0_INR; lia).
  assert (0 < 1 / INR g) by (apply Rdiv_lt_0_compat; lra).
  assert (INR s < INR t) by (apply lt_INR; lia). unfold target_scaling.
  assert ((INR s - 1) / INR g < (INR t - 1) / INR g) by (apply Rmult_lt_compat_r; [apply Rinv_0_lt_compat; lra|lra]).
  cbn. nra.
Qed.
Lemma weight_cases s g : (s < g)%nat -> distance_weight s g = 1 - INR s / INR g.
Proof. intros H. unfold distance_weight. apply Nat.ltb_lt in H. now rewrite H. Qed.
Lemma weight_last s g : (g <= s)%nat -> distance_weight s g = 5/100.
Proof. intros H. unfold distance_weight. apply Nat.ltb_ge in H. now rewrite H. Qed.
Lemma weight_bounds s g : (1 <= s <= g)%nat -> 0 < distance_weight s g < 1.
Proof.
  intros H. destruct (Nat.eq_dec s g) as [->|N]; [rewrite weight_last by lia; lra|]. rewrite weight_cases by lia.
  assert (0 < INR g) by (apply lt_0_INR; lia). assert (0 < INR s) by (apply lt_0_INR; lia). assert (INR s < INR g) by (apply lt_INR; lia).
  assert (0 < INR s / INR g) by (apply Rdiv_lt_0_compat; lra).
  assert (INR s / INR g < 1); [|lra]. apply Rmult_lt_reg_r with (INR g); [lra|]. unfold Rdiv. rewrite Rmult_assoc, Rinv_l by lra. lra.
Qed.
Lemma weight_decreases s t g : (1 <= s < t)%nat -> (t < g)%nat -> distance_weight t g < distance_weight s g.
Proof.
  intros H1 H2. rewrite !weight_cases by lia. assert (0 < INR g) by (apply lt_0_INR; lia). assert (INR s < INR t) by (apply lt_INR; lia).
  assert (INR s / INR g < INR t / INR g); [|lra]. apply Rmult_lt_compat_r; [apply Rinv_0_lt_compat; lra|lra].
Qed.
Lemma weight_before_last g : (2 <= g)%nat -> (distance_weight g g < distance_weight (g - 1) g <-> (g < 20)%nat).
Proof.
  intros H. rewrite weight_last by lia. rewrite weight_cases by lia. rewrite minus_INR by lia. cbn [INR].
  assert (0 < INR g) by (apply lt_0_INR; lia).
  replace (1 - (INR g - 1) / INR g) with (/ INR g) by (field; lra).
  assert (A : 5 / 100 < / INR g <-> INR g < 20).
  { split; intros K.
    - apply Rmult_lt_compat_r with (r := INR g) in K; [|lra]. rewrite Rinv_l in K by lra. lra.
    - apply Rmult_lt_reg_r with (INR g); [lra|]. rewrite Rinv_l by lra. lra. }
  rewrite A. replace 20 with (INR 20) by (cbn; lra). split; [apply INR_lt|apply lt_INR].
Qed.

(** ** Model minimum *)
Lemma model_minimum_spec eps best fmin found : 0 < eps ->
  let (p, v) := model_minimum eps best fmin found in
  v < fmin + eps /\ ((p = best /\ v = fmin) \/ found = Some (p, v)).
Proof.
  intros He. unfold model_minimum. destruct found as [[p v]|]; [|split; [lra|auto]].
  destruct (Rleb (fmin + eps) v) eqn:E; [split; [lra|auto]|]. apply Rleb_gt in E. split; [lra|auto].
Qed.

(** ** Local box *)
Lemma nth_half sc lo up j : length lo = length up -> (j < length lo)%nat ->
  nth j (map2 (fun a b => sc * (33/100) * (b - a)) lo up) 0 = sc * (33/100) * (nth j up 0 - nth j lo 0).
Proof. intros L H. rewrite (map2_nth _ _ _ _ 0 0) by lia. reflexivity. Qed.

Definition raw_low sc (c lo up : rpoint) j := Rmax (nth j c 0 - sc * (33/100) * (nth j up 0 - nth j lo 0)) (nth j lo 0).
Definition raw_up sc (c lo up : rpoint) j := Rmin (nth j c 0 + sc * (33/100) * (nth j up 0 - nth j lo 0)) (nth j up 0).
Lemma local_box_nth sc c lo up ints : length c = length lo -> length c = length up ->
  let (bl, bu) := local_box sc c lo up ints in
  length bl = length c /\ length bu = length c /\
  forall j, (j < length c)%nat ->
    nth j bl 0 = (if memb ints j then Rfloor (raw_low sc c lo up j) else raw_low sc c lo up j) /\
    nth j bu 0 = (if memb ints j then Rceil (raw_up sc c lo up j) else raw_up sc c lo up j).
Proof.
  intros L1 L2. unfold local_box, round_integer_bounds. cbv zeta. unfold rpoint in *.
  assert (Lh : length (map2 (fun a b => sc * (33 / 100) * (b - a)) lo up) = length c) by (rewrite map2_len; lia).
  assert (Lm : length (map2 Rminus c (map2 (fun a b => sc * (33 / 100) * (b - a)) lo up)) = length c) by (rewrite map2_len; lia).
  assert (Lp : length (map2 Rplus c (map2 (fun a b => sc * (33 / 100) * (b - a)) lo up)) = length c) by (rewrite map2_len; lia).
  assert (LM : length (map2 Rmax (map2 Rminus c (map2 (fun a b => sc * (33 / 100) * (b - a)) lo up)) lo) = length c) by (rewrite map2_len; lia).
  assert (LP : length (map2 Rmin (map2 Rplus c (map2 (fun a b => sc * (33 / 100) * (b - a)) lo up)) up) = length c) by (rewrite map2_len; lia).
  split; [etransitivity; [apply mapi_len|exact LM]|]. split; [etransitivity; [apply mapi_len|exact LP]|]. intros j Hj.
  rewrite (nth_mapi _ _ 0) by (rewrite LM; exact Hj). rewrite (nth_mapi _ _ 0) by (rewrite LP; exact Hj).
  rewrite !(map2_nth _ _ _ _ 0 0) by lia. split; reflexivity.
Qed.
Lemma raw_spec sc c lo up j : 0 <= sc -> nth j lo 0 <= nth j c 0 <= nth j up 0 ->
  nth j lo 0 <= raw_low sc c lo up j <= nth j c 0 /\ nth j c 0 <= raw_up sc c lo up j <= nth j up 0 /\
  raw_up sc c lo up j - raw_low sc c lo up j <= sc * (66/100) * (nth j up 0 - nth j lo 0).
Proof.
  intros Hs B. unfold raw_low, raw_up, Rmax, Rmin. assert (0 <= sc * (33/100) * (nth j up 0 - nth j lo 0)) by nra.
  destruct (Rle_dec _ _), (Rle_dec _ _); lra.
Qed.
Lemma local_box_spec sc c lo up ints : 0 <= sc -> rin_box c lo up ->
  let (bl, bu) := local_box sc c lo up ints in
  rin_box c bl bu /\
  (forall j, (j < length c)%nat -> ~ In j ints -> nth j lo 0 <= nth j bl 0 /\ nth j bu 0 <= nth j up 0) /\
  (forall j, (j < length c)%nat -> In j ints -> whole (nth j bl 0) /\ whole (nth j bu 0)) /\
  (forall j, (j < length c)%nat -> nth j lo 0 - 1 < nth j bl 0 /\ nth j bu 0 < nth j up 0 + 1) /\
  (forall j, (j < length c)%nat -> whole (nth j lo 0) -> whole (nth j up 0) -> nth j lo 0 <= nth j bl 0 /\ nth j bu 0 <= nth j up 0) /\
  (forall j, (j < length c)%nat -> nth j bu 0 - nth j bl 0 <= sc * (66/100) * (nth j up 0 - nth j lo 0) + (if memb ints j then 2 else 0)).
Proof.
  intros Hs (L1 & L2 & B). pose proof (local_box_nth sc c lo up ints L1 L2) as N.
  destruct (local_box sc c lo up ints) as [bl bu]. destruct N as (N1 & N2 & N).
  assert (K : forall j, (j < length c)%nat -> let a := raw_low sc c lo up j in let b := raw_up sc c lo up j in
     nth j lo 0 <= a <= nth j c 0 /\ nth j c 0 <= b <= nth j up 0 /\ b - a <= sc * (66/100) * (nth j up 0 - nth j lo 0) /\
     Rfloor a <= a < Rfloor a + 1 /\ b <= Rceil b < b + 1).
  { intros j Hj. cbv zeta. destruct (raw_spec sc c lo up j Hs (B j Hj)) as (A1 & A2 & A3).
    repeat split; try apply A1; try apply A2; auto; try apply Rfloor_spec; apply Rceil_spec. }
  split.
  { split; [congruence|]. split; [congruence|]. intros j Hj. destruct (N j Hj) as [-> ->]. destruct (K j Hj) as (K1 & K2 & _ & K3 & K4).
    destruct (memb ints j); lra. }
  split. { intros j Hj Ni. destruct (N j Hj) as [-> ->]. destruct (K j Hj) as (K1 & K2 & _).
    destruct (memb ints j) eqn:E; [apply memb_in in E; contradiction|]. lra. }
  split. { intros j Hj Hi. destruct (N j Hj) as [-> ->]. apply memb_in in Hi. rewrite Hi. split; [apply Rfloor_whole|apply Rceil_whole]. }
  split. { intros j Hj. destruct (N j Hj) as [-> ->]. destruct (K j Hj) as (K1 & K2 & _ & K3 & K4). destruct (memb ints j); lra. }
  split. { intros j Hj W1 W2. destruct (N j Hj) as [-> ->]. destruct (K j Hj) as (K1 & K2 & _ & K3 & K4).
    destruct (memb ints j); [|lra]. split; [apply Rfloor_ge; auto; lra|apply Rceil_le; auto; lra]. }
  intros j Hj. destruct (N j Hj) as [-> ->]. destruct (K j Hj) as (K1 & K2 & K5 & K3 & K4). destruct (memb ints j); lra.
Qed.

(** ** The scan *)
Lemma set_at_restore (vals : list R) i t : set_at i (nth i vals 0) (set_at i t vals) = vals.
Proof.
  revert i. induction vals as [|x r IH]; intros [|i]; cbn; auto. f_equal. apply IH.
Qed.
Lemma bump_scan_spec bump target : forall todo vals errs best,
  (forall j, In j todo -> (j < length errs)%nat) ->
  let '(m, vals', errs') := bump_scan bump target todo vals errs best in
  vals' = vals /\ length errs' = length errs /\
  (forall j, In j todo -> nth j errs' (0, 0) = (0, 0)) /\
  (forall j, ~ In j todo -> nth j errs' (0, 0) = nth j errs (0, 0)) /\
  (match m with
   | None => best = None /\ todo = []
   | Some (i, b) => best = Some (i, b) \/ In i todo
   end).
Proof.
  induction todo as [|i rest IH]; intros vals errs best Hb; cbn [bump_scan].
  - split; auto. split; auto. split; [intros j []|]. split; auto. destruct best as [[i b]|]; auto.
  - rewrite set_at_restore.
    assert (Hi : (i < length errs)%nat) by (apply Hb; now left).
    specialize (IH vals (set_at i (0, 0) errs)
      (match best with None => Some (i, bump (set_at i target vals) (set_at i (0,0) errs))
       | Some (_, m) => if Rltb (bump (set_at i target vals) (set_at i (0,0) errs)) m then Some (i, bump (set_at i target vals) (set_at i (0,0) errs)) else best end)).
    assert (Hb' : forall j, In j rest -> (j < length (set_at i (0%R, 0%R) errs))%nat) by (intros j Hj; rewrite set_at_length; apply Hb; now right).
    specialize (IH Hb'). cbv zeta. destruct (bump_scan _ _ _ _ _ _) as [[m v'] e'].
    destruct IH as (V & L & Z & K & M). split; auto. split; [rewrite L; apply set_at_length|].
    split. { intros j [<-|Hj]; [|now apply Z]. destruct (in_dec Nat.eq_dec i rest) as [Hr|Hr]; [now apply Z|].
      rewrite K by exact Hr. now apply nth_set_at. }
    split. { intros j Hj. rewrite K by (intros Hr; apply Hj; now right). apply nth_set_at_ne. intros ->. apply Hj. now left. }
    destruct m as [[a b]|].
    + destruct M as [M|M]; [|right; now right]. destruct best as [[a0 m0]|].
      * destruct (Rltb _ m0); [injection M as <- <-; right; now left|left; exact M].
      * injection M as <- <-. right. now left.
    + destruct M as [M _]. destruct best as [[a0 m0]|]; [destruct (Rltb _ m0)|]; discriminate.
Qed.
Lemma candidates_spec eps target vals errs i : In i (bump_candidates eps target vals errs) <->
  (i < length vals)%nat /\ eps < snd (nth i errs (0,0)) - fst (nth i errs (0,0)) /\ nth i vals 0 + fst (nth i errs (0,0)) <= target.
Proof.
  unfold bump_candidates. rewrite filter_In, in_seq. unfold bump_candidate.
  rewrite !andb_true_iff, Rltb_lt, !Rleb_le. split; [intros ((_ & A) & (B & C) & _); repeat split; auto; lia|intros (A & B & C); repeat split; auto; lia].
Qed.
Lemma min_bump_spec bump eps target vals errs : length vals = length errs ->
  let '(m, vals', errs') := get_min_bump_node bump eps target vals errs in
  vals' = vals /\ length errs' = length errs /\
  (forall j, In j (bump_candidates eps target vals errs) -> nth j errs' (0, 0) = (0, 0)) /\
  (forall j, ~ In j (bump_candidates eps target vals errs) -> nth j errs' (0, 0) = nth j errs (0, 0)) /\
  (match m with
   | None => bump_candidates eps target vals errs = []
   | Some (i, b) => In i (bump_candidates eps target vals errs)
   end).
Proof.
  intros L. unfold get_min_bump_node.
  pose proof (bump_scan_spec bump target (bump_candidates eps target vals errs) vals errs None) as S.
  destruct (bump_scan _ _ _ _ _ _) as [[m v'] e'].
  destruct S as (V & L' & Z & K & M). { intros j Hj. apply candidates_spec in Hj. lia. }
  repeat split; auto. destruct m as [[i b]|]; [destruct M as [M|M]; [discriminate|exact M]|apply M].
Qed.

(** ** Local step *)
Lemma local_target_lt fmin : local_target fmin < fmin.
Proof. unfold local_target. assert (1 <= Rmax 1 (Rabs fmin)) by apply Rmax_l. lra. Qed.
Lemma proposal_target eps_zero eps_impr sc lo up ints best fmin found search : 0 <= eps_impr ->
  let '(adj, p, target) := local_proposal eps_zero eps_impr sc lo up ints best fmin found search in
  target <= fmin /\ (0 < eps_impr -> target < fmin).
Proof.
  intros He. unfold local_proposal. destruct (model_minimum _ _ _ _) as [p v].
  destruct (accepts eps_impr fmin v) eqn:E.
  - unfold accepts in E. apply Rleb_le in E. assert (1 <= Rmax 1 (Rabs fmin)) by apply Rmax_l. split; [|intros]; nra.
  - destruct (local_box _ _ _ _ _) as [bl bu]. pose proof (local_target_lt fmin). split; [|intros]; lra.
Qed.
Lemma nearest_index p nodes : nodes <> [] -> nearest_node p nodes (snd (get_min_distance_and_index p nodes)) /\
  fst (get_min_distance_and_index p nodes) = distance p (nth (snd (get_min_distance_and_index p nodes)) nodes []).
Proof.
  intros N. pose proof (min_distance_and_index_spec p nodes N) as S.
  destruct (get_min_distance_and_index p nodes) as [d i]. cbn [fst snd]. unfold nearest_node. destruct S as (A & -> & B & C & _). auto.
Qed.
