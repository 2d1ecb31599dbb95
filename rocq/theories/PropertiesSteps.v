(** * Properties of the global and local search steps (C67 - C71, C95 - C97).

    Vocabulary: [SpecSteps], [SpecRefine], [SpecRBF]. *)
From Verif Require Import WitnessSteps AlgGlue WitnessAlg.
From Verif Require WitnessRBF.
From Coq Require Import Lra Lia QArith ClassicalEpsilon.
Import Lra.
Open Scope R_scope.

(** ** C67: [s] is the global step number (1 to [g] in a cycle with [g] global searches). *)
Theorem C67_target_scaling : forall s g, (1 <= s <= g)%nat ->
  0 < target_scaling s g <= 1 /\ (forall t, (s < t <= g)%nat -> target_scaling t g < target_scaling s g).
Proof. intros s g H. split; [now apply scaling_bounds|]. intros t Ht. apply scaling_decreases; lia. Qed.
Print Assumptions C67_target_scaling.
(** Weight and target passed to the search. *)
Theorem C67_distance_weight : forall gutmann eps thr sc s g lo up ints best fmin fmax found, (1 <= s <= g)%nat ->
  let weight s := q_weight (global_step gutmann eps thr sc s g lo up ints best fmin fmax found) in
  0 < weight s < 1 /\ (forall t, (s < t < g)%nat -> weight t < weight s) /\ weight g = 5/100.
Proof.
  intros gm eps thr sc s g lo up ints best fmin fmax found H weight.
  assert (E : forall s, weight s = distance_weight s g).
  { intros t. unfold weight, global_step. destruct (model_minimum _ _ _ _). destruct (global_box _ _ _ _ _ _ _ _). reflexivity. }
  rewrite !E. split; [now apply weight_bounds|]. split; [|apply weight_last; lia].
  intros t Ht. rewrite E. apply weight_decreases; lia.
Qed.
Print Assumptions C67_distance_weight.
(** The last weight of the cycle is the least one only for fewer than 20 global searches; otherwise the
    emphasis on distance does not decrease, and from 21 on it increases. *)
Theorem C67_distance_weight_last : forall g, (2 <= g)%nat ->
  (distance_weight g g < distance_weight (g - 1) g <-> (g < 20)%nat).
Proof. exact weight_before_last. Qed.
Print Assumptions C67_distance_weight_last.
Theorem C67_decreasing_weight_refuted : forall g, (20 < g)%nat -> distance_weight (g - 1) g < distance_weight g g.
Proof.
  intros g H. rewrite (weight_last g g) by lia. rewrite weight_cases by lia. rewrite minus_INR by lia. cbn [INR].
  assert (K : 20 < INR g) by (replace 20 with (INR 20) by (cbn; lra); now apply lt_INR).
  replace (1 - (INR g - 1) / INR g) with (/ INR g) by (field; lra).
  apply Rmult_lt_reg_r with (INR g); [lra|]. rewrite Rinv_l by lra. lra.
Qed.
Print Assumptions C67_decreasing_weight_refuted.
(** [v]: the model value at the centre of the search.  The target is below it, up to the tolerance
    within which that value may exceed the best one. *)
Theorem C67_target : forall gutmann eps thr sc s g lo up ints best fmin fmax found, (1 <= s <= g)%nat -> 0 < eps -> fmin <= fmax ->
  let q := global_step gutmann eps thr sc s g lo up ints best fmin fmax found in
  exists v, ((found = None \/ gutmann = false) -> v = fmin) /\
            (forall p w, gutmann = true -> found = Some (p, w) -> v = if Rle_dec (fmin + eps) w then fmin else w) /\
            q_target q = v - (1 - (INR s - 1) / INR g) ^ 2 * (fmax - v) /\
            (v <= fmax -> q_target q <= v) /\ q_target q < v + eps.
Proof.
  intros gm eps thr sc s g lo up ints best fmin fmax found Hs He Hf q.
  unfold q, global_step.
  pose proof (model_minimum_spec eps best fmin (if gm then found else None) He) as M.
  destruct (model_minimum eps best fmin (if gm then found else None)) as [p v] eqn:E. destruct M as [M1 _].
  destruct (global_box _ _ _ _ _ _ _ _) as [bl bu]. cbn [q_target]. exists v.
  pose proof (scaling_bounds s g Hs) as S.
  split. { intros [->| ->]; [destruct gm|]; unfold model_minimum in E; injection E; auto. }
  split. { intros p' w -> ->. unfold model_minimum, Rleb in E. destruct (Rle_dec (fmin + eps) w); injection E; auto. }
  split; [reflexivity|]. unfold target_value. split; [intros; nra|]. nra.
Qed.
Print Assumptions C67_target.
(** "At most the model minimum" is false: it can exceed it by less than the tolerance. *)
Theorem C67_target_at_most_minimum_refuted : exists eps thr sc lo up best fmin p v,
  0 < eps /\ v < fmin + eps /\
  v < q_target (global_step true eps thr sc 1 5 lo up [] best fmin fmin (Some (p, v))).
Proof.
  exists 1, 0, 0, [0], [1], [0], 0, [1], (1/2). split; [lra|]. split; [lra|].
  unfold global_step, model_minimum. replace (Rleb (0 + 1) (1/2)) with false by (symmetry; apply Rleb_gt; lra).
  destruct (global_box _ _ _ _ _ _ _ _). cbn [q_target]. unfold target_value, target_scaling. cbn. lra.
Qed.
Print Assumptions C67_target_at_most_minimum_refuted.
Example C67_case : (1 <= 2 <= 5)%nat /\ target_scaling 1 5 = 1 /\ target_scaling 5 5 = 1/25 /\
  distance_weight 1 5 = 4/5 /\ distance_weight 4 5 = 1/5 /\ distance_weight 5 5 = 1/20.
Proof. unfold target_scaling, distance_weight. cbn [Nat.ltb Nat.leb]. cbn. repeat split; try lia; lra. Qed.

(** ** C68 *)
Theorem C68_local_box : forall sc center lo up ints, 0 <= sc -> rin_box center lo up ->
  let (bl, bu) := local_box sc center lo up ints in
  rin_box center bl bu /\
  (forall j, (j < length center)%nat -> ~ In j ints -> nth j lo 0 <= nth j bl 0 /\ nth j bu 0 <= nth j up 0) /\
  (forall j, (j < length center)%nat -> whole (nth j lo 0) -> whole (nth j up 0) ->
     nth j lo 0 <= nth j bl 0 /\ nth j bu 0 <= nth j up 0) /\
  (forall j, (j < length center)%nat -> In j ints -> whole (nth j bl 0) /\ whole (nth j bu 0)) /\
  (forall j, (j < length center)%nat -> ~ In j ints -> nth j bu 0 - nth j bl 0 <= sc * (66/100) * (nth j up 0 - nth j lo 0)) /\
  (forall j, (j < length center)%nat -> nth j bu 0 - nth j bl 0 <= sc * (66/100) * (nth j up 0 - nth j lo 0) + 2).
Proof.
  intros sc c lo up ints Hs B. pose proof (local_box_spec sc c lo up ints Hs B) as S.
  destruct (local_box sc c lo up ints) as [bl bu]. destruct S as (S1 & S2 & S3 & S4 & S5 & S6).
  split; auto. split; auto. split; auto. split; auto. split.
  - intros j Hj Ni. specialize (S6 j Hj). destruct (memb ints j) eqn:E; [apply memb_in in E; contradiction|]. lra.
  - intros j Hj. specialize (S6 j Hj). destruct (memb ints j); lra.
Qed.
Print Assumptions C68_local_box.
(** Both steps search this box or the whole box; hence never outside when the integer bounds are whole. *)
Theorem C68_global_step_box : forall gutmann eps thr sc s g lo up ints best fmin fmax found,
  0 <= sc -> rin_box best lo up -> (forall p v, found = Some (p, v) -> rin_box p lo up) ->
  (forall j, In j ints -> whole (nth j lo 0) /\ whole (nth j up 0)) ->
  let q := global_step gutmann eps thr sc s g lo up ints best fmin fmax found in
  forall x, rin_box x (q_lower q) (q_upper q) -> rin_box x lo up.
Proof.
  intros gm eps thr sc s g lo up ints best fmin fmax found Hs B F W q x. unfold q, global_step.
  assert (C : rin_box (fst (model_minimum eps best fmin (if gm then found else None))) lo up).
  { unfold model_minimum. destruct gm; [|exact B]. destruct found as [[p v]|]; [|exact B]. destruct (Rleb _ _); [exact B|]. now apply (F p v). }
  destruct (model_minimum _ _ _ _) as [p v]. cbn [fst] in C. unfold global_box.
  destruct (Rleb _ _); [|auto]. pose proof (local_box_spec sc p lo up ints Hs C) as S.
  destruct (local_box sc p lo up ints) as [bl bu]. destruct S as ((L1 & L2 & _) & S2 & _ & _ & S5 & _). cbn [q_lower q_upper].
  intros (X1 & X2 & X). destruct C as (C1 & C2 & _). split; [congruence|]. split; [congruence|]. intros j Hj. specialize (X j Hj).
  destruct (in_dec Nat.eq_dec j ints) as [I|I].
  - destruct (W j I) as [W1 W2]. assert (Hj' : (j < length p)%nat) by congruence. destruct (S5 j Hj' W1 W2). lra.
  - assert (Hj' : (j < length p)%nat) by congruence. destruct (S2 j Hj' I). lra.
Qed.
Print Assumptions C68_global_step_box.
(** With a fractional bound of an integer variable the box sticks out. *)
Theorem C68_fractional_bound_refuted : exists sc center lo up ints, 0 <= sc /\ rin_box center lo up /\
  nth 0 (fst (local_box sc center lo up ints)) 0 < nth 0 lo 0.
Proof.
  exists (1/2), [1], [1/2], [3], [0%nat]. split; [lra|]. split.
  { split; [reflexivity|]. split; [reflexivity|]. intros [|j] H; cbn in *; [lra|lia]. }
  pose proof (local_box_nth (1/2) [1] [1/2] [3] [0%nat] eq_refl eq_refl) as N. destruct (local_box _ _ _ _ _) as [bl bu].
  destruct N as (_ & _ & N). destruct (N 0%nat ltac:(cbn; lia)) as [E _]. cbn [fst]. rewrite E. cbn [memb existsb Nat.eqb orb].
  unfold raw_low. cbn [nth].
  replace (Rmax (1 - 1 / 2 * (33 / 100) * (3 - 1 / 2)) (1 / 2)) with (1 - 1 / 2 * (33 / 100) * (3 - 1 / 2)).
  2: { rewrite Rmax_left; lra. }
  destruct (Rfloor_spec (1 - 1 / 2 * (33 / 100) * (3 - 1 / 2))) as [A _].
  assert (Rfloor (1 - 1 / 2 * (33 / 100) * (3 - 1 / 2)) < 0 + 1) by lra.
  pose proof (whole_lt_step _ 0 (Rfloor_whole (1 - 1 / 2 * (33 / 100) * (3 - 1 / 2))) whole_0 ltac:(lra)). lra.
Qed.
Print Assumptions C68_fractional_bound_refuted.
Example C68_case : 0 <= 1/2 /\ rin_box [1; 0; 2] [0; 0; 0] [1; 1; 5] /\ whole (nth 2 [0; 0; 0] 0) /\ whole (nth 2 [1; 1; 5] 0).
Proof.
  split; [lra|]. split; [split; [reflexivity|]; split; [reflexivity|]; cbn; intros [|[|[|j]]] H; cbn; try lra; lia|].
  split; [exists 0%Z|exists 5%Z]; reflexivity.
Qed.

(** ** C69 *)
(** In every configuration and state the search never yields a point, whatever the candidates. *)
Theorem C69_restoration_never_succeeds : forall c i s x, (0 <= min_dist c)%Q ->
  restoration_search c i s = Ok x -> x = None.
Proof. intros c i s x H E. eapply restoration_none; eauto. Qed.
Print Assumptions C69_restoration_never_succeeds.
(** Hence a pass whose linear system fails evaluates nothing: it ends with an error, or goes to the
    next step with the other linear solve (tables, counters and random budget as before), or restarts. *)
Theorem C69_failed_solve : forall c i s l s' l', (0 <= min_dist c)%Q ->
  pass c i s l = Cont s' l' -> skip_step c (C s) = false -> must_restart c (C s) = false ->
  (current_step (C s) <= local_search_step c)%Z -> i_lin_ok i = false ->
  l' = l /\
  ((T s' = T s /\ evalcount (C s') = evalcount (C s) /\ noisy_evalcount (C s') = noisy_evalcount (C s) /\
    itercount (C s') = itercount (C s) /\ solve_underdetermined (C s) = false /\ solve_underdetermined (C s') = true) \/
   (exists s1, T s1 = T s /\ restart c i s1 = Ok s')).
Proof.
  intros c i s l s' l' Hd. unfold pass. destruct (negb _); [discriminate|]. intros H Hk Hr Hs Hl. rewrite Hk, Hr in H.
  unfold prepare in H. rewrite (proj2 (Z.leb_le _ _) Hs), Hl in H.
  destruct (negb (search_guard _ _)); [discriminate|]. unfold search in H. cbn [C emit set_C set_step current_step] in H.
  rewrite Z.eqb_refl in H.
  destruct (restoration_search c i _) as [x|e] eqn:E; [|discriminate].
  pose proof (C69_restoration_never_succeeds _ _ _ _ Hd E) as ->.
  destruct (_ && _) eqn:Eb.
  - injection H as <- <-. split; auto. left. apply andb_true_iff in Eb. destruct Eb as [_ Eb]. apply negb_true_iff in Eb.
    unfold advance. destruct (_ <? _)%Z; repeat split; auto.
  - destruct (restart c i _) as [s4|e] eqn:Er; [|discriminate]. injection H as <- <-. split; auto. right. eexists. split; [|exact Er]. reflexivity.
Qed.
Print Assumptions C69_failed_solve.
(** The intended behaviour fails on a reachable state: the candidate 2 is at distance at least 2 from
    every node, the matrix is invertible, and yet no point is returned. *)
Definition with_restore (f : nat -> option (point * bool)) (i : inp) : inp :=
  mkInp (i_clock_ok i) (i_samples i) (i_rs_acc i) (i_rs_noisy i) (i_rs_user i) (i_lin_ok i) (i_ref_ok i)
        (i_ref_set i) (i_ref_radius i) (i_prop i) (i_reeval i) f (i_model_impr i) (i_real_impr i)
        (i_to_replace i) (i_rank_def i) (i_time_unl i) (i_val i) (i_nval i).
Theorem C69_restoration_refuted : exists c i s l, reach c any_inp s l /\ (min_dist c <= 1)%Q /\
  (forall a, i_restore i a = Some ([2%Q], true)) /\
  (forall x, In x (node_pos (T s)) -> (4 <= sqdist x [2%Q])%Q) /\
  (1 <= max_consecutive_restoration c)%Z /\ (4 <= length (node_pos (T s)))%nat /\
  restoration_search c i s = Ok None.
Proof.
  exists (wcfg kn0), (with_restore (fun _ => Some ([2%Q], true)) dflt_inp), s_ord, l_ord.
  split; [apply running_reach; vm_compute; reflexivity|]. split; [vm_compute; discriminate|]. split; [reflexivity|].
  split. { intros x Hx. assert (E : forallb (fun y => Qle_bool 4 (sqdist y [2%Q])) (node_pos (T s_ord)) = true) by (vm_compute; reflexivity).
    rewrite forallb_forall in E. apply Qle_bool_iff. exact (E x Hx). }
  split; [vm_compute; discriminate|]. split; [vm_compute; lia|]. vm_compute. reflexivity.
Qed.
Print Assumptions C69_restoration_refuted.
Example C69_case : (0 <= min_dist (wcfg kn0))%Q /\
  exists s' l', pass (wcfg kn0) (with_lin false (with_restore (fun _ => Some ([2%Q], true)) dflt_inp)) s_ord l_ord = Cont s' l' /\
  skip_step (wcfg kn0) (C s_ord) = false /\ must_restart (wcfg kn0) (C s_ord) = false /\
  (current_step (C s_ord) <= local_search_step (wcfg kn0))%Z.
Proof. split; [vm_compute; discriminate|]. eexists. eexists. split; [vm_compute; reflexivity|]. vm_compute. repeat split; discriminate. Qed.

(** ** C70 *)
(** What is re-evaluated: the node nearest to the proposed point. *)
Theorem C70_nearest_node : forall bump new_bump search eps eps_impr min_dist sc lo up ints nodes vals errs noisy fi fmin found acc,
  nodes <> [] -> length vals = length errs ->
  let '(adj, p, ind, _, _) := local_step bump new_bump search eps eps_impr min_dist sc lo up ints nodes vals errs noisy fi fmin found acc in
  forall i, ind = Some i ->
    adj = true /\ acc = true /\ p = Some (nth i nodes []) /\
    exists q, snd (fst (local_proposal eps eps_impr sc lo up ints (nth fi nodes []) fmin found search)) = Some q /\
      nearest_node q nodes i /\ (distance q (nth i nodes []) <= min_dist -> nth i noisy false = true).
Proof.
  intros bump nb search eps ei md sc lo up ints nodes vals errs noisy fi fmin found acc N L. unfold local_step.
  destruct (local_proposal _ _ _ _ _ _ _ _ _ _) as [[adj next] target] eqn:Ep.
  destruct acc; [|intros i H; discriminate].
  destruct (get_min_bump_node _ _ _ _ _) as [[m v'] e'].
  destruct m as [[j b]|]; [|intros i H; discriminate]. destruct next as [q|]; [|intros i H; discriminate].
  destruct (reevaluate _ _ _ _ _ _) as [ind|] eqn:Er; [|intros i H; discriminate].
  intros i H. injection H as <-. split; auto. split; auto. split; auto. exists q. split; [reflexivity|].
  unfold reevaluate in Er. destruct (nearest_index q nodes N) as [A B].
  destruct (get_min_distance_and_index q nodes) as [d k]. cbn [fst snd] in A, B.
  destruct (Rltb md d) eqn:Ed.
  - destruct (Rltb b _); [|discriminate]. injection Er as <-. split; auto. apply Rltb_lt in Ed. intros. lra.
  - destruct (nth k noisy false) eqn:Ek; [|discriminate]. injection Er as <-. auto.
Qed.
Print Assumptions C70_nearest_node.
(** It need not be the node of least bumpiness, nor a noisy node: here node 1 is the only one that can be
    re-evaluated, and the accurate node 0 is chosen, for every way of computing the fits. *)
Theorem C70_least_bumpiness_refuted : exists min_dist lo up nodes vals errs noisy search,
  0 < min_dist /\ length vals = length nodes /\ length errs = length nodes /\ length noisy = length nodes /\
  nth 0 noisy true = false /\ nth 1 noisy false = true /\
  forall bump new_bump, correct_fit Cubic (1/10) 1 nodes bump new_bump ->
  (exists b t e, get_min_bump_node bump (1/1000000) (local_target 0) vals errs = (Some (1%nat, b), t, e)) /\
  (exists t e, local_step bump new_bump search (1/1000000) (1/1000) min_dist (1/2) lo up [] nodes vals errs noisy 0 0 None true
     = (true, Some (nth 0 nodes []), Some 0%nat, t, e)).
Proof.
  exists (1/100000), [0], [1], nodes2, vals2, errs2, noisy2, (fun _ _ _ _ => Some prop2).
  split; [lra|]. split; [reflexivity|]. split; [reflexivity|]. split; [reflexivity|]. split; [reflexivity|]. split; [reflexivity|].
  intros bump nb F. destruct (local2 bump nb F) as [A B]. rewrite target2. rewrite A, B. split; repeat eexists.
Qed.
Print Assumptions C70_least_bumpiness_refuted.
(** There are correct fits. *)
Example C70_case : exists bump new_bump, correct_fit Cubic (1/10) 1 nodes2 bump new_bump.
Proof.
  exists (fun vals errs => epsilon (inhabits 0) (bumpiness_of_fit Cubic (1/10) 1 nodes2 vals errs)),
    (fun p t vals errs => epsilon (inhabits 0) (bumpiness_of_fit Cubic (1/10) 1 (nodes2 ++ [p]) (vals ++ [t]) (errs ++ [(0, 0)]))).
  split; intros; now apply epsilon_spec.
Qed.

(** ** C71 *)
(** Values are restored; the bounds of every scanned node become (0, 0). *)
Theorem C71_scan_effect : forall bump eps target vals errs, length vals = length errs ->
  let '(_, vals', errs') := get_min_bump_node bump eps target vals errs in
  vals' = vals /\ length errs' = length errs /\
  (forall i, (i < length vals)%nat ->
     let e := nth i errs (0, 0) in
     nth i errs' (0, 0) = if Rlt_dec eps (snd e - fst e) then if Rle_dec (nth i vals 0 + fst e) target then (0, 0) else e else e).
Proof.
  intros bump eps target vals errs L. pose proof (min_bump_spec bump eps target vals errs L) as S.
  destruct (get_min_bump_node _ _ _ _ _) as [[m v'] e']. destruct S as (S1 & S2 & S3 & S4 & _). split; auto. split; auto.
  intros i Hi e. destruct (Rlt_dec eps (snd e - fst e)) as [A|A].
  - destruct (Rle_dec (nth i vals 0 + fst e) target) as [B|B].
    + apply S3. apply candidates_spec. auto.
    + apply S4. intros K. apply candidates_spec in K. unfold e in *. lra.
  - apply S4. intros K. apply candidates_spec in K. unfold e in *. lra.
Qed.
Print Assumptions C71_scan_effect.
(** Nothing changes exactly when no node is scanned or the function values are rescaled. *)
Theorem C71_bounds_changed : forall fs bump eps target vals errs, length vals = length errs -> 0 <= eps ->
  let '(m, _, errs') := get_min_bump_node bump eps target vals errs in
  stored_bounds_after fs errs errs' = errs <-> (fs <> ScaleOff \/ m = None).
Proof.
  intros fs bump eps target vals errs L He. pose proof (min_bump_spec bump eps target vals errs L) as S.
  destruct (get_min_bump_node _ _ _ _ _) as [[m v'] e'].
  destruct S as (S1 & S2 & S3 & S4 & S5).
  split.
  - intros H. destruct fs; [|left; discriminate|left; discriminate]. right. cbn in H. subst e'.
    destruct m as [[i b]|]; auto. exfalso. specialize (S3 _ S5). apply candidates_spec in S5. rewrite S3 in S5. cbn in S5. lra.
  - intros [H|H]; [destruct fs; [congruence|reflexivity|reflexivity]|]. subst m.
    assert (E : e' = errs).
    { apply nth_ext with (d := (0, 0)) (d' := (0, 0)); auto. intros i _. apply S4. rewrite S5. intros []. }
    subst. destruct fs; reflexivity.
Qed.
Print Assumptions C71_bounds_changed.
(** A node scanned once, without rescaling, is never again considered, whatever the later target. *)
Theorem C71_never_again : forall bump eps target vals errs, length vals = length errs -> 0 <= eps ->
  let '(_, _, errs') := get_min_bump_node bump eps target vals errs in
  forall i target' bump', In i (bump_candidates eps target vals errs) ->
  let '(m, _, _) := get_min_bump_node bump' eps target' vals errs' in forall b, m <> Some (i, b).
Proof.
  intros bump eps target vals errs L He. pose proof (min_bump_spec bump eps target vals errs L) as S.
  destruct (get_min_bump_node bump eps target vals errs) as [[m v'] e']. destruct S as (S1 & S2 & S3 & S4 & _).
  intros i target' bump' Hi. pose proof (min_bump_spec bump' eps target' vals e' ltac:(congruence)) as S'.
  destruct (get_min_bump_node bump' eps target' vals e') as [[m' ?] ?]. destruct S' as (_ & _ & _ & _ & S').
  intros b ->. apply candidates_spec in S'. rewrite (S3 i Hi) in S'. cbn in S'. lra.
Qed.
Print Assumptions C71_never_again.
Theorem C71_bounds_unchanged_refuted : exists bump eps target vals errs, length vals = length errs /\ 0 < eps /\
  stored_bounds_after ScaleOff errs (snd (get_min_bump_node bump eps target vals errs)) <> errs.
Proof.
  exists (fun _ _ => 0), (1/1000000), tgt2, vals2, errs2. split; [reflexivity|]. split; [lra|].
  unfold get_min_bump_node. rewrite cand2. cbn. unfold errs2. intros H. injection H. intros. lra.
Qed.
Print Assumptions C71_bounds_unchanged_refuted.
Example C71_case : length vals2 = length errs2 /\ In 1%nat (bump_candidates (1/1000000) tgt2 vals2 errs2).
Proof. split; [reflexivity|]. rewrite cand2. now left. Qed.

(** ** C95 *)
(** Two distinct nodes, one shape: the number compared by the re-evaluation rule is negative for the
    linear and multiquadric bases unless the interpolant is constant. *)
Lemma two_node_form kind gamma (x y : rpoint) a b : rdot [a; b] (mat_vec (Phi_matrix (rbf_function kind gamma) [x; y]) [a; b]) =
  rbf_function kind gamma 0 * (a * a + b * b) + rbf_function kind gamma (distance x y) * (2 * a * b).
Proof.
  unfold Phi_matrix, cdist, cdist_row, mat_vec. cbn [map rdot]. rewrite !distance_self, (distance_sym y x). lra.
Qed.
Theorem C95_nonnegative_bumpiness_refuted : forall kind gamma n x y vx vy b,
  kind = Linear \/ kind = Multiquadric -> 0 < gamma -> length x = n -> length y = n -> x <> y -> vx <> vy ->
  bumpiness_of_fit kind gamma n [x; y] [vx; vy] [(0, 0); (0, 0)] b -> b < 0.
Proof.
  intros kind gamma n x y vx vy b Hk Hg Lx Ly N Nv (f & lam & h & (Lf & W) & (L & Lh & V & S) & ->).
  pose proof (W 0%nat ltac:(cbn; lia)) as W0. pose proof (W 1%nat ltac:(cbn; lia)) as W1. cbn in W0, W1.
  destruct lam as [|a [|c [|? lam]]]; cbn in L; try discriminate.
  assert (Hd : 0 < distance x y).
  { destruct (distance_nonneg x y) as [H|H]; auto. symmetry in H. apply distance_zero in H; [contradiction|congruence]. }
  assert (P1 : size_P kind n = 1%nat) by (destruct Hk as [->| ->]; reflexivity).
  assert (Dg : degree_polynomial kind = 0%Z) by (destruct Hk as [->| ->]; reflexivity).
  assert (S0 : a + c = 0).
  { specialize (S 0%nat ltac:(rewrite P1; lia)). rewrite Dg in S. cbn in S. lra. }
  rewrite two_node_form. assert (c = - a) by lra. subst c.
  assert (Ha : a <> 0).
  { intros ->. apply Nv. pose proof (V 0%nat ltac:(cbn; lia)) as V0. pose proof (V 1%nat ltac:(cbn; lia)) as V1.
    unfold model_at in V0, V1. rewrite Dg in V0, V1. cbn in V0, V1. lra. }
  assert (Hphi : rbf_function kind gamma 0 < rbf_function kind gamma (distance x y)).
  { destruct Hk as [->| ->]; cbn [rbf_function]; unfold ModelRBF.linear, multiquadric; [exact Hd|]. apply sqrt_lt_1; nra. }
  assert (0 < a * a) by nra. nra.
Qed.
Print Assumptions C95_nonnegative_bumpiness_refuted.
Example C95_case : bumpiness_of_fit Linear 1 1 [[0]; [1]] [0; 1] [(0, 0); (0, 0)] (-1/2).
Proof.
  exists [0; 1], [1/2; -1/2], [1/2]. split.
  { split; [reflexivity|]. intros [|[|j]] H; cbn in H; [| |lia]; cbn; lra. }
  split.
  - split; [reflexivity|]. split; [reflexivity|]. split.
    + intros [|[|j]] H; cbn in H; [| |lia]; unfold model_at; cbn [nth map rbf_function ModelRBF.linear]; unfold ModelRBF.linear; rewrite !WitnessRBF.distance1; cbn; abs_num; lra.
    + intros [|j] H; cbn in H; [|lia]. cbn. lra.
  - rewrite two_node_form. cbn [rbf_function ModelRBF.linear]. unfold ModelRBF.linear. rewrite WitnessRBF.distance1. abs_num. lra.
Qed.

(** ** C96 *)
(** The scan tests only the lower end of the error interval; for the targets of the local step that is
    enough, because they do not exceed the best value. *)
Theorem C96_candidates_can_take_target : forall eps eps_impr sc lo up ints best fmin found search vals errs,
  0 <= eps_impr -> length vals = length errs ->
  (forall i, (i < length vals)%nat -> fmin <= nth i vals 0 /\ 0 <= snd (nth i errs (0, 0))) ->
  let target := snd (local_proposal eps eps_impr sc lo up ints best fmin found search) in
  forall bump, let '(m, _, _) := get_min_bump_node bump eps target vals errs in
  (m = None <-> forall i, ~ can_take eps target vals errs i) /\
  (forall i b, m = Some (i, b) -> can_take eps target vals errs i).
Proof.
  intros eps ei sc lo up ints best fmin found search vals errs He L V target bump.
  pose proof (proposal_target eps ei sc lo up ints best fmin found search He) as P.
  unfold target. destruct (local_proposal _ _ _ _ _ _ _ _ _ _) as [[adj p] t]. cbn [snd]. destruct P as [P _].
  assert (K : forall i, In i (bump_candidates eps t vals errs) <-> can_take eps t vals errs i).
  { intros i. rewrite candidates_spec. unfold can_take. split; [intros (A & B & D); destruct (V i A); repeat split; auto; lra|intros (A & B & D & _); auto]. }
  pose proof (min_bump_spec bump eps t vals errs L) as S. destruct (get_min_bump_node _ _ _ _ _) as [[m v'] e'].
  destruct S as (_ & _ & _ & _ & S). split.
  - destruct m as [[i b]|].
    + split; [discriminate|]. intros H. exfalso. apply (H i). now apply K.
    + split; auto. intros _ i H. apply K in H. rewrite S in H. destruct H.
  - intros i b ->. now apply K.
Qed.
Print Assumptions C96_candidates_can_take_target.
(** For larger targets it is not enough. *)
Theorem C96_any_target_refuted : exists eps target vals errs i, 0 < eps /\ length vals = length errs /\
  In i (bump_candidates eps target vals errs) /\ ~ can_take eps target vals errs i.
Proof.
  exists (1/100), 5, [0], [(-1, 1)], 0%nat. split; [lra|]. split; [reflexivity|]. split.
  - apply candidates_spec. cbn. split; [lia|]. lra.
  - unfold can_take. cbn. lra.
Qed.
Print Assumptions C96_any_target_refuted.
Example C96_case : forall i, (i < length vals2)%nat -> 0 <= nth i vals2 0 /\ 0 <= snd (nth i errs2 (0, 0)).
Proof. intros [|[|i]] H; cbn in H; [| |lia]; cbn; lra. Qed.

(** ** C97 *)
Theorem C97_local_step_aims_below : forall eps eps_impr sc lo up ints best fmin found search, 0 < eps_impr -> 0 < eps ->
  let '(adj, p, target) := local_proposal eps eps_impr sc lo up ints best fmin found search in
  target < fmin /\
  (adj = false -> exists q v, found = Some (q, v) /\ p = Some q /\ target = v /\ v <= fmin - eps_impr * Rmax 1 (Rabs fmin)) /\
  (adj = true -> target = fmin - 1/100 * Rmax 1 (Rabs fmin) /\
     exists c, (c = best \/ exists v, found = Some (c, v) /\ v < fmin + eps) /\
       let (bl, bu) := local_box sc c lo up ints in p = search bl bu target (5/100)).
Proof.
  intros eps ei sc lo up ints best fmin found search He Hz.
  pose proof (proposal_target eps ei sc lo up ints best fmin found search ltac:(lra)) as P.
  unfold local_proposal in *. pose proof (model_minimum_spec eps best fmin found Hz) as M.
  destruct (model_minimum _ _ _ _) as [q v]. destruct M as [M1 M2]. destruct (accepts ei fmin v) eqn:E.
  - destruct P as [_ P]. split; auto. split; [|discriminate]. intros _. unfold accepts in E. apply Rleb_le in E.
    exists q, v. destruct M2 as [[-> ->]|M2]; auto. exfalso. assert (1 <= Rmax 1 (Rabs fmin)) by apply Rmax_l. nra.
  - destruct (local_box sc q lo up ints) as [bl bu] eqn:B. destruct P as [_ P]. split; auto. split; [discriminate|].
    intros _. split; [reflexivity|]. exists q. split; [destruct M2 as [[-> _]|M2]; [auto|right; eauto]|]. rewrite B. reflexivity.
Qed.
Print Assumptions C97_local_step_aims_below.
Example C97_case : exists v, v <= 0 - 1/1000 * Rmax 1 (Rabs 0).
Proof. exists (-1). rewrite Rabs_R0, Rmax_left by lra. lra. Qed.
