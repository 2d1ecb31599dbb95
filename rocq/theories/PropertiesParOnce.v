(** * C149: in parallel mode no point is evaluated twice and no result is thrown away. *)
From Coq Require Import Permutation.
From Verif Require Import ParApart AlgSep AlgGlue.
From Verif Require Import SpecAlg SpecParallel.
From Verif Require Import ModelAlg ModelParallel PropertiesPar PropertiesExact WitnessPar.
From Coq Require Import Lia Lqa.
Open Scope Z_scope.

(** ** C149
    A point proposed by a search and sent to a worker is never within [eps_zero] of a point
    sent to a worker before, whatever the schedule: not of a pending one, nor of one evaluated
    before a restart.  The only exception are starting points whose result was thrown
    away ([PTooClose], see C115). *)
Theorem C149_proposals_are_new : forall pc0 ok m P, has_noisy (base pc0) = false ->
  scaling_on (affine (base pc0)) (integer_vars (base pc0)) = false ->
  (0 <= min_dist (base pc0))%Q -> (eps_zero (base pc0) <= min_dist (base pc0))%Q ->
  preach pc0 ok m P -> no_error m ->
  forall before k p noisy id after, p_log P = before ++ PSubmit k p noisy id :: after -> id <> SInit ->
  forall k' p' noisy' id', In (PSubmit k' p' noisy' id') before -> ~ In (PTooClose k') before ->
  dist_lt p p' (eps_zero (base pc0)) = false.
Proof. exact proposals_new. Qed.
Print Assumptions C149_proposals_are_new.
(** The same holds for the points of a new sample at a restart. *)
Theorem C149_samples_are_new : forall pc0 (ok : pin -> Prop) q m P kind w P', has_noisy (base pc0) = false ->
  scaling_on (affine (base pc0)) (integer_vars (base pc0)) = false ->
  preach pc0 ok m P -> (forall k0 w0, m <> PcWait k0 w0) -> pstep pc0 q m P = (PcWait kind w, P') ->
  forall t, In t (w_pend w) -> forall k' p' noisy' id',
  In (PSubmit k' p' noisy' id') (p_log P) -> ~ In (PTooClose k') (p_log P) ->
  dist_lt (t_at t) p' (eps_zero (base pc0)) = false.
Proof. exact samples_new. Qed.
Print Assumptions C149_samples_are_new.
(** When the starting points are well separated from one another and from the points given by
    the user, no result is ever thrown away, and the nodes of the surrogate model
    together with the pending points are pairwise more than [min_dist] apart. *)
Theorem C149_nothing_thrown_away : forall pc0 (ok : pin -> Prop) m P, let c := base pc0 in
  has_noisy c = false -> scaling_on (affine c) (integer_vars c) = false ->
  length (var_upper c) = length (var_lower c) -> (0 <= min_dist c)%Q -> (0 <= eps_zero c)%Q ->
  (forall u, In u (init_node_pos c) -> length u = length (var_lower c)) ->
  (forall q, ok q ->
     (forall pts, i_samples (q_inp q) = Some pts ->
        all_apart (min_dist c + 2 * eps_zero c) pts /\
        (forall p, In p pts -> length p = length (var_lower c)) /\
        (forall p u, In p pts -> In u (init_node_pos c) -> (min_dist c * min_dist c < sqdist u p)%Q)) /\
     (forall p, proposes q p -> length p = length (var_lower c))) ->
  preach pc0 ok m P -> no_error m ->
  (forall k, ~ In (PTooClose k) (p_log P)) /\
  ((forall k0 w0, m <> PcWait k0 w0) -> all_apart (min_dist c) (node_pos (T (p_s P)) ++ map t_pos (pend (p_k P)))).
Proof.
  intros pc0 ok m P c Hn Hsc Hb Hd He Hu Hok HR N.
  assert (X : apart_inv pc0 m P).
  { apply (apart_reach pc0 ok); auto.
    - intros q pts Hq E. destruct (Hok q Hq) as (A & _). destruct (A pts E) as (A1 & A2 & A3).
      split; [apply apart_spec; exact A1|]. split; [exact A2|]. intros p u Hp Hin. exact (A3 p u Hp Hin).
    - intros q p Hq Hp. destruct (Hok q Hq) as (_ & A). auto. }
  destruct X as (X1 & X2). split; [exact X2|]. intros HW. apply apart_spec.
  destruct m; try exact X1. exfalso. eapply HW. reflexivity.
Qed.
Print Assumptions C149_nothing_thrown_away.

(** Starting points 0, 10 and one at distance exactly [min_dist] = 1/1000 from 10: the search finds
    two results enough, the third one arrives later and is thrown away; then a point at
    distance 10^-7 from it is evaluated. *)
Definition x_close : point := [10 - (1#1000)]%Q.
Definition x_again : point := [10 - (1#1000) - (1#10000000)]%Q.
Definition r_close : pc * pst := pcall (w_c3 30 100) (sample [[0%Q]; [10%Q]; x_close]) 1000
  ([ev 0 5; ev 0 6; go] ++ [go; ev 0 7] ++ repeat go 6 ++ [found 0 x_again]).
Theorem C149_exception_refuted : exists pc0 P before k p id after k' p' id', has_noisy (base pc0) = false /\
  scaling_on (affine (base pc0)) (integer_vars (base pc0)) = false /\ (0 <= min_dist (base pc0))%Q /\
  (0 < eps_zero (base pc0) <= min_dist (base pc0))%Q /\ preach pc0 any_pin PcSearches P /\
  p_log P = before ++ PSubmit k p false id :: after /\ id <> SInit /\
  In (PSubmit k' p' false id') before /\ In (PTooClose k') before /\ dist_lt p p' (eps_zero (base pc0)) = true.
Proof.
  exists (w_c3 30 100), (snd r_close), (firstn 9 (p_log (snd r_close))), 3%nat.
  exists [99989999000 # 10000000000]%Q, SRefine, [], 2%nat, [9999 # 1000]%Q, SInit.
  split; [reflexivity|]. split; [reflexivity|]. split; [vm_compute; discriminate|].
  split; [split; vm_compute; [reflexivity|discriminate]|].
  split; [apply reached; vm_compute; reflexivity|]. split; [vm_compute; reflexivity|]. split; [discriminate|].
  split; [vm_compute; tauto|]. split; [vm_compute; tauto|]. vm_compute. reflexivity.
Qed.
Print Assumptions C149_exception_refuted.

(** ** Cases *)
(** Three searches propose 4, 6 and 8 while nothing is recorded but the two starting points. *)
Example C149_proposals_case : has_noisy (base (w_c3 30 3)) = false /\
  scaling_on (affine (base (w_c3 30 3))) (integer_vars (base (w_c3 30 3))) = false /\
  (0 <= min_dist (base (w_c3 30 3)))%Q /\ (eps_zero (base (w_c3 30 3)) <= min_dist (base (w_c3 30 3)))%Q /\
  preach (w_c3 30 3) any_pin PcSearches (snd x_mid) /\ no_error PcSearches /\
  p_log (snd x_mid) = firstn 8 (p_log (snd x_mid)) ++ PSubmit 4 [8%Q] false SLocal :: [] /\ SLocal <> SInit /\
  In (PSubmit 2 [4%Q] false SRefine) (firstn 8 (p_log (snd x_mid))) /\ ~ In (PTooClose 2) (firstn 8 (p_log (snd x_mid))).
Proof.
  split; [reflexivity|]. split; [reflexivity|]. split; [vm_compute; discriminate|]. split; [vm_compute; discriminate|].
  split; [apply reached; vm_compute; reflexivity|]. split; [intros e; discriminate|].
  split; [vm_compute; reflexivity|]. split; [discriminate|]. split; [vm_compute; tauto|].
  vm_compute. intros H. repeat (destruct H as [H|H]; [discriminate H|]). exact H.
Qed.
(** A restart: 0 and 10 were evaluated before; of the new sample 0, 1, 9 only 1 and 9 are sent. *)
Definition q_again : pin := sample [[0%Q]; [1%Q]; [9%Q]].
Example C149_samples_case : has_noisy (base c_one) = false /\
  scaling_on (affine (base c_one)) (integer_vars (base c_one)) = false /\
  preach c_one any_pin PcPlan P_due /\ (forall k0 w0, PcPlan <> PcWait k0 w0) /\
  (exists kind w P', pstep c_one q_again PcPlan P_due = (PcWait kind w, P') /\ map t_at (w_pend w) = [[1%Q]; [9%Q]]) /\
  In (PSubmit 0 [0%Q] false SInit) (p_log P_due) /\ ~ In (PTooClose 0) (p_log P_due).
Proof.
  split; [reflexivity|]. split; [reflexivity|]. split; [apply reached; vm_compute; reflexivity|]. split; [discriminate|].
  split.
  { destruct (pstep c_one q_again PcPlan P_due) as [m P'] eqn:E.
    assert (X : match fst (pstep c_one q_again PcPlan P_due) with PcWait _ w => map t_at (w_pend w) = [[1%Q]; [9%Q]] | _ => False end)
      by (vm_compute; reflexivity).
    rewrite E in X. cbn [fst] in X. destruct m; try contradiction. eauto. }
  split; [vm_compute; tauto|]. vm_compute. intros H. repeat (destruct H as [H|H]; [discriminate H|]). exact H.
Qed.
(** The settings and a schedule that satisfy the hypotheses of the last theorem. *)
Definition one_line (q : pin) : Prop :=
  (i_samples (q_inp q) = None \/ i_samples (q_inp q) = Some [[0%Q]; [10%Q]]) /\
  (q_ans q = APoint None false \/ exists x, q_ans q = APoint (Some [x]) false).
Example C149_thrown_case : let c := base (w_c3 30 3) in
  has_noisy c = false /\ scaling_on (affine c) (integer_vars c) = false /\
  length (var_upper c) = length (var_lower c) /\ (0 <= min_dist c)%Q /\ (0 <= eps_zero c)%Q /\
  (forall u, In u (init_node_pos c) -> length u = length (var_lower c)) /\
  (forall q, one_line q ->
     (forall pts, i_samples (q_inp q) = Some pts ->
        all_apart (min_dist c + 2 * eps_zero c) pts /\
        (forall p, In p pts -> length p = length (var_lower c)) /\
        (forall p u, In p pts -> In u (init_node_pos c) -> (min_dist c * min_dist c < sqdist u p)%Q)) /\
     (forall p, proposes q p -> length p = length (var_lower c))) /\
  preach (w_c3 30 3) one_line PcSearches (snd x_mid) /\ no_error PcSearches /\
  length (node_pos (T (p_s (snd x_mid)))) = 2%nat /\ length (pend (p_k (snd x_mid))) = 3%nat.
Proof.
  cbv zeta. split; [reflexivity|]. split; [reflexivity|]. split; [reflexivity|].
  split; [vm_compute; discriminate|]. split; [vm_compute; discriminate|]. split; [intros u []|].
  split.
  { intros q (H1 & H2). split.
    - intros pts E. destruct H1 as [H1|H1]; rewrite H1 in E; [discriminate|]. injection E as <-.
      split; [apply apart_spec; vm_compute; repeat (constructor; try reflexivity)|].
      split; [intros p [<-|[<-|[]]]; reflexivity|]. intros p u _ [].
    - intros p H. unfold proposes in H. destruct H2 as [H2|(x & H2)]; rewrite H2 in H;
      destruct H as [H|[(ind & H)|(adj & H)]]; try discriminate H. injection H as <- _. reflexivity. }
  split.
  { apply (reach_pcall _ _ two_points 1000 w_three); [| |vm_compute; reflexivity].
    - split; [right; reflexivity|left; reflexivity].
    - unfold w_three, w_p3. repeat (apply Forall_cons; [split; [auto|cbn; eauto]|]). constructor. }
  split; [intros e; discriminate|]. split; vm_compute; reflexivity.
Qed.
