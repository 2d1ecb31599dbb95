(** * Concrete cases for the search steps. *)
From Verif Require Export StepsProofs.
From Verif Require Import WitnessRBF.
From Coq Require Import Lia Lra.
Open Scope R_scope.

(** Nodes 0 (accurate, value 0) and 1 (noisy, value 1, error interval [-1, 3]); cubic basis. *)
Definition nodes2 : list rpoint := [[0]; [1]].
Definition vals2 : list R := [0; 1].
Definition errs2 : list (R * R) := [(0, 0); (-2, 2)].
Definition noisy2 : list bool := [false; true].
Definition prop2 : rpoint := [1/10].
Definition tgt2 : R := -1/100.

Lemma cubic1 a b : rbf_function Cubic (1/10) (distance [a] [b]) = Rabs (a - b) * Rabs (a - b) * Rabs (a - b).
Proof. rewrite distance1. reflexivity. Qed.
Ltac abs_num := repeat match goal with
  | |- context [Rabs (?a - ?b)] => first [ rewrite (Rabs_right (a - b)) by lra | rewrite (Rabs_left (a - b)) by lra ]
  | H : context [Rabs (?a - ?b)] |- _ => first [ rewrite (Rabs_right (a - b)) in H by lra | rewrite (Rabs_left (a - b)) in H by lra ] end.

Lemma fit2_zero vals lam h : interpolates Cubic (1/10) 1 nodes2 vals lam h -> lam = [0; 0].
Proof.
  intros (L & _ & _ & S). destruct lam as [|a [|b [|c lam]]]; cbn in L; try discriminate.
  pose proof (S 0%nat ltac:(cbn; lia)) as S0. pose proof (S 1%nat ltac:(cbn; lia)) as S1. cbn in S0, S1.
  assert (b = 0) by lra. assert (a = 0) by lra. subst. reflexivity.
Qed.
Lemma fit2_exists a b : interpolates Cubic (1/10) 1 nodes2 [a; b] [0; 0] [b - a; a].
Proof.
  split; [reflexivity|]. split; [reflexivity|]. split.
  - intros [|[|j]] H; cbn in H; [| |lia]; unfold model_at; cbn; lra.
  - intros [|[|j]] H; cbn in H; [| |lia]; cbn; lra.
Qed.
Lemma bump2_zero vals errs b : bumpiness_of_fit Cubic (1/10) 1 nodes2 vals errs b -> b = 0.
Proof.
  intros (f & lam & h & _ & I & ->). apply fit2_zero in I. subst. cbn. lra.
Qed.
Lemma fit3_exists : interpolates Cubic (1/10) 1 (nodes2 ++ [prop2]) [0; 1; -1/100]
  [ -9/10 * (-275/81); -1/10 * (-275/81); -275/81 ] [1 + 72/1000 * (-275/81); 99/1000 * (-275/81)].
Proof.
  split; [reflexivity|]. split; [reflexivity|]. split.
  - intros [|[|[|j]]] H; cbn in H; [| | |lia]; unfold model_at, nodes2, prop2; cbn [app nth map];
      rewrite !cubic1; cbn; abs_num; lra.
  - intros [|[|j]] H; cbn in H; [| |lia]; cbn; lra.
Qed.
Lemma bump3_pos b : bumpiness_of_fit Cubic (1/10) 1 (nodes2 ++ [prop2]) [0; 1; -1/100] [(0,0); (0,0); (0,0)] b -> 0 < b.
Proof.
  intros (f & lam & h & (Lf & W) & (L & Lh & V & S) & ->).
  pose proof (W 0%nat ltac:(cbn; lia)) as W0. pose proof (W 1%nat ltac:(cbn; lia)) as W1. pose proof (W 2%nat ltac:(cbn; lia)) as W2. cbn in W0, W1, W2.
  destruct lam as [|a [|c [|t [|? lam]]]]; cbn in L; try discriminate.
  destruct h as [|u [|v [|? h]]]; cbn in Lh; try discriminate.
  pose proof (S 0%nat ltac:(cbn; lia)) as S0. pose proof (S 1%nat ltac:(cbn; lia)) as S1. cbn in S0, S1.
  assert (c = - t / 10) by lra. assert (a = - 9 * t / 10) by lra. subst c a.
  pose proof (V 0%nat ltac:(cbn; lia)) as V0. pose proof (V 1%nat ltac:(cbn; lia)) as V1. pose proof (V 2%nat ltac:(cbn; lia)) as V2.
  unfold model_at, nodes2, prop2 in V0, V1, V2. cbn [app nth map] in V0, V1, V2. rewrite !cubic1 in V0, V1, V2.
  cbn in V0, V1, V2. abs_num.
  assert (Ht : t <> 0). { intros ->. lra. }
  assert (E : rdot [- 9 * t / 10; - t / 10; t] (mat_vec (Phi_matrix (rbf_function Cubic (1 / 10)) (nodes2 ++ [prop2])) [- 9 * t / 10; - t / 10; t]) = 324/10000 * (t * t)).
  { unfold Phi_matrix, cdist, cdist_row, nodes2, prop2, mat_vec. cbn [app map]. rewrite !cubic1. cbn [rdot]. abs_num. lra. }
  rewrite E. assert (0 < t * t) by nra. lra.
Qed.
Lemma cand2 : bump_candidates (1/1000000) tgt2 vals2 errs2 = [1%nat].
Proof.
  unfold bump_candidates, vals2. cbn [length seq filter]. unfold bump_candidate, errs2, tgt2. cbn [nth fst snd].
  replace (Rltb (1/1000000) (0 - 0)) with false by (symmetry; apply Rltb_ge; lra).
  replace (Rltb (1/1000000) (2 - -2)) with true by (symmetry; apply Rltb_lt; lra).
  replace (Rleb (1 + -2) (-1/100)) with true by (symmetry; apply Rleb_le; lra). reflexivity.
Qed.
Lemma proposal2 (search : rpoint -> rpoint -> R -> R -> option rpoint) : (forall lo up t w, search lo up t w = Some prop2) ->
  local_proposal (1/1000000) (1/1000) (1/2) [0] [1] [] (nth 0 nodes2 []) 0 None search = (true, Some prop2, local_target 0).
Proof.
  intros H. unfold local_proposal, model_minimum. unfold accepts.
  replace (Rleb 0 (0 - 1/1000 * Rmax 1 (Rabs 0))) with false.
  - destruct (local_box _ _ _ _ _). now rewrite H.
  - symmetry. apply Rleb_gt. assert (1 <= Rmax 1 (Rabs 0)) by apply Rmax_l. lra.
Qed.
Lemma target2 : local_target 0 = tgt2.
Proof. unfold local_target, tgt2. rewrite Rabs_R0, Rmax_left by lra. lra. Qed.
Lemma nearest2 : get_min_distance_and_index prop2 nodes2 = (1/10, 0%nat).
Proof.
  unfold get_min_distance_and_index, cdist_row, nodes2, prop2. cbn [map]. rewrite !distance1. abs_num. cbn.
  replace (Rltb (- (1 / 10 - 1)) (1 / 10 - 0)) with false by (symmetry; apply Rltb_ge; lra). cbn. f_equal. lra.
Qed.

Lemma local2 bump new_bump : correct_fit Cubic (1/10) 1 nodes2 bump new_bump ->
  get_min_bump_node bump (1/1000000) tgt2 vals2 errs2 = (Some (1%nat, 0), vals2, [(0,0); (0,0)]) /\
  local_step bump new_bump (fun _ _ _ _ => Some prop2) (1/1000000) (1/1000) (1/100000) (1/2) [0] [1] [] nodes2
    vals2 errs2 noisy2 0 0 None true = (true, Some [0], Some 0%nat, vals2, [(0,0); (0,0)]).
Proof.
  intros [F1 F2].
  assert (B : get_min_bump_node bump (1/1000000) tgt2 vals2 errs2 = (Some (1%nat, 0), vals2, [(0,0); (0,0)])).
  { unfold get_min_bump_node. rewrite cand2. cbn [bump_scan]. unfold vals2, errs2. cbn [set_at nth].
    assert (E : bump [0; tgt2] [(0, 0); (0, 0)] = 0).
    { apply (bump2_zero [0; tgt2] [(0,0); (0,0)]). apply F1. eexists. exists [0; tgt2], [0; 0], [tgt2 - 0; 0]. split.
      - split; [reflexivity|]. intros [|[|j]] H; cbn in H; [| |lia]; cbn; lra.
      - split; [apply fit2_exists|reflexivity]. }
    rewrite E. reflexivity. }
  split; [exact B|]. unfold local_step. rewrite proposal2 by reflexivity. rewrite target2, B. unfold reevaluate. rewrite nearest2.
  replace (Rltb (1/100000) (1/10)) with true by (symmetry; apply Rltb_lt; lra).
  assert (P : 0 < new_bump prop2 tgt2 vals2 [(0,0); (0,0)]).
  { apply bump3_pos. replace [0; 1; -1/100] with (vals2 ++ [tgt2]) by reflexivity. replace [(0,0); (0,0); (0,0)] with ([(0,0); (0,0)] ++ [(0,0)]) by reflexivity.
    apply F2. eexists. exists [0; 1; -1/100]. eexists. eexists. split; [|split; [apply fit3_exists|reflexivity]].
    split; [reflexivity|]. intros [|[|[|j]]] H; cbn in H; [| | |lia]; cbn; unfold tgt2; lra. }
  apply Rltb_lt in P. rewrite P. reflexivity.
Qed.
