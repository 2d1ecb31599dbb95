(** * Properties: a restart and the stopping test of a parallel run (C146) *)
From Coq Require Import Lia Lqa.
From Verif Require Import PropertiesStop PropertiesPar PropertiesParRestart SpecStop BaseLemmas ParEffects ParStop.
From Verif Require Import ModelParallel SpecParallel WitnessPar.
Open Scope Z_scope.

(** While a restart of a running parallel call waits for its sample, and when it finishes, the gap of the stopping test is never
    computed again, whatever the values of the sample are. *)
Theorem C146_parallel_restart_keeps_gap : forall pc0 q kind w P m' P', kind = WMid \/ kind = WRest ->
  pstep pc0 q (PcWait kind w) P = (m', P') -> gap (lc (p_k P')) = gap (lc (p_k P)).
Proof.
  intros pc0 q kind w P m' P' HK H. cbn [pstep] in H. unfold wait_step in H. cbv zeta in H.
  assert (F : finish_step (restart_finish (base pc0) q kind w P) P = (m', P') -> gap (lc (p_k P')) = gap (lc (p_k P))).
  { intros E. destruct (restart_finish (base pc0) q kind w P) as [[m1 P1]|e] eqn:R; cbn [finish_step] in E; injection E as <- <-; [|reflexivity].
    apply restart_finish_eff in R. pose proof (fe_lc _ _ _ _ _ _ _ R) as L. destruct HK as [-> | ->]; rewrite L; reflexivity. }
  destruct (_ && _); [exact (F H)|]. destruct (ready q (w_pend w)) as [j|].
  - destruct (take_init q j w P) as [[w1 P1]|e] eqn:E; cbn [bind finish_step fst snd] in H; injection H as <- <-; [|reflexivity].
    unfold take_init in E. cbv zeta in E. repeat match type of E with context [match ?x with _ => _ end] => destruct x; try discriminate end;
      injection E as <- <-; reflexivity.
  - destruct (_ <=? _); [exact (F H)|]. cbn [finish_step] in H. injection H as <- <-. reflexivity.
Qed.
Print Assumptions C146_parallel_restart_keeps_gap.

(** One worker, target -100: the restart after a stalled iteration draws the points 2 and 8, and the objective at 2 is -100. *)
Definition c_stop : pcfg :=
  pw (mkKnobs false false [] [0%Q] [10%Q] 30 400 (1#1000000) (1#1000) (-100) [] [] 2 20 0 false true 100 20 1 true) 1 (1#2) 1000 true.
Definition qs_restart : list pin :=
  [ev 0 5; ev 0 6; go; go; go; go; go; go; go; go; go; go; go; WitnessPar.found 0 [4%Q]; go; go; ev 0 7; go; go; go; go;
   sample [[2%Q]; [8%Q]]; ev 0 (-100)].
Example C146_parallel_keeps_case : let x := pcall c_stop two_points 1000 qs_restart in
  let y := pcall c_stop two_points 1000 (qs_restart ++ [ev 0 6; go]) in
  (exists w, at_pc x = PcWait WMid w /\ length (w_got w) = 1%nat) /\ at_pc y = PcPlan2 /\ result (p_s (at_pst y)) = Some (-100, [2])%Q /\
  gap (lc (p_k (at_pst y))) = Some (105 # 100)%Q.
Proof. vm_compute. repeat split. eexists. split; reflexivity. Qed.

(** So a parallel run whose restart sample meets the target is not ended by it: here another point is evaluated. *)
Theorem C146_parallel_restart_sample_refuted : exists pc0 P qs, preach pc0 any_pin PcHead P /\ has_noisy (base pc0) = false /\
  (0 <= min_dist (base pc0))%Q /\ (0 < eps_zero (base pc0))%Q /\ target_met (base pc0) (p_s P) /\
  evalcount (C (p_s P)) < evalcount (C (p_s (snd (prun pc0 qs PcHead P)))).
Proof.
  exists c_stop, (at_pst (pcall c_stop two_points 1000 (qs_restart ++ [ev 0 6; go; go]))),
    [go; go; WitnessPar.found 0 [5%Q]; go; go; go; ev 0 7; go].
  split.
  { assert (E : at_pc (pcall c_stop two_points 1000 (qs_restart ++ [ev 0 6; go; go])) = PcHead) by (vm_compute; reflexivity).
    rewrite <- E. preached. }
  split; [reflexivity|]. split; [discriminate|]. split; [reflexivity|]. split; [|vm_compute; reflexivity].
  exists (-100)%Q, [2%Q]. split; [vm_compute; reflexivity|].
  split; intros H; [discriminate|]. exfalso. revert H. vm_compute. discriminate.
Qed.
Print Assumptions C146_parallel_restart_sample_refuted.
