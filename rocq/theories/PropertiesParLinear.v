(** * Properties: a failed linear solve in a parallel run (C111) *)
From Coq Require Import Lia Lqa.
From Verif Require Import PropertiesPar PropertiesExact BaseLemmas SpecExact ExactProofs.
From Verif Require Import ModelParallel SpecParallel WitnessPar.
Open Scope Z_scope.

(** What happens when the linear system of the planning phase cannot be solved, exactly: with enough points and the first failure the
    other solve is tried at the next pass, nothing else changes; otherwise the run fails with IndexError unless a cross
    validation of the model was made (before or in this pass); after one, the run waits until nobody is working and then restarts. *)
Theorem C111_failed_solve_exact : forall pc0 q P, i_lin_ok (q_inp q) = false ->
  let c := base pc0 in
  let points := Z.of_nat (length (node_pos (T (p_s P))) + length (tpos (p_k P))) in
  let retry := Z.of_nat (n c) + 1 <= points /\ solve_underdetermined (C (p_s P)) = false in
  let validated := p_cv P <> 0%nat \/
    (rbf_auto pc0 = true /\ Z.of_nat (n c) + 2 < points /\ current_step (C (p_s P)) <= first_step c /\ 0 < max_cross_validations pc0) in
  (retry -> exists P', pstep pc0 q PcPlan2 P = (PcHead, P') /\ T (p_s P') = T (p_s P) /\ I (p_s P') = I (p_s P) /\ Rf (p_s P') = Rf (p_s P) /\
     p_k P' = p_k P /\ p_log P' = p_log P /\ solve_underdetermined (C (p_s P')) = true /\ current_step (C (p_s P')) = current_step (C (p_s P)) /\
     itercount (C (p_s P')) = itercount (C (p_s P)) /\ evalcount (C (p_s P')) = evalcount (C (p_s P))) /\
  (~ retry -> ~ validated -> fst (pstep pc0 q PcPlan2 P) = PcCrash EIndex) /\
  (~ retry -> validated -> ~ nobody_working P -> exists P', pstep pc0 q PcPlan2 P = (PcHead, P') /\ T (p_s P') = T (p_s P) /\ I (p_s P') = I (p_s P) /\
     p_k P' = p_k P /\ p_log P' = p_log P /\ current_step (C (p_s P')) = num_global_searches c + 3) /\
  (~ retry -> validated -> nobody_working P -> forall pts, i_samples (q_inp q) = Some pts ->
     exists w P', pstep pc0 q PcPlan2 P = (PcWait WRest w, P') /\ trace (p_s P') = trace (p_s P) ++ [EvRestart]) /\
  (~ retry -> validated -> nobody_working P -> i_samples (q_inp q) = None -> (0 < itercount (C (p_s P)) \/ do_init_strategy c = true) ->
     fst (pstep pc0 q PcPlan2 P) = PcCrash ERuntime).
Proof.
  intros pc0 q P Hl c points retry validated. cbn [pstep]. unfold plan2. fold c. set (P1 := cross_validate pc0 P).
  assert (S1 : p_s P1 = p_s P /\ p_k P1 = p_k P /\ p_log P1 = p_log P) by (unfold P1, cross_validate; cbv zeta; destruct (_ && _); repeat split).
  destruct S1 as (S1 & K1 & L1).
  assert (NA : Z.of_nat (n_all P1) = points) by (unfold n_all; rewrite S1, K1; reflexivity).
  assert (CV : p_cv P1 = 0%nat <-> ~ validated).
  { unfold P1, cross_validate. cbv zeta. fold c. change (Z.of_nat (n_all P)) with points.
    destruct (rbf_auto pc0 && _ && _ && _) eqn:E.
    - cbn [p_cv set_cv]. split; [discriminate|]. intros V. exfalso. apply V. rewrite !andb_true_iff, Z.ltb_lt, Z.leb_le, Z.ltb_lt in E.
      destruct (Nat.eq_dec (p_cv P) 0) as [Z0|Z0]; [|left; exact Z0]. right. rewrite Z0 in E. cbn in E. tauto.
    - split; [|intros V; destruct (Nat.eq_dec (p_cv P) 0); [assumption|exfalso; apply V; left; assumption]].
      intros Z0 [V|(A & B & D & F)]; [contradiction|]. rewrite Z0, A in E. cbn [andb] in E.
      rewrite (proj2 (Z.ltb_lt _ _) B), (proj2 (Z.leb_le _ _) D) in E. cbn [andb Z.of_nat] in E. apply Z.ltb_ge in E. lia. }
  assert (RT : ((Z.of_nat (n c) + 1 <=? Z.of_nat (n_all P1)) && negb (solve_underdetermined (C (p_s P1)))) = true <-> retry).
  { rewrite NA, S1, andb_true_iff, Z.leb_le, negb_true_iff. reflexivity. }
  unfold linear_phase. rewrite Hl. cbv zeta.
  destruct ((Z.of_nat (n c) + 1 <=? Z.of_nat (n_all P1)) && negb (solve_underdetermined (C (p_s P1)))) eqn:ER.
  - pose proof (proj1 RT eq_refl) as R. split; [|repeat split; intros NR; contradiction]. intros _.
    eexists. cbn [finish_step]. split; [reflexivity|]. cbn [p_s p_k p_log set_s set_C T I Rf C]. rewrite S1, K1, L1. repeat split.
  - assert (NR : ~ retry) by (intros R; apply RT in R; discriminate). split; [intros R; contradiction|].
    destruct (p_cv P1 =? 0)%nat eqn:EZ.
    + apply Nat.eqb_eq in EZ. apply CV in EZ. split; [reflexivity|]. repeat split; intros _ V; contradiction.
    + apply Nat.eqb_neq in EZ. assert (V : ~ ~ validated) by (intros X; apply EZ, CV, X). split; [intros _ X; contradiction|].
      cbn [set_s p_s set_C C current_step set_step p_k]. rewrite Z.eqb_refl. change (p_k (set_s _ P1)) with (p_k P1). rewrite K1, S1.
      pose proof (nobody_iff P) as NB. destruct (idle (p_k P)) eqn:EI.
      * split; [intros _ _ X; exfalso; apply X, NB; reflexivity|]. unfold restart_begin. cbv zeta.
        split.
        -- intros _ _ _ pts Hs. rewrite Hs. destruct (_ || _).
           ++ match goal with |- context [let (_, _) := ?x in _] => destruct x as [new prev] end. cbn [finish_step]. eexists _, _. split; [reflexivity|reflexivity].
           ++ cbn [finish_step]. eexists _, _. split; [reflexivity|reflexivity].
        -- intros _ _ _ Hs Hi. rewrite Hs. match goal with |- context [(?a || ?b)] => assert (G : a || b = true) end.
           { destruct Hi as [Hi|Hi]; [apply orb_true_iff; left; apply Z.ltb_lt; cbn; exact Hi|fold c; rewrite Hi; apply orb_true_r]. }
           rewrite G. reflexivity.
      * split; [|split; intros _ _ X; exfalso; apply NB in X; discriminate]. intros _ _ _. eexists. cbn [finish_step]. split; [reflexivity|].
        cbn [p_s p_k p_log set_s set_C T I C current_step set_step]. rewrite K1, L1. repeat split.
Qed.
Print Assumptions C111_failed_solve_exact.
Example C111_exact_case : let c := pw kn0 1 (1#2) 3 false in
  let x := pcall c two_points 1000 (w_s0 ++ [go; go; go; go]) in
  let y := pcall c two_points 1000 (w_s0 ++ [go; go; go; go; lin_fails] ++ [go; go; go; go]) in
  at_pc x = PcPlan2 /\ solve_underdetermined (C (p_s (at_pst x))) = false /\ fst (pstep c lin_fails PcPlan2 (at_pst x)) = PcHead /\
  at_pc y = PcPlan2 /\ p_cv (at_pst y) = 0%nat /\ fst (pstep c lin_fails PcPlan2 (at_pst y)) = PcCrash EIndex.
Proof. vm_compute. repeat split. Qed.
