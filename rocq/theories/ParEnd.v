(** * Termination of a call of the parallel optimizer. *)
From Verif Require Export SpecEnd ParBudget ParStuck.
From Verif Require Import ModelAlg.
From Coq Require Import Lia Lqa Qround.
Open Scope Z_scope.

Definition sched (s : st) : Z * Z * bool := (current_step (C s), cyclecount (C s), solve_underdetermined (C s)).

Lemma sched_insert p po v b e s : sched (insert_node p po v b e s) = sched s.
Proof. unfold insert_node. destruct b; reflexivity. Qed.
Lemma sched_log v g s : sched (log_value v g s) = sched s.
Proof. unfold log_value. destruct (fbest (I s)); reflexivity. Qed.
Lemma sched_stall c s : sched (stalling_update c s) = sched s.
Proof.
  unfold stalling_update. destruct (fmin (I s)) as [f|]; [|reflexivity]. destruct (fmin_stall_check (C s)) as [r|]; [|reflexivity].
  destruct (improves _ _ _); reflexivity.
Qed.
Lemma sched_phase c s : sched (phase_update c s) = sched s.
Proof. unfold phase_update. repeat match goal with |- context [if ?b then _ else _] => destruct b end; reflexivity. Qed.
Lemma sched_end c s s' : end_of_pass c s = Ok s' -> sched s' = sched s.
Proof.
  unfold end_of_pass. cbv zeta. destruct (_ =? 0); [discriminate|].
  destruct (_ =? 0); intros H; injection H as <-.
  - unfold emit. transitivity (sched (phase_update c (stalling_update c (set_C (set_iter (itercount (C s) + 1) (C s)) s)))); [reflexivity|].
    rewrite sched_phase, sched_stall. reflexivity.
  - rewrite sched_phase, sched_stall. reflexivity.
Qed.
Lemma sched_refine c i s s' : refinement_update_parallel c i s = Ok s' -> sched s' = sched s.
Proof.
  unfold refinement_update_parallel. cbv zeta. destruct (ref_radius (Rf s)) as [rad|]; [|discriminate].
  destruct (ref_iterate_index (Rf s)) as [it0|]; [|discriminate].
  match goal with |- match ?x with _ => _ end = _ -> _ => destruct x as [mv|] end; [|discriminate].
  destruct (_ && _); [discriminate|]. destruct (_ && _); [discriminate|]. intros H. injection H as <-. reflexivity.
Qed.

(** Refinement flag and counter: unchanged, or one refinement completed. *)
Definition refined (k k' : ploc) : Prop :=
  (rcount k' = rcount k /\ busy k' = busy k) \/ (rcount k' = (rcount k + 1)%Q /\ busy k' = false).

Lemma eval_sched c q j P P' : take_eval c q j P = Ok P' -> sched (p_s P') = sched (p_s P) /\ refined (p_k P) (p_k P').
Proof.
  unfold take_eval. destruct (nth_error (pend (p_k P)) j) as [t|]; [|discriminate]. cbv zeta.
  destruct (if t_noisy t then i_nval (q_inp q) else _) as [[v el] eu].
  assert (R : forall k1, k1 = k_pop j (p_k P) \/ k1 = k_lc (set_errs (el, eu) (lc (k_pop j (p_k P)))) (k_pop j (p_k P)) ->
    rcount k1 = rcount (p_k P) /\ busy k1 = busy (p_k P)) by (intros k1 [->| ->]; split; reflexivity).
  match goal with |- context [set_k ?k P] => set (k1 := k) end.
  destruct (R k1) as (R1 & R2); [unfold k1; destruct (t_noisy t); auto|].
  destruct (node_pos (T (p_s P))) as [|n0 nr]; [discriminate|].
  destruct (near _ _ _).
  { intros H. injection H as <-. split; [reflexivity|]. left. auto. }
  destruct (t_noisy t && existsb _ _).
  { intros H. injection H as <-. split; [reflexivity|]. left. auto. }
  destruct (t_noisy t && require_accurate _ _ _).
  { cbn [bind]. destruct (end_of_pass _ _) as [s'|] eqn:E; [|discriminate]. cbn [bind]. intros H. injection H as <-.
    apply sched_end in E. cbn [p_s p_k set_s]. split; [rewrite E; reflexivity|]. left. auto. }
  destruct (current_gap _ _) as [g|]; [|discriminate]. cbn [bind].
  match goal with |- context [log_value v g ?s] => set (s1 := s) end.
  assert (E1 : sched (log_value v g s1) = sched (p_s P)) by (unfold s1; rewrite sched_log, sched_insert; reflexivity).
  assert (K : forall s3 k3 P2, sched s3 = sched (p_s P) -> refined (p_k P) k3 ->
     bind (Ok (note [PRow (Some (t_ticket t)) (to_orig c (t_pos t)) v] (set_k k3 (set_s s3 (note [PAnswer (t_ticket t) v] (set_k k1 P))))))
       (fun P2 => bind (end_of_pass c (p_s P2)) (fun s' => Ok (set_s s' P2))) = Ok P2 ->
     sched (p_s P2) = sched (p_s P) /\ refined (p_k P) (p_k P2)).
  { intros s3 k3 P2 A B. cbn [bind]. destruct (end_of_pass _ _) as [s'|] eqn:E; [|discriminate]. cbn [bind]. intros H. injection H as <-.
    apply sched_end in E. cbn [p_s p_k set_s note set_k] in E |- *. rewrite E. auto. }
  destruct (t_id t); cbn [bind fst snd]; try (apply K; [exact E1|left; split; [exact R1|exact R2]]).
  destruct (refinement_update_parallel _ _ _) as [s3|] eqn:E3; [|discriminate]. cbn [bind fst snd].
  apply K; [apply sched_refine in E3; rewrite E3; exact E1|]. right. cbn [k_refined rcount busy k_lc]. rewrite R1. auto.
Qed.

Lemma discard_sched c id P : sched (p_s (discard_search c id P)) = sched (p_s P) /\ refined (p_k P) (p_k (discard_search c id P)).
Proof. unfold discard_search. destruct id; (split; [reflexivity|]); try (left; split; reflexivity). right. split; reflexivity. Qed.
Lemma reuse_sched c p po j P P' : reuse_old c p po j P = Ok P' -> sched (p_s P') = sched (p_s P) /\ refined (p_k P) (p_k P').
Proof.
  unfold reuse_old. cbv zeta.
  match goal with |- bind ?x _ = _ -> _ => destruct x as [s1|] eqn:E1 end; [|discriminate]. cbn [bind].
  assert (S1 : sched s1 = sched (p_s P)).
  { destruct (nth j (all_is_noisy (T (p_s P))) false).
    - destruct (errs _) as [e|]; [|discriminate]. injection E1 as <-. apply sched_insert.
    - injection E1 as <-. apply (sched_insert p po _ false (0, 0)%Q). }
  destruct (current_gap _ _) as [g|]; [|discriminate]. cbn [bind]. destruct (negb _); [discriminate|].
  destruct (_ =? 0); [discriminate|]. intros H. injection H as <-. cbn [p_s p_k note set_k set_s]. split; [|left; split; reflexivity].
  rewrite sched_phase, sched_stall.
  match goal with |- sched (if ?b then emit _ ?s3 else _) = _ => transitivity (sched s3); [destruct b; reflexivity|] end.
  transitivity (sched (log_value (nth j (all_val (T (p_s P))) 0%Q) g s1)); [reflexivity|]. rewrite sched_log. exact S1.
Qed.
Lemma use_sched c q p noisy id P P' : use_point c q p noisy id P = Ok P' -> sched (p_s P') = sched (p_s P) /\ refined (p_k P) (p_k P').
Proof.
  unfold use_point. cbv zeta. destruct (node_pos (T (p_s P))) as [|n0 nr]; [discriminate|].
  destruct (_ || _); [intros H; injection H as <-; apply discard_sched|].
  assert (Z : forall po, sched (p_s (submit_point c q (clip p (l_lower c) (l_upper c)) po noisy id P)) = sched (p_s P) /\
     refined (p_k P) (p_k (submit_point c q (clip p (l_lower c) (l_upper c)) po noisy id P))).
  { intros po. unfold submit_point. cbn [p_s p_k note set_next set_k set_s]. split; [destruct noisy; reflexivity|left; split; reflexivity]. }
  destruct (lookup_old _ _ _) as [j|]; [|intros H; injection H as <-; apply Z].
  destruct (_ || _); [apply reuse_sched|intros H; injection H as <-; apply Z].
Qed.
Lemma remove_sched j s s' : remove_node j s = Ok s' -> sched s' = sched s.
Proof. intros H. apply remove_fields in H. destruct H as (_ & _ & _ & HC & _). unfold sched. rewrite HC. reflexivity. Qed.
Lemma refined_refl k : refined k k. Proof. left. auto. Qed.
Lemma search_sched c q j P P' : take_search c q j P = Ok P' -> sched (p_s P') = sched (p_s P) /\ refined (p_k P) (p_k P').
Proof.
  unfold take_search. destruct (nth_error (srch (p_k P)) j) as [e|]; [|discriminate]. cbv zeta.
  set (P1 := set_k _ P). destruct (s_bad e); [discriminate|].
  assert (U : forall p nz id P2, sched (p_s P2) = sched (p_s P) -> rcount (p_k P2) = rcount (p_k P) -> busy (p_k P2) = busy (p_k P) ->
     use_point c q p nz id P2 = Ok P' -> sched (p_s P') = sched (p_s P) /\ refined (p_k P) (p_k P')).
  { intros p nz id P2 A B D H. apply use_sched in H. destruct H as (H1 & H2). rewrite H1. split; [exact A|].
    unfold refined in *. rewrite <- B, <- D. exact H2. }
  destruct (q_ans q) as [[p|] adj|p ind].
  - apply U; reflexivity.
  - intros H. injection H as <-. exact (discard_sched c (s_id e) P1).
  - destruct (s_id e); try (apply U; reflexivity).
    destruct (has_noisy c && negb (s_noisy e)); [|apply U; reflexivity].
    destruct (reevaluate c p ind P1) as [P2|] eqn:Er; [|discriminate]. cbn [bind].
    assert (X : sched (p_s P2) = sched (p_s P) /\ rcount (p_k P2) = rcount (p_k P) /\ busy (p_k P2) = busy (p_k P)).
    { unfold reevaluate in Er. cbv zeta in Er. destruct (_ && _).
      - destruct (remove_node _ _) as [s'|] eqn:E; [|discriminate]. cbn [bind] in Er. injection Er as <-.
        apply remove_sched in E. split; [exact E|]. split; reflexivity.
      - destruct (find_point _ _ _).
        + destruct (remove_node _ _) as [s'|] eqn:E; [|discriminate]. cbn [bind] in Er. injection Er as <-.
          apply remove_sched in E. split; [exact E|]. split; reflexivity.
        + injection Er as <-. split; [reflexivity|]. split; reflexivity. }
    destruct X as (X1 & X2 & X3). apply U; assumption.
Qed.

(** ** Weights *)
Definition tw (k : ploc) : Z := 3 * Z.of_nat (length (pend k)) + 3 * noisy_pend k + 7 * Z.of_nat (length (srch k)).
Definition ww (m : pc) : Z :=
  match m with PcWait _ w => 3 * Z.of_nat (length (w_pend w)) + 3 * Z.of_nat (length (filter t_noisy (w_pend w))) | _ => 0 end.

Lemma tw_same k k' : pend k' = pend k -> srch k' = srch k -> tw k' = tw k.
Proof. intros A B. unfold tw, noisy_pend. rewrite A, B. reflexivity. Qed.
Lemma tw_nonneg k : 0 <= tw k.
Proof. unfold tw. pose proof (noisy_pend_nonneg k). lia. Qed.
Lemma ww_nonneg m : 0 <= ww m. Proof. destruct m; cbn [ww]; lia. Qed.

Lemma eval_tw c q j P P' : eval_eff_par c q j P P' ->
  tw (p_k P') <= tw (p_k P) - 3 /\
  (itercount (C (p_s P')) = itercount (C (p_s P)) \/ itercount (C (p_s P')) = itercount (C (p_s P)) + 1).
Proof.
  intros E.
  assert (HP : forall b e t, nth_error (pend (p_k P)) j = Some t ->
    tw (popped j b e (p_k P)) = tw (p_k P) - (if t_noisy t then 6 else 3)).
  { intros b e t Ht. destruct (popped_pend j b e (p_k P)) as (A & B & _).
    unfold tw, noisy_pend. rewrite A, B.
    pose proof (nth_error_lt _ _ _ Ht). rewrite length_delete by assumption.
    pose proof (filter_delete_eq t_noisy _ _ _ Ht) as F. destruct (t_noisy t); lia. }
  destruct E as [t v el eu Ht Ea Nr Es Ecv En El Ek|t v el eu Ht Ea Hn Nr Hx Es Ecv En El Ek|t v el eu t' Ht Ea Hn Ht' Nr Hr Q It Ecv En El Ek|t v el eu Ht Ea Nr Hne Hr Q It Ecv En El SL Eb Elc].
  - pose proof (HP (t_noisy t) (el, eu) t Ht) as A. rewrite Es, Ek, A. split; [destruct (t_noisy t); lia|auto].
  - pose proof (HP true (el, eu) t Ht) as A. rewrite Es, Ek.
    change (tw (k_tabu _ ?k)) with (tw k). rewrite A. split; [destruct (t_noisy t); lia|auto].
  - pose proof (HP true (el, eu) t Ht) as A. rewrite Ek, It.
    set (k1 := popped j true (el, eu) (p_k P)) in *.
    assert (X : tw (k_push t' (clip_val v (p_s P)) k1) = tw k1 + 3).
    { unfold tw, noisy_pend. cbn [pend srch k_push]. rewrite filter_app, !app_length.
      subst t'. cbn [filter t_noisy length]. lia. }
    rewrite X, A, Hn. split; [lia|auto].
  - pose proof (HP (t_noisy t) (el, eu) t Ht) as A. rewrite It.
    rewrite (tw_same (popped j (t_noisy t) (el, eu) (p_k P)) (p_k P') (sl_pend _ _ SL) (sl_srch _ _ SL)), A.
    split; [destruct (t_noisy t); lia|auto].
Qed.
Lemma search_tw c q j P P' : search_eff_par c q j P P' -> tw (p_k P') <= tw (p_k P) - 1.
Proof.
  intros E.
  assert (HP : forall e, nth_error (srch (p_k P)) j = Some e ->
    tw (k_srch (delete_at j (srch (p_k P))) (p_k P)) = tw (p_k P) - 7).
  { intros e He. unfold tw, noisy_pend. cbn [pend srch k_srch].
    pose proof (nth_error_lt _ _ _ He). rewrite length_delete by assumption. lia. }
  destruct E as [e P1 He E1 ->|e p id P1 P2 He Hp E1 R U Hid Hz].
  - pose proof (HP e He) as A.
    rewrite (tw_same (p_k P1) (p_k (discard_search c (s_id e) P1))) by (destruct (s_id e); reflexivity).
    subst P1. cbn [p_s p_k set_k]. rewrite A. lia.
  - pose proof (HP e He) as A.
    assert (X1 : tw (p_k P2) = tw (p_k P) - 7).
    { subst P1. destruct R as [->|_ ->|jj s' _ Hr Es _ _ _ Ek]; [exact A|exact A|]. destruct Ek as [->| ->]; exact A. }
    destruct U as [Q1 It Ecv En El SL Eb Elc|pp po jj v nz ee Ep Epo Hne N1 N2 Hl Hv Hzz Hee Q1 It Ecv En El SL Eb Elc|pp po Ep Epo Hne N1 N2 ->].
    + rewrite (tw_same (p_k P2) (p_k P') (sl_pend _ _ SL) (sl_srch _ _ SL)), X1. lia.
    + rewrite (tw_same (p_k P2) (p_k P') (sl_pend _ _ SL) (sl_srch _ _ SL)), X1. lia.
    + unfold submit_point. cbn [p_k p_s note set_next set_k set_s].
      assert (Y : forall t v k, tw (k_push t v k) <= tw k + 6).
      { intros t v k. unfold tw, noisy_pend. cbn [pend srch k_push].
        rewrite filter_app, !app_length. cbn [filter length]. destruct (t_noisy t); cbn [length]; lia. }
      match goal with |- tw (k_push ?t ?v ?k) <= _ => pose proof (Y t v k) end. lia.
Qed.

(** ** Range of the step counter *)
Definition in_cycle (c : cfg) (s : st) : Prop := 0 <= current_step (C s) <= restoration_step c.
Lemma sched_eq s s' : sched s' = sched s -> current_step (C s') = current_step (C s) /\ cyclecount (C s') = cyclecount (C s) /\
  solve_underdetermined (C s') = solve_underdetermined (C s).
Proof. unfold sched. intros H. injection H as A B D. auto. Qed.

Section End.
  Variable (pc0 : pcfg) (ok : pin -> Prop) (Sn : nat) (pa : Z) (P0 : pst).
  Let c := base pc0.
  Hypothesis HG : 0 <= num_global_searches c.
  Hypothesis Hok : forall q, ok q -> samples_upto Sn q /\ samples_from c q.
  Hypothesis H0 : may_call pc0 ok P0.
  Hypothesis Hcpu : 1 <= num_cpus c.
  Hypothesis Hf : 1 <= refinement_frequency c.
  Let L := num_global_searches c + 4.
  Definition iter_cap (i0 : Z) : Z :=
    let W := 2 * Z.max (num_cpus c) (Z.of_nat Sn + 1) in
    Z.max (i0 + W) (Z.min (i0 + pa) (max_iterations c) - 1 + 2 * W).
  Let Im := iter_cap (itercount (C (p_s P0))).

  Definition pos (cyc z : Z) : Z := (max_cycles c + 1 - cyc) * L + (restoration_step c - z).
  Definition cpot (m : pc) (P : pst) : Z :=
    let k := C (p_s P) in
    Z.max 0 (match m with PcWait _ _ => pos (cyclecount k + 1) (first_step c) | _ => pos (cyclecount k) (current_step k) end).
  Definition rho (k : ploc) : Z :=
    Z.max 0 (Qfloor (inject_Z Im / inject_Z (refinement_frequency c) - rcount k) + 1 - (if busy k then 1 else 0)).
  Definition und (m : pc) (P : pst) : Z :=
    match m with PcWait _ _ => 5 | _ => if solve_underdetermined (C (p_s P)) then 0 else 5 end.
  Definition here (m : pc) (P : pst) : Z :=
    match m with
    | PcHead => 5
    | PcEvals b => if b <? itercount (C (p_s P)) then 6 else 4
    | PcSearches => 3
    | PcPlan => if idle (p_k P) then 2 else 7
    | PcPlan2 => if idle (p_k P) then 1 else 6
    | PcWait _ w => if w_inner w then 11 else 10
    | PcFinal => 1
    | _ => 0
    end.
  Let K := 6 * Z.of_nat Sn + 15.
  Definition phi (m : pc) (P : pst) : Z :=
    K * cpot m P + 12 * rho (p_k P) + und m P + tw (p_k P) + ww m + here m P.

  Lemma phi_nonneg m P : 0 <= phi m P.
  Proof.
    unfold phi, cpot, rho, und, here. pose proof (tw_nonneg (p_k P)). pose proof (ww_nonneg m).
    assert (0 <= K) by (unfold K; lia).
    match goal with |- context [K * ?x] => assert (0 <= K * x) by (apply Z.mul_nonneg_nonneg; lia) end.
    destruct m; repeat match goal with |- context [if ?b then _ else _] => destruct b end; lia.
  Qed.

  Lemma rho_refined k k' : refined k k' -> rho k' <= rho k.
  Proof.
    intros [(A & B)|(A & B)]; unfold rho; rewrite A, B; [lia|].
    set (x := (inject_Z Im / inject_Z (refinement_frequency c))%Q).
    assert (E : (x - (rcount k + 1) == (x - rcount k) + inject_Z (-1))%Q) by (cbn; ring).
    rewrite E. assert (F : Qfloor (x - rcount k + inject_Z (-1)) <= Qfloor (x - rcount k) - 1).
    { assert (X : (inject_Z (Qfloor (x - rcount k + inject_Z (-1)) + 1) <= x - rcount k)%Q).
      { rewrite inject_Z_plus. pose proof (Qfloor_le (x - rcount k + inject_Z (-1))) as Y.
        set (y := inject_Z (Qfloor (x - rcount k + inject_Z (-1)))) in *. change (inject_Z (-1)) with (-(1))%Q in Y.
        change (inject_Z 1) with 1%Q. lra. }
      apply Qfloor_resp_le in X. rewrite Qfloor_Z in X. lia. }
    destruct (busy k); lia.
  Qed.
  Lemma rho_start k i : busy k = false -> (rcount k <= inject_Z i / inject_Z (refinement_frequency c))%Q -> i <= Im ->
    forall k', rcount k' = rcount k -> busy k' = true -> rho k' <= rho k - 1.
  Proof.
    intros B H HI k' A B'. unfold rho. rewrite A, B, B'.
    assert (X : 0 <= Qfloor (inject_Z Im / inject_Z (refinement_frequency c) - rcount k)).
    { change 0 with (Qfloor (inject_Z 0)). apply Qfloor_resp_le.
      assert (inject_Z i / inject_Z (refinement_frequency c) <= inject_Z Im / inject_Z (refinement_frequency c))%Q.
      { unfold Qdiv. apply Qmult_le_compat_r; [now rewrite <- Zle_Qle|]. apply Qinv_le_0_compat.
        change 0%Q with (inject_Z 0). rewrite <- Zle_Qle. lia. }
      change (inject_Z 0) with 0%Q. lra. }
    lia.
  Qed.

  Lemma pos_advance k : 0 <= current_step k <= restoration_step c -> cyclecount k <= max_cycles c ->
    let k' := advance c k in 0 <= current_step k' <= restoration_step c /\ cyclecount k' <= cyclecount k + 1 /\
      Z.max 0 (pos (cyclecount k') (current_step k')) <= Z.max 0 (pos (cyclecount k) (current_step k)) - 1 /\
      solve_underdetermined k' = solve_underdetermined k.
  Proof.
    intros Hr Hc. cbv zeta. unfold advance, next_step, pos, restoration_step, cycle_length, L in *.
    set (G := num_global_searches c) in *. cbv zeta.
    assert (M : 0 <= (current_step k + 1) mod (G + 2) < G + 2) by (apply Z.mod_pos_bound; lia).
    destruct (_ <? _) eqn:E; cbn [current_step cyclecount set_step set_cycle solve_underdetermined].
    - split; [lia|]. split; [lia|]. split; [|reflexivity]. nia.
    - apply Z.ltb_ge in E. split; [lia|]. split; [lia|]. split; [|reflexivity].
      assert (X : (current_step k + 1) mod (G + 2) <> current_step k).
      { destruct (Z.lt_ge_cases (current_step k + 1) (G + 2)).
        - rewrite Z.mod_small by lia. lia.
        - pose proof (Z.div_mod (current_step k + 1) (G + 2) ltac:(lia)) as D.
          assert (1 <= (current_step k + 1) / (G + 2)) by (apply Z.div_le_lower_bound; lia). nia. }
      nia.
  Qed.

  (** Bounds on the cycle counter in the loop. *)
  Definition cyc_inv (m : pc) (P : pst) : Prop :=
    in_cycle c (p_s P) /\
    match m with
    | PcEvals _ | PcSearches | PcPlan | PcWait WMid _ => cyclecount (C (p_s P)) < max_cycles c
    | PcPlan2 | PcWait WRest _ => cyclecount (C (p_s P)) <= max_cycles c
    | _ => True
    end.

  Lemma idle_false_tasks k : idle k = false -> 0 < load k.
  Proof.
    unfold idle, load. intros H. apply andb_false_iff in H. destruct H as [H|H]; apply Nat.eqb_neq in H; lia.
  Qed.
  Lemma load_busy k : 0 < load k -> idle k = false.
  Proof.
    intros H. destruct (idle k) eqn:E; [|reflexivity]. apply idle_iff in E. destruct E as (A & B).
    unfold load in H. rewrite A, B in H. cbn in H. lia.
  Qed.

  (** Beginning of a restart inside the loop. *)
  Lemma begin_phi q kind P w P' : ok q -> begin_eff c q kind P w P' -> in_cycle c (p_s P) ->
    cyclecount (C (p_s P)) <= max_cycles c -> idle (p_k P) = true ->
    in_cycle c (p_s P') /\ cyclecount (C (p_s P')) = cyclecount (C (p_s P)) /\
    phi (PcWait kind w) P' + 2 <= K * Z.max 0 (pos (cyclecount (C (p_s P))) (current_step (C (p_s P)))) + 12 * rho (p_k P) + tw (p_k P) + 2.
  Proof.
    intros Hq B HI Hc Hid. destruct (Hok q Hq) as (HS & _). pose proof (begin_small _ _ _ _ _ _ _ HS B) as Hw.
    destruct B as [(new & prev & nb & W1 & W2 & W3 & W4 & _ & _ & _ & _ & ET & EI & ER & EC & _) _ Bk].
    assert (E1 : current_step (C (p_s P')) = current_step (C (p_s P))) by (rewrite EC; reflexivity).
    assert (E2 : cyclecount (C (p_s P')) = cyclecount (C (p_s P))) by (rewrite EC; reflexivity).
    unfold in_cycle in *. rewrite E1. split; [exact HI|]. split; [exact E2|].
    unfold phi, cpot, und, ww, here. cbv zeta. rewrite Bk, E2, W4.
    pose proof (filter_le t_noisy (w_pend w)) as F.
    assert (X : Z.max 0 (pos (cyclecount (C (p_s P)) + 1) (first_step c)) + 1 <=
                Z.max 0 (pos (cyclecount (C (p_s P))) (current_step (C (p_s P))))).
    { unfold pos, restoration_step, L, first_step, inf_step in *. destruct (do_infstep c); nia. }
    assert (Y : K * Z.max 0 (pos (cyclecount (C (p_s P)) + 1) (first_step c)) + K <=
                K * Z.max 0 (pos (cyclecount (C (p_s P))) (current_step (C (p_s P))))) by (unfold K in *; nia).
    unfold K in *. lia.
  Qed.

  Lemma K_pos : 15 <= K. Proof. unfold K. lia. Qed.
  Lemma plan_phi q P m' P' : ok q -> cyc_inv PcPlan P -> plan c q P = Ok (m', P') ->
    cyc_inv m' P' /\ phi m' P' + 1 <= phi PcPlan P.
  Proof.
    intros Hq (HI & Hc) H. unfold plan in H. cbv zeta in H. pose proof K_pos.
    destruct (skip_step c (C (p_s P))).
    - injection H as <- <-. destruct (pos_advance (C (p_s P)) HI ltac:(lia)) as (A & B & D & E).
      split; [split; [exact A|exact Logic.I]|].
      unfold phi, cpot, und, here, ww. cbn [p_s p_k set_s advance_st set_C C]. rewrite E.
      assert (K * Z.max 0 (pos (cyclecount (advance c (C (p_s P)))) (current_step (advance c (C (p_s P))))) + K <=
              K * Z.max 0 (pos (cyclecount (C (p_s P))) (current_step (C (p_s P))))) by nia.
      destruct (idle (p_k P)); lia.
    - destruct (must_restart_parallel c (C (p_s P))).
      + destruct (idle (p_k P)) eqn:Ei.
        * apply restart_begin_eff in H. destruct H as (w & -> & B).
          destruct (begin_phi q WMid P w P' Hq B HI ltac:(lia) Ei) as (A1 & A2 & A3).
          split; [split; [exact A1|cbn; lia]|]. unfold phi in *. unfold cpot at 2, und at 2, here at 2, ww at 2. cbv zeta.
          rewrite Ei. destruct (solve_underdetermined _); lia.
        * injection H as <- <-. split; [split; [exact HI|exact Logic.I]|]. unfold phi, cpot, und, here, ww. rewrite Ei. lia.
      + injection H as <- <-. split; [split; [exact HI|cbn; lia]|]. unfold phi, cpot, und, here, ww. destruct (idle (p_k P)); lia.
  Qed.

  Ltac prods := repeat match goal with
    | H : context [K * ?x] |- _ => let y := fresh "y" in set (y := K * x) in *; clearbody y
    | |- context [K * ?x] => let y := fresh "y" in set (y := K * x) in *; clearbody y end.
  Lemma plan2_phi q P m' P' : ok q -> cyc_inv PcPlan2 P -> itercount (C (p_s P)) <= Im -> plan2 pc0 q P = Ok (m', P') ->
    cyc_inv m' P' /\ phi m' P' + 1 <= phi PcPlan2 P.
  Proof.
    intros Hq (HI & Hc) HIm H. unfold plan2 in H. fold c in H. cbv zeta in H. pose proof K_pos as HK.
    set (P1 := cross_validate pc0 P) in H.
    assert (E1 : p_s P1 = p_s P /\ p_k P1 = p_k P) by (unfold P1, cross_validate; destruct (_ && _); split; reflexivity).
    destruct E1 as (Es & Ek).
    unfold in_cycle in *. cbn [cyc_inv] in Hc.
    (* After the linear phase: the same, or the restoration step. *)
    assert (G : forall P2, p_k P2 = p_k P ->
       (p_s P2 = p_s P \/ p_s P2 = set_C (set_step (restoration_step c) (C (p_s P))) (p_s P)) ->
       0 <= current_step (C (p_s P2)) <= restoration_step c /\ cyclecount (C (p_s P2)) = cyclecount (C (p_s P)) /\
       itercount (C (p_s P2)) = itercount (C (p_s P)) /\
       solve_underdetermined (C (p_s P2)) = solve_underdetermined (C (p_s P)) /\
       K * Z.max 0 (pos (cyclecount (C (p_s P2))) (current_step (C (p_s P2)))) <=
       K * Z.max 0 (pos (cyclecount (C (p_s P))) (current_step (C (p_s P))))).
    { intros P2 _ [-> | ->]; [repeat split; lia|]. cbn [C set_C set_step current_step cyclecount itercount solve_underdetermined].
      split; [unfold restoration_step; lia|]. split; [reflexivity|]. split; [reflexivity|]. split; [reflexivity|].
      apply Z.mul_le_mono_nonneg_l; [lia|]. unfold pos. lia. }
    assert (M : forall P2, linear_phase c q P1 = LGo P2 -> p_k P2 = p_k P /\
       (p_s P2 = p_s P \/ p_s P2 = set_C (set_step (restoration_step c) (C (p_s P))) (p_s P))).
    { intros P2 E. unfold linear_phase in E. cbv zeta in E. destruct (i_lin_ok _); [injection E as <-; auto|].
      destruct (_ && _); [discriminate|]. destruct (_ =? _)%nat; [discriminate|]. injection E as <-.
      cbn [p_k p_s set_s]. rewrite Es, Ek. auto. }
    destruct (linear_phase c q P1) as [P2|P2|e] eqn:EL; [| |discriminate].
    - destruct (M P2 eq_refl) as (Mk & Ms). destruct (G P2 Mk Ms) as (G1 & G2 & G3 & G4 & G5). clear M G.
      destruct (current_step (C (p_s P2)) =? restoration_step c).
      + rewrite Mk in H. destruct (idle (p_k P)) eqn:Ei.
        * apply restart_begin_eff in H. destruct H as (w & -> & B).
          destruct (begin_phi q WRest _ w P' Hq B) as (A1 & A2 & A3).
          { exact G1. } { cbn [p_s set_s C set_C set_underdet cyclecount]. lia. } { cbn [p_k set_s]. rewrite Mk. exact Ei. }
          cbn [p_s p_k set_s C set_C set_underdet cyclecount current_step] in A1, A2, A3. rewrite Mk in A3.
          split; [split; [exact A1|cbn; lia]|]. unfold phi in A3 |- *. unfold cpot at 2, und at 2, here at 2, ww at 2. cbv zeta.
          rewrite Ei. prods. destruct (solve_underdetermined (C (p_s P))); lia.
        * injection H as <- <-. split; [split; [exact G1|exact Logic.I]|]. unfold phi, cpot, und, here, ww. rewrite Mk, Ei, G4. prods. lia.
      + destruct (negb (busy (p_k P2)) && _) eqn:Eb.
        * apply andb_true_iff in Eb. destruct Eb as (Eb & Er). apply negb_true_iff in Eb. apply Qle_bool_iff in Er. rewrite Mk in Eb, Er.
          unfold plan_refinement in H. cbv zeta in H.
          match type of H with bind ?x _ = _ => destruct x as [init|] end; cbn [bind] in H; [|discriminate].
          destruct (_ && _) in H; [discriminate|]. destruct (_ && _) in H; [discriminate|].
          match type of H with (if ?b then _ else _) = _ => destruct b end; [discriminate|].
          match type of H with context [advance_st c ?s] => set (s1 := s) in H end.
          assert (E1 : C s1 = C (p_s P2)) by (unfold s1; destruct init; reflexivity).
          destruct (negb _) in H.
          -- injection H as <- <-. destruct (pos_advance (C (p_s P2)) G1 ltac:(lia)) as (A & B & D & E).
             cbn [p_s p_k set_s]. unfold cyc_inv, in_cycle, phi, cpot, und, here, ww. cbn [p_s p_k set_s advance_st set_C C]. rewrite E1.
             split; [split; [exact A|exact Logic.I]|]. rewrite E, G4, Mk.
             assert (K * Z.max 0 (pos (cyclecount (advance c (C (p_s P2)))) (current_step (advance c (C (p_s P2))))) + K <=
                     K * Z.max 0 (pos (cyclecount (C (p_s P2))) (current_step (C (p_s P2))))) by nia.
             prods; destruct (idle (p_k P)); lia.
          -- injection H as <- <-.
             assert (R : forall k', rcount k' = rcount (p_k P) -> busy k' = true -> rho k' <= rho (p_k P) - 1).
             { apply (rho_start (p_k P) (itercount (C (p_s P2)))); [exact Eb|exact Er|lia]. }
             unfold submit_search. cbn [p_s p_k set_s set_k].
             match goal with |- context [mkP s1 _ _ _ ?k] => idtac | _ => idtac end.
             unfold cyc_inv, in_cycle, phi, cpot, und, here, ww. cbn [p_s p_k set_s set_k]. rewrite E1, G4, Mk.
             split; [split; [exact G1|exact Logic.I]|].
             match goal with |- context [rho ?k] => pose proof (R k eq_refl eq_refl) end.
             assert (X : forall e, tw (k_busy (k_srch (srch (p_k P) ++ [e]) (p_k P))) = tw (p_k P) + 7).
             { intros e. unfold tw, noisy_pend. cbn [pend srch k_busy k_srch]. rewrite app_length. cbn [length]. lia. }
             rewrite X. prods; destruct (idle (p_k P)); lia.
        * match type of H with Ok (_, set_s (advance_st c (p_s ?x)) _) = _ => set (P3 := x) in H end.
          injection H as <- <-.
          assert (E3 : p_s P3 = p_s P2 /\ exists e, p_k P3 = k_srch (srch (p_k P) ++ [e]) (p_k P)).
          { rewrite <- Mk. unfold P3. destruct (_ =? inf_step); [split; [reflexivity|eexists; reflexivity]|].
            destruct (_ =? local_search_step c); (split; [reflexivity|eexists; reflexivity]). }
          destruct E3 as (E3 & e & E4).
          destruct (pos_advance (C (p_s P2)) G1 ltac:(lia)) as (A & B & D & E).
          unfold cyc_inv, in_cycle, phi, cpot, und, here, ww. cbn [p_s p_k set_s advance_st set_C C]. rewrite E3, E4.
          split; [split; [exact A|exact Logic.I]|]. rewrite E, G4.
          assert (X : tw (k_srch (srch (p_k P) ++ [e]) (p_k P)) = tw (p_k P) + 7).
          { unfold tw, noisy_pend. cbn [pend srch k_srch]. rewrite app_length. cbn [length]. lia. }
          change (rho (k_srch (srch (p_k P) ++ [e]) (p_k P))) with (rho (p_k P)). rewrite X.
          assert (K * Z.max 0 (pos (cyclecount (advance c (C (p_s P2)))) (current_step (advance c (C (p_s P2))))) + K <=
                  K * Z.max 0 (pos (cyclecount (C (p_s P2))) (current_step (C (p_s P2))))) by nia.
          prods; destruct (idle (p_k P)); lia.
    - injection H as <- <-. unfold linear_phase in EL. cbv zeta in EL. destruct (i_lin_ok _); [discriminate|].
      destruct (_ && _) eqn:Eu in EL; [|destruct (_ =? _)%nat; discriminate]. injection EL as <-.
      apply andb_true_iff in Eu. destruct Eu as (_ & Eu). apply negb_true_iff in Eu.
      unfold cyc_inv, in_cycle, phi, cpot, und, here, ww. cbn [p_s p_k set_s C set_C]. rewrite Es, Ek in *.
      cbn [set_underdet current_step cyclecount solve_underdetermined]. rewrite Eu.
      split; [split; [exact HI|exact Logic.I]|]. prods; destruct (idle (p_k P)); lia.
  Qed.

  Lemma finish_rcount q kind w P m P' : restart_finish c q kind w P = Ok (m, P') -> rcount (p_k P') = rcount (p_k P).
  Proof.
    unfold restart_finish. cbv zeta. destruct (restart_user c (C (p_s P)) _ (q_inp q)) as [[usr uevs] nu].
    match goal with |- match ?r with _ => _ end = _ -> _ => destruct r end; [discriminate|].
    match goal with |- context [current_gap c ?x] => destruct (current_gap c x) as [g|] end; cbn [bind]; [|discriminate].
    destruct (_ =? 1)%nat; [discriminate|]. destruct (_ && negb _); [discriminate|].
    destruct kind; intros H; injection H as _ <-; reflexivity.
  Qed.

  Lemma wait_phi q kind w P m' P' : ok q -> cyc_inv (PcWait kind w) P -> wait_feasible (PcWait kind w) ->
    wait_step c q kind w P = Ok (m', P') ->
    cyc_inv m' P' /\ phi m' P' + 1 <= phi (PcWait kind w) P + (if waiting q (PcWait kind w) P then 5 else 0).
  Proof.
    intros Hq (HI & Hc) HF H.
    assert (FIN : restart_finish c q kind w P = Ok (m', P') -> cyc_inv m' P' /\ phi m' P' + 1 <= phi (PcWait kind w) P).
    { intros HFin. pose proof (finish_rcount _ _ _ _ _ _ HFin) as Er. apply restart_finish_eff in HFin.
      destruct HFin as [(usr & uevs & nu & rows & _ & _ & _ & _ & _ & _ & EC & _) Ep _ _ _ Esr _ Eb Em _ _].
      assert (E1 : current_step (C (p_s P')) = first_step c) by (rewrite EC; reflexivity).
      assert (E2 : cyclecount (C (p_s P')) = cyclecount (C (p_s P)) + 1) by (rewrite EC; reflexivity).
      assert (E3 : solve_underdetermined (C (p_s P')) = false) by (rewrite EC; reflexivity).
      assert (ER : rho (p_k P') = rho (p_k P)) by (unfold rho; rewrite Er, Eb; reflexivity).
      assert (ET : tw (p_k P') <= tw (p_k P) + ww (PcWait kind w)).
      { unfold tw, ww, noisy_pend. rewrite Ep, Esr. lia. }
      assert (F1 : 0 <= first_step c <= restoration_step c).
      { unfold first_step, restoration_step, inf_step. destruct (do_infstep c); lia. }
      unfold cyc_inv, in_cycle. rewrite E1, E2. unfold phi, cpot at 2, und at 2, here at 2. cbv zeta.
      destruct kind; subst m'; (split; [split; [exact F1|first [exact Logic.I|cbn in Hc; lia]]|]);
        unfold cpot, und, here; cbv zeta; rewrite E1, E2, E3, ER; cbn [ww] in *; prods;
        destruct (w_inner w); try destruct (idle _); lia. }
    unfold wait_step in H. cbv zeta in H.
    destruct (_ && negb (w_inner w)).
    { destruct (FIN H) as (A & B). split; [exact A|]. destruct (waiting _ _ _); lia. }
    unfold waiting. destruct (ready q (w_pend w)) as [j|].
    - unfold take_init in H. destruct (nth_error (w_pend w) j) as [t|] eqn:Ht; [|discriminate].
      destruct (if t_noisy t then _ else _) as [[v el] eu]. cbn [bind fst snd] in H. injection H as <- <-.
      split; [split; [exact HI|exact Hc]|]. unfold phi, cpot, und, here, ww. cbn [p_s p_k note w_pend w_inner].
      pose proof (nth_error_lt _ _ _ Ht). rewrite length_delete by assumption.
      pose proof (filter_delete_eq t_noisy _ _ _ Ht) as F. prods. destruct (w_inner w), (t_noisy t); lia.
    - destruct (w_need w <=? _) eqn:En.
      + destruct (FIN H) as (A & B). split; [exact A|]. destruct (negb _); lia.
      + injection H as <- <-. split; [split; [exact HI|exact Hc]|].
        apply Z.leb_gt in En. specialize (HF kind w eq_refl).
        destruct (length (w_pend w) =? 0)%nat eqn:E0.
        { apply Nat.eqb_eq in E0. exfalso. lia. }
        cbn [negb]. unfold phi, cpot, und, here, ww. cbn [w_pend w_inner]. prods. destruct (w_inner w); lia.
  Qed.

  Lemma final_phi q P m' P' : cyc_inv PcFinal P -> final_step c q P = Ok (m', P') ->
    cyc_inv m' P' /\ phi m' P' + 1 <= phi PcFinal P.
  Proof.
    intros (HI & _) H. unfold final_step in H. destruct (pend (p_k P)) as [|t r] eqn:Ep.
    { injection H as <- <-. split; [split; [exact HI|exact Logic.I]|]. unfold phi, cpot, und, here, ww. prods. lia. }
    cbv zeta in H. destruct (node_pos (T (p_s P))); [discriminate|]. destruct (t_noisy t) eqn:Et; [destruct (errs _); discriminate|].
    match type of H with context [current_gap c ?s] => set (s1 := s) in H end.
    assert (S1 : sched s1 = sched (p_s P)) by (apply (sched_insert (t_pos t) (to_orig c (t_pos t)) (i_val (q_inp q)) false (0, 0)%Q)).
    destruct (current_gap c s1) as [g|]; [|discriminate]. cbn [bind] in H. injection H as <- <-.
    cbn [p_s p_k note set_k set_s].
    match goal with |- context [set_C (set_iter ?a ?b) ?s] => set (s3 := set_C (set_iter a b) s) end.
    assert (S3 : sched s3 = sched (p_s P)).
    { unfold s3. transitivity (sched (log_value (i_val (q_inp q)) g s1)); [reflexivity|]. rewrite sched_log. exact S1. }
    apply sched_eq in S3. destruct S3 as (A & B & D).
    unfold cyc_inv, in_cycle, phi, cpot, und, here, ww. cbn [p_s p_k note set_k set_s]. rewrite A, B, D.
    split; [split; [exact HI|exact Logic.I]|]. unfold tw, noisy_pend, rho. cbn [pend srch rcount busy]. rewrite Ep. cbn [filter length]. rewrite Et.
    prods. lia.
  Qed.

  Lemma step_phi q m P m' P' : ok q -> pduring pc0 ok pa P0 m P -> cyc_inv m P -> pstep pc0 q m P = (m', P') -> no_error m' ->
    m <> PcDone ->
    cyc_inv m' P' /\ phi m' P' + 1 <= phi m P + (if waiting q m P then 5 else 0).
  Proof.
    intros Hq HD HI H N ND. pose proof (pduring_reach _ _ _ _ _ _ H0 HD) as HR.
    assert (N0 : no_error m).
    { intros e ->. cbn in H. injection H as <- <-. now apply (N e). }
    assert (HIm : itercount (C (p_s P)) <= Im).
    { unfold Im, iter_cap. cbv zeta. eapply iter_weak; [|exact N0|eapply (iter_during pc0 ok); eauto; [lia|]]; [lia|].
      intros m1 P1 HR1 N1. apply (weight_bound pc0 ok Sn m1 P1); [|exact HR1|exact N1]. intros q1 Hq1. apply Hok. exact Hq1. }
    destruct m; cbn [pstep] in H; fold c in H.
    - (* PcHead *) destruct HI as (HI & _). destruct (loop_cond _ _ _ _) eqn:El.
      + injection H as <- <-. unfold loop_cond in El. cbv zeta in El. rewrite !andb_true_iff in El.
        destruct El as (((_ & Hcy) & _) & _). apply Z.ltb_lt in Hcy.
        split; [split; [exact HI|exact Hcy]|]. unfold phi, cpot, und, here, ww, waiting. rewrite Z.ltb_irrefl. prods. lia.
      + injection H as <- <-. split; [split; [exact HI|exact Logic.I]|]. unfold phi, cpot, und, here, ww, waiting. prods. lia.
    - (* PcEvals *) destruct HI as (HI & Hc). destruct (ready q (pend (p_k P))) as [j|].
      + apply finish_ok in H; [|exact N]. destruct (take_eval c q j P) as [P1|] eqn:E; cbn [bind] in H; [|discriminate].
        injection H as <- <-. destruct (eval_sched _ _ _ _ _ E) as (A & B). apply take_eval_eff in E.
        destruct (eval_tw _ _ _ _ _ E) as (D & F). apply sched_eq in A. destruct A as (A1 & A2 & A3).
        apply rho_refined in B. unfold cyc_inv, in_cycle, phi, cpot, und, here, ww, waiting. rewrite A1, A2, A3.
        split; [split; [exact HI|exact Hc]|]. prods.
        destruct (before <? itercount (C (p_s P1))) eqn:L1, (before <? itercount (C (p_s P))) eqn:L2; try lia.
      + destruct (before <? _) eqn:L1; injection H as <- <-; (split; [split; [exact HI|first [exact Logic.I|exact Hc]]|]);
          unfold phi, cpot, und, here, ww, waiting; rewrite ?L1; prods; lia.
    - (* PcSearches *) destruct HI as (HI & Hc). unfold waiting. destruct (ready q (srch (p_k P))) as [j|].
      + apply finish_ok in H; [|exact N]. destruct (take_search c q j P) as [P1|] eqn:E; cbn [bind] in H; [|discriminate].
        injection H as <- <-. destruct (search_sched _ _ _ _ _ E) as (A & B). apply take_search_eff in E.
        pose proof (search_tw _ _ _ _ _ E) as D. apply sched_eq in A. destruct A as (A1 & A2 & A3).
        apply rho_refined in B. unfold cyc_inv, in_cycle, phi, cpot, und, here, ww. rewrite A1, A2, A3.
        split; [split; [exact HI|exact Hc]|]. prods. lia.
      + fold (idle (p_k P)). destruct (num_cpus c <=? load (p_k P)) eqn:El; injection H as <- <-.
        * apply Z.leb_le in El. rewrite (load_busy (p_k P)) by lia. cbn [negb].
          split; [split; [exact HI|exact Logic.I]|]. unfold phi, cpot, und, here, ww. prods. lia.
        * split; [split; [exact HI|exact Hc]|]. unfold phi, cpot, und, here, ww. prods. destruct (idle (p_k P)); cbn [negb]; lia.
    - (* PcPlan *) apply finish_ok in H; [|exact N]. destruct (plan_phi q P m' P' Hq HI H) as (A & B).
      split; [exact A|]. cbn [waiting]. lia.
    - apply finish_ok in H; [|exact N]. destruct (plan2_phi q P m' P' Hq HI HIm H) as (A & B).
      split; [exact A|]. cbn [waiting]. lia.
    - apply finish_ok in H; [|exact N]. apply wait_phi; auto. eapply feasible_reach; [|exact HR].
      intros q1 Hq1. apply Hok; exact Hq1.
    - apply finish_ok in H; [|exact N]. destruct (final_phi q P m' P' HI H) as (A & B).
      split; [exact A|]. cbn [waiting]. lia.
    - contradiction.
    - exfalso. now apply (N0 e).
  Qed.

  Definition step_cap : Z :=
    K * (Z.max 0 (max_cycles c + 1 - cyclecount (C (p_s P0))) * L + num_global_searches c + 3) +
    12 * (Im - itercount (C (p_s P0)) + 1) + 6 * Z.of_nat Sn + 15.

  Lemma iter_cap_ge : itercount (C (p_s P0)) <= Im.
  Proof. unfold Im, iter_cap. cbv zeta. lia. Qed.
  Lemma rho_empty : rho (empty_loc c (p_s P0) pa) <= Im - itercount (C (p_s P0)) + 1.
  Proof.
    pose proof iter_cap_ge as G. unfold rho, empty_loc. cbn [rcount busy].
    set (f := refinement_frequency c) in *. set (i := itercount (C (p_s P0))) in *.
    assert (X : (inject_Z Im / inject_Z f - inject_Z i / inject_Z f <= inject_Z (Im - i))%Q).
    { unfold Qdiv. assert (F1 : (1 <= inject_Z f)%Q) by (change 1%Q with (inject_Z 1); rewrite <- Zle_Qle; lia).
      assert (D : (0 <= inject_Z (Im - i))%Q) by (change 0%Q with (inject_Z 0); rewrite <- Zle_Qle; lia).
      assert (E : (inject_Z Im * / inject_Z f - inject_Z i * / inject_Z f == inject_Z (Im - i) * / inject_Z f)%Q).
      { unfold Z.sub. rewrite inject_Z_plus, inject_Z_opp. ring. }
      rewrite E. apply Qle_shift_div_r; [lra|]. nra. }
    apply Qfloor_resp_le in X. rewrite Qfloor_Z in X. lia.
  Qed.

  Lemma start_phi q m P : ok q -> in_cycle c (p_s P0) -> pstart pc0 q pa P0 = (m, P) -> no_error m ->
    cyc_inv m P /\ phi m P <= step_cap.
  Proof.
    intros Hq HI H N. pose proof H as H'. apply pstart_effect in H'; [|exact N]. pose proof rho_empty as R. pose proof iter_cap_ge as HG2.
    pose proof K_pos as HK.
    assert (CP : forall cyc z, 0 <= z -> cyclecount (C (p_s P0)) <= cyc ->
       K * Z.max 0 (pos cyc z) <= K * (Z.max 0 (max_cycles c + 1 - cyclecount (C (p_s P0))) * L + num_global_searches c + 3)).
    { intros cyc z Hz Hcy. apply Z.mul_le_mono_nonneg_l; [lia|]. unfold pos, restoration_step, L.
      set (G := num_global_searches c) in *. nia. }
    unfold pstart in H. fold c in H. cbv zeta in H.
    destruct (refinement_frequency c =? 0); [injection H as <- <-; exfalso; now apply (N EZeroDiv)|].
    destruct (_ =? 0).
    - apply finish_ok in H; [|exact N]. apply restart_begin_eff in H. destruct H as (w & -> & B).
      destruct (Hok q Hq) as (HS & _). pose proof (begin_small _ _ _ _ _ _ _ HS B) as Hw.
      destruct B as [(new & prev & nb & W1 & W2 & W3 & W4 & _ & _ & _ & _ & ET & EI & ER & EC & _) _ Bk].
      cbn [p_s p_k set_k] in *.
      assert (E1 : current_step (C (p_s P)) = current_step (C (p_s P0))) by (rewrite EC; reflexivity).
      assert (E2 : cyclecount (C (p_s P)) = cyclecount (C (p_s P0))) by (rewrite EC; reflexivity).
      unfold cyc_inv, in_cycle in *. rewrite E1. split; [split; [exact HI|exact Logic.I]|].
      unfold phi, cpot, und, ww, here, step_cap. rewrite E2, W4, Bk.
      assert (F : 0 <= first_step c) by (unfold first_step, inf_step; destruct (do_infstep c); lia).
      pose proof (CP (cyclecount (C (p_s P0)) + 1) (first_step c) F ltac:(lia)).
      pose proof (filter_le t_noisy (w_pend w)).
      assert (tw (empty_loc c (p_s P0) pa) = 0) by reflexivity. prods. lia.
    - destruct (current_gap c (p_s P0)) as [g|e]; [|injection H as <- <-; exfalso; now apply (N e)].
      injection H as <- <-. split; [split; [exact HI|exact Logic.I]|].
      unfold phi, cpot, und, ww, here, step_cap. cbn [p_s p_k set_k].
      match goal with |- context [tw ?k] => assert (tw k = 0) by reflexivity; change (rho k) with (rho (empty_loc c (p_s P0) pa)) end.
      pose proof (CP (cyclecount (C (p_s P0))) (current_step (C (p_s P0))) ltac:(unfold in_cycle in HI; lia) ltac:(lia)).
      prods. destruct (solve_underdetermined _); lia.
  Qed.

  Lemma run_phi qs : forall m P m' P', Forall ok qs -> pduring pc0 ok pa P0 m P -> cyc_inv m P ->
    prun pc0 qs m P = (m', P') -> no_error m' -> m' <> PcDone ->
    Z.of_nat (length qs) <= phi m P + 5 * waits pc0 qs m P.
  Proof.
    induction qs as [|q r IH]; intros m P m' P' HF HD HI H N ND.
    { cbn. pose proof (phi_nonneg m P). lia. }
    inversion_clear HF as [|? ? Hq HF']. cbn [prun] in H. cbn [waits]. destruct (pstep pc0 q m P) as [m1 P1] eqn:E. cbn [fst snd].
    assert (D1 : m <> PcDone).
    { intros ->. cbn in E. injection E as <- <-. apply ND. clear - H. revert H. induction r as [|q' r IH]; cbn; [congruence|exact IH]. }
    assert (N1 : no_error m1).
    { intros e ->. apply (N e). clear - H. revert H. induction r as [|q' r IH]; cbn; [congruence|exact IH]. }
    destruct (step_phi q m P m1 P1 Hq HD HI E N1 D1) as (A & B).
    assert (HD1 : pduring pc0 ok pa P0 m1 P1) by (eapply pd_step; eauto).
    specialize (IH m1 P1 m' P' HF' HD1 A H N ND). rewrite Nat2Z.inj_succ || idtac.
    cbn [length]. destruct (waiting q m P); lia.
  Qed.
End End.

Lemma cycle_reach pc0 (ok : pin -> Prop) Sn : 0 <= num_global_searches (base pc0) ->
  (forall q, ok q -> samples_upto Sn q /\ samples_from (base pc0) q) -> 1 <= num_cpus (base pc0) -> 1 <= refinement_frequency (base pc0) ->
  forall m P, preach pc0 ok m P -> no_error m ->
  exists pa P0, may_call pc0 ok P0 /\ pduring pc0 ok pa P0 m P /\ cyc_inv pc0 m P.
Proof.
  intros HG Hok Hcpu Hf m P HR. induction HR as [q pa m P Hq H|q pa P0 m P Hq HR IH H|q m0 P0 m P Hq HR IH H]; intros N.
  - exists pa, (pinit (base pc0)). split; [left; reflexivity|]. split; [eapply pd_start; eauto|].
    eapply (start_phi pc0 ok Sn pa (pinit (base pc0))); eauto.
    unfold in_cycle, restoration_step. cbn. lia.
  - destruct IH as (pa1 & P1 & _ & _ & HI & _); [intros e; discriminate|].
    exists pa, P0. split; [right; exact HR|]. split; [eapply pd_start; eauto|].
    eapply (start_phi pc0 ok Sn pa P0); eauto.
  - assert (N0 : no_error m0).
    { intros e ->. cbn in H. injection H as <- <-. now apply (N e). }
    destruct (IH N0) as (pa & P1 & HM & HD & HI). exists pa, P1. split; [exact HM|]. split; [eapply pd_step; eauto|].
    assert (Z : m0 = PcDone \/ m0 <> PcDone) by (destruct m0; auto; right; discriminate).
    destruct Z as [->|Z].
    + cbn in H. injection H as <- <-. exact HI.
    + eapply (step_phi pc0 ok Sn pa P1); eauto.
Qed.
