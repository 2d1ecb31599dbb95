(** * Proofs: parallel restarts with a small or a known sample *)
From Coq Require Import Lia.
From Verif Require Import ParStuck RestartExact BaseLemmas InitProofs InitSample InitUtil ModelInit.
From Verif Require Import ModelParallel SpecParallel.
Open Scope Z_scope.

Lemma begin_short c q kind P m P' pts : i_samples (q_inp q) = Some pts -> (0 < itercount (C (p_s P)) \/ do_init_strategy c = true) ->
  Z.of_nat (length pts) < min_num_init_samples_parallel (init_sample_fraction c) (n c) ->
  restart_begin c q kind P = Ok (m, P') ->
  exists w, m = PcWait kind w /\ Z.of_nat (length (w_got w)) + Z.of_nat (length (w_pend w)) < w_need w.
Proof.
  intros Hs Hi Hl. unfold restart_begin. cbv zeta. fold (mark (T (p_s P))). fold (bump_restarts (C (p_s P))).
  assert (G : (0 <? itercount (bump_restarts (C (p_s P)))) || do_init_strategy c = true).
  { destruct Hi as [Hi| ->]; [|apply orb_true_r]. cbn [bump_restarts itercount set_restarts]. apply orb_true_iff. left. apply Z.ltb_lt. exact Hi. }
  rewrite G, Hs.
  match goal with |- context [let (_, _) := ?x in _] => destruct x as [new prev] eqn:Er end.
  intros H; injection H as <- <-. eexists. split; [reflexivity|]. cbn [w_need w_got w_pend]. rewrite submit_from_length.
  assert (X : (length new + length prev = length pts)%nat).
  { destruct (nodes_at_restart (mark (T (p_s P))) =? 0)%nat.
    - injection Er as <- <-. cbn. lia.
    - apply remove_existing_spec in Er. tauto. }
  cbn [length]. lia.
Qed.
Lemma plan_short pc0 q P kind w P' pts : i_samples (q_inp q) = Some pts -> do_init_strategy (base pc0) = true ->
  Z.of_nat (length pts) < min_num_init_samples_parallel (init_sample_fraction (base pc0)) (n (base pc0)) ->
  plan (base pc0) q P = Ok (PcWait kind w, P') -> Z.of_nat (length (w_got w)) + Z.of_nat (length (w_pend w)) < w_need w.
Proof.
  intros Hs Hi Hl. unfold plan. destruct (skip_step _ _); [discriminate|]. destruct (must_restart_parallel _ _); [|discriminate].
  destruct (idle _); [|discriminate]. intros H. apply (begin_short _ _ _ _ _ _ pts Hs (or_intror Hi) Hl) in H.
  destruct H as (w' & E & L). injection E as _ <-. exact L.
Qed.
Lemma plan2_short pc0 q P kind w P' pts : i_samples (q_inp q) = Some pts -> do_init_strategy (base pc0) = true ->
  Z.of_nat (length pts) < min_num_init_samples_parallel (init_sample_fraction (base pc0)) (n (base pc0)) ->
  plan2 pc0 q P = Ok (PcWait kind w, P') -> Z.of_nat (length (w_got w)) + Z.of_nat (length (w_pend w)) < w_need w.
Proof.
  intros Hs Hi Hl. unfold plan2. cbv zeta. destruct (linear_phase _ _ _) as [P1|P1|e]; [|discriminate|discriminate].
  destruct (_ =? restoration_step _).
  - destruct (idle _); [|discriminate]. intros H. apply (begin_short _ _ _ _ _ _ pts Hs (or_intror Hi) Hl) in H.
    destruct H as (w' & E & L). injection E as _ <-. exact L.
  - destruct (negb _ && _); [|discriminate]. intros H. apply plan_refinement_head in H. discriminate.
Qed.
Lemma step_short pc0 q m P kind w P' pts : (forall k w0, m <> PcWait k w0) -> i_samples (q_inp q) = Some pts -> do_init_strategy (base pc0) = true ->
  Z.of_nat (length pts) < min_num_init_samples_parallel (init_sample_fraction (base pc0)) (n (base pc0)) ->
  pstep pc0 q m P = (PcWait kind w, P') -> Z.of_nat (length (w_got w)) + Z.of_nat (length (w_pend w)) < w_need w.
Proof.
  intros NW Hs Hi Hl H.
  assert (HC : forall r, finish_step r P = (PcWait kind w, P') -> r = Ok (PcWait kind w, P')).
  { intros [[m1 P1]|e] E; cbn in E; [injection E as <- <-; reflexivity|discriminate]. }
  destruct m as [|b| | | |kd w0| | |e]; cbn [pstep] in H.
  - destruct (loop_cond _ _ _ _); discriminate.
  - destruct (ready _ _); [|destruct (_ <? _); discriminate]. apply HC in H. destruct (take_eval _ _ _ _); discriminate.
  - destruct (ready _ _); [|destruct (_ <=? _); discriminate]. apply HC in H. destruct (take_search _ _ _ _); discriminate.
  - apply HC in H. exact (plan_short _ _ _ _ _ _ _ Hs Hi Hl H).
  - apply HC in H. exact (plan2_short _ _ _ _ _ _ _ Hs Hi Hl H).
  - exfalso. apply (NW kd w0). reflexivity.
  - apply HC in H. apply final_effect in H. destruct H as [(_ & X & _)|(t & r & _ & X & _)]; discriminate.
  - discriminate.
  - discriminate.
Qed.
Lemma start_short pc0 q pa P0 kind w P' pts : i_samples (q_inp q) = Some pts -> do_init_strategy (base pc0) = true ->
  Z.of_nat (length pts) < min_num_init_samples_parallel (init_sample_fraction (base pc0)) (n (base pc0)) ->
  pstart pc0 q pa P0 = (PcWait kind w, P') -> Z.of_nat (length (w_got w)) + Z.of_nat (length (w_pend w)) < w_need w.
Proof.
  intros Hs Hi Hl. unfold pstart. cbv zeta. destruct (refinement_frequency _ =? 0); [discriminate|]. destruct (_ =? 0).
  - destruct (restart_begin _ _ _ _) as [[m1 P1]|e] eqn:E; cbn [finish_step]; intros H; [|discriminate]. injection H as -> ->.
    apply (begin_short _ _ _ _ _ _ pts Hs (or_intror Hi) Hl) in E. destruct E as (w' & X & L). injection X as _ <-. exact L.
  - destruct (current_gap _ _); discriminate.
Qed.
(** A fresh optimizer starts by waiting for its sample. *)
Lemma start_waits pc0 q pa pts : i_samples (q_inp q) = Some pts -> do_init_strategy (base pc0) = true -> refinement_frequency (base pc0) <> 0 ->
  exists w P, pstart pc0 q pa (pinit (base pc0)) = (PcWait (WStart pa) w, P).
Proof.
  intros Hs Hi Hf. unfold pstart. cbv zeta. rewrite (proj2 (Z.eqb_neq _ _) Hf).
  replace (itercount (C (p_s (pinit (base pc0)))) =? 0) with true by reflexivity.
  unfold restart_begin. cbv zeta. rewrite Hi, Hs, orb_true_r. cbn [p_s set_k].
  match goal with |- context [let (_, _) := ?x in _] => destruct x as [new prev] end. cbn [finish_step]. eexists _, _. reflexivity.
Qed.

(** ** Sizes of corner samples *)
Lemma more_corners_count m lo up : forall draws acc r, (length acc <= m)%nat -> more_corners m lo up acc draws = Some r -> length r = m.
Proof.
  induction draws as [|d ds IH]; intros acc r Ha; cbn [more_corners]; destruct (Nat.ltb_spec (length acc) m) as [L|L].
  - discriminate.
  - intros H. injection H as <-. lia.
  - apply IH. destruct (near _ _ _); [lia|]. rewrite app_length. cbn [length]. lia.
  - intros H. injection H as <-. lia.
Qed.
Lemma finish_nodes_count c cat s lo up ints nodes : (length (finish_nodes c cat s lo up ints nodes) <= S (length nodes))%nat.
Proof.
  unfold finish_nodes. destruct cat; rewrite ?map_length; destruct (_ && _); rewrite ?app_length, ?map_length; cbn [length]; lia.
Qed.
Lemma corner_count ic s lo up ints attempts nodes : i_strategy ic = LowerCorners \/ i_strategy ic = RandCorners ->
  length up = length lo -> initialize_nodes ic s lo up ints attempts = InitOk nodes -> (length nodes <= length lo + 2)%nat.
Proof.
  intros HS HL H. unfold initialize_nodes in H.
  assert (HC : (is_lhd (i_strategy ic) && match s_expansion s with [] => false | _ => true end)%bool = false) by (destruct HS as [-> | ->]; reflexivity).
  rewrite HC in H. destruct (i_max ic =? 0)%nat; [discriminate|]. apply init_loop_ok in H. destruct H as (a & raw & _ & Er & -> & _).
  pose proof (finish_nodes_count ic false s lo up ints raw) as F.
  assert (length raw = S (length lo)); [|lia].
  destruct HS as [E|E]; rewrite E in Er; cbn [sample_nodes] in Er.
  - injection Er as <-. apply lower_corners_spec. exact HL.
  - unfold random_corners in Er. destruct (a_corners a) as [|d ds]; [discriminate|]. apply more_corners_count in Er; [exact Er|cbn; lia].
Qed.
Lemma awaited_big frac m : (2 <= frac)%Q -> (1 <= m)%nat -> Z.of_nat (m + 2) < min_num_init_samples_parallel frac m.
Proof.
  intros HF HM. unfold min_num_init_samples_parallel.
  assert (X : round_half_even (inject_Z (Z.of_nat m + 1) * 2)%Q <= round_half_even (inject_Z (Z.of_nat m + 1) * frac)%Q).
  { apply rhe_mono. rewrite !(Qmult_comm (inject_Z _)). apply Qmult_le_compat_r; [exact HF|]. change 0%Q with (inject_Z 0). rewrite <- Zle_Qle. lia. }
  change 2%Q with (inject_Z 2) in X. rewrite <- inject_Z_mult, InitUtil.rhe_Z in X. lia.
Qed.

(** ** A restart whose sample is known *)
Lemma known_sample c q kind P m P1 pts : 0 < itercount (C (p_s P)) -> all_pos (T (p_s P)) <> [] ->
  length (all_err (T (p_s P))) = length (all_pos (T (p_s P))) -> (fbest_index (I (p_s P)) < length (all_err (T (p_s P))))%nat ->
  i_samples (q_inp q) = Some pts -> (2 <= length pts)%nat ->
  min_num_init_samples_parallel (init_sample_fraction c) (n c) <= Z.of_nat (length pts) ->
  noisy_mode (C (p_s P)) = true -> (forall p, In p pts -> near (eps_zero c) p (all_pos (T (p_s P))) = true) ->
  restart_begin c q kind P = Ok (m, P1) ->
  exists w, m = PcWait kind w /\ p_log P1 = p_log P /\
  forall q', exists m' P2, wait_step c q' kind w P1 = Ok (m', P2) /\ (m' = match kind with WMid => PcPlan2 | _ => PcHead end) /\
    length (node_pos (T (p_s P2))) = length pts /\ pend (p_k P2) = [] /\
    evalcount (C (p_s P2)) = evalcount (C (p_s P)) /\ noisy_evalcount (C (p_s P2)) = noisy_evalcount (C (p_s P)).
Proof.
  intros Hit Hne Hal Hfb Hs Hl Hm Hn Hk. unfold restart_begin. cbv zeta.
  set (k1 := set_restarts _ (C (p_s P))). set (t1 := mkTabs _ _ _ _ _ _ _ _ _).
  assert (KI : itercount k1 = itercount (C (p_s P))) by reflexivity. assert (KN : noisy_mode k1 = true) by exact Hn.
  assert (NR : (nodes_at_restart t1 =? 0)%nat = false) by (apply Nat.eqb_neq; cbn; destruct (all_pos (T (p_s P))); [congruence|discriminate]).
  assert (OLD : firstn (nodes_at_restart t1) (all_pos t1) = all_pos (T (p_s P))) by (cbn [nodes_at_restart all_pos t1]; apply firstn_all).
  rewrite KI, (proj2 (Z.ltb_lt _ _) Hit), Hs, NR, OLD, KN. cbn [orb].
  pose proof (remove_existing_length c true t1 (all_pos (T (p_s P))) pts) as LEN.
  pose proof (proj2 (remove_existing_none c t1 (all_pos (T (p_s P))) pts) Hk) as NONE.
  destruct (remove_existing c true t1 (all_pos (T (p_s P))) pts) as [new prev]. cbn [fst snd] in LEN, NONE.
  destruct new as [|? ?]; [clear NONE|discriminate]. cbn [length] in LEN. cbn [Nat.add] in LEN.
  intros H. injection H as <- <-. eexists. split; [reflexivity|]. split; [cbn; rewrite ?app_nil_r; reflexivity|].
  intros q'. unfold wait_step. cbv zeta. cbn [submit_from w_need w_got w_pend w_inner w_prev length negb].
  replace (_ <=? Z.of_nat 0) with true by (symmetry; apply Z.leb_le; lia). cbn [andb].
  unfold restart_finish. cbn [w_got w_prev w_pend map app].
  match goal with |- context [restart_user c ?k ?g ?i] => assert (RU : restart_user c k g i = ([], [], 0)) end.
  { unfold restart_user. assert (X : forall z, (itercount (if restart_accurate c k1 then add_evals z 0 k1 else add_evals 0 z k1) =? 0) = false).
    { intros z. apply Z.eqb_neq. destruct (restart_accurate c k1); cbn; lia. }
    cbn [p_s set_next set_s note set_C C length Z.of_nat]. rewrite X. rewrite andb_false_r. reflexivity. }
  rewrite RU. rewrite app_nil_r. destruct prev as [|e0 R0]; [cbn in LEN; lia|]. set (R := e0 :: R0) in *.
  match goal with |- context [restart_tabs c ?t R] => set (t2 := restart_tabs c t R) end.
  match goal with |- context [restart_incs t2 ?i] => set (i2 := restart_incs t2 i) end.
  unfold current_gap. cbn [T I].
  assert (LE : (fbest_index i2 < length (all_err t2))%nat).
  { assert (A : (argmin (map e_val R) < length R)%nat) by (rewrite <- (map_length e_val); apply (argmin_spec (map e_val R)); discriminate).
    assert (E1 : length (all_err t2) = (length (all_pos (T (p_s P))) + length R)%nat)
      by (unfold t2, restart_tabs; cbn [all_err]; rewrite app_length, map_length; change (all_err _) with (all_err (T (p_s P))); lia).
    rewrite E1. unfold i2, restart_incs. cbn [fbest_index]. change (nodes_at_restart t2) with (length (all_pos (T (p_s P)))).
    change (node_val t2) with (map e_val R). destruct (xlt _ _); [lia|]. change (fbest_index _) with (fbest_index (I (p_s P))). lia. }
  destruct (nth_error (all_err t2) (fbest_index i2)) as [e|] eqn:NE; [|apply nth_error_None in NE; lia]. cbn [bind].
  rewrite LEN. assert (L1 : (length pts =? 1)%nat = false) by (apply Nat.eqb_neq; lia). rewrite L1. cbn [Nat.eqb negb andb].
  assert (LG : forall vals g s0, T (log_all vals g s0) = T s0 /\ C (log_all vals g s0) = C s0).
  { unfold log_all. induction vals as [|v vals IH]; intros g s0; cbn [fold_left]; [split; reflexivity|].
    destruct (IH g (log_value v g s0)) as (A & B). rewrite A, B. split; reflexivity. }
  assert (EV : forall f k, evalcount (restart_ctrs c f (add_evals 0 0 k)) = evalcount k /\ noisy_evalcount (restart_ctrs c f (add_evals 0 0 k)) = noisy_evalcount k).
  { intros f k. cbn. lia. }
  assert (EK : forall z, z = 0 -> evalcount (if restart_accurate c k1 then add_evals z 0 k1 else add_evals 0 z k1) = evalcount (C (p_s P)) /\
                         noisy_evalcount (if restart_accurate c k1 then add_evals z 0 k1 else add_evals 0 z k1) = noisy_evalcount (C (p_s P))).
  { intros z ->. destruct (restart_accurate c k1); cbn; lia. }
  specialize (EK 0 eq_refl). destruct EK as (EK1 & EK2).
  destruct kind as [pa| |]; (eexists _, _; split; [reflexivity|]; split; [reflexivity|]); cbn [p_s p_k set_k note set_next set_s k_lc pend];
    rewrite (proj1 (LG _ _ _)), (proj2 (LG _ _ _)); cbn [T C]; rewrite (proj1 (EV _ _)), (proj2 (EV _ _));
    (split; [unfold t2, restart_tabs; cbn [node_pos]; rewrite map_length; exact LEN|]); (split; [reflexivity|]);
    cbn [set_C C p_s set_s set_next note]; cbn [length Z.of_nat]; split; assumption.
Qed.
