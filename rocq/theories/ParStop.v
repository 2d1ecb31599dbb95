(** * Why [optimize] stops: proofs of C146 (parallel). *)
From Verif Require Export SpecStop SpecParallel.
From Verif Require Import StopProofs.
From Verif Require Import ParEffects ParInv ParTabs ParBudget.
From Verif Require Import AlgFrame AlgPause AlgGlue ModelAlg.
From Coq Require Import Lia Lqa.
Open Scope Z_scope.

Definition ext {A} (l l' : list A) : Prop := exists b, l' = l ++ b.
Lemma ext_refl {A} (l : list A) : ext l l.
Proof. exists []. now rewrite app_nil_r. Qed.
(** The effect of a step on the gap. *)
Definition gap_kept (P P' : pst) : Prop :=
  gap (lc (p_k P')) = gap (lc (p_k P)) /\ ext (all_val (T (p_s P))) (all_val (T (p_s P'))).
Definition gap_step (c : cfg) (P P' : pst) : Prop :=
  gap_kept P P' \/
  current_gap c (p_s P') = Ok (gap (lc (p_k P'))).
Lemma gap_kept_same P P' : gap (lc (p_k P')) = gap (lc (p_k P)) -> T (p_s P') = T (p_s P) -> gap_kept P P'.
Proof. intros H E. split; [exact H|]. rewrite E. apply ext_refl. Qed.
Lemma gap_step_same c P P' : gap (lc (p_k P')) = gap (lc (p_k P)) -> T (p_s P') = T (p_s P) -> gap_step c P P'.
Proof. intros H E. left. split; [exact H|]. rewrite E. apply ext_refl. Qed.
Lemma take_eval_gap c q j P P' : take_eval c q j P = Ok P' -> gap_step c P P'.
Proof.
  unfold take_eval. destruct (nth_error (pend (p_k P)) j) as [t|]; [|discriminate].
  destruct (if t_noisy t then i_nval (q_inp q) else (i_val (q_inp q), 0, 0)%Q) as [[v el] eu].
  cbv zeta. destruct (node_pos (T (p_s P))); [discriminate|].
  set (k1 := if t_noisy t then _ else _).
  assert (G1 : gap (lc k1) = gap (lc (p_k P))) by (unfold k1; destruct (t_noisy t); reflexivity).
  clearbody k1.
  destruct (near _ _ _); [intros H; injection H as <-; apply gap_step_same; [exact G1|reflexivity]|].
  destruct (t_noisy t && existsb _ _); [intros H; injection H as <-; apply gap_step_same; [exact G1|reflexivity]|].
  destruct (t_noisy t && require_accurate _ _ _).
  - cbn [bind]. destruct (end_of_pass _ _) as [s'|] eqn:E; cbn [bind]; [|discriminate].
    intros H; injection H as <-. apply gap_step_same; [exact G1|].
    cbn [set_s p_s]. apply quiet_end in E. rewrite (q_T _ _ E). reflexivity.
  - destruct (current_gap c _) as [g|] eqn:Eg; cbn [bind]; [|discriminate].
    set (s1 := insert_node _ _ _ _ _ _) in *.
    assert (D : forall s2 k2 s', quiet s1 s2 -> gap (lc k2) = g -> end_of_pass c s2 = Ok s' ->
              current_gap c s' = Ok (gap (lc k2))).
    { intros s2 k2 s' Q2 E2 E. apply quiet_end in E. rewrite (gap_quiet _ _ _ E), (gap_quiet _ _ _ Q2), E2. exact Eg. }
    destruct (match t_id t with SRefine => _ | _ => _ end) as [[s2 k2]|] eqn:E2; cbn [bind fst snd]; [|discriminate].
    destruct (end_of_pass c _) as [s'|] eqn:E; cbn [bind]; [|discriminate].
    intros H; injection H as <-. right. cbn [set_s note set_k p_s p_k] in *.
    assert (QG : quiet s1 s2 /\ gap (lc k2) = g).
    { destruct (t_id t).
      all: try (injection E2 as <- <-; split; [apply quiet_log|reflexivity]).
      destruct (refinement_update_parallel c (q_inp q) (log_value v g s1)) as [s3|] eqn:E3; cbn [bind] in E2; [|discriminate].
      injection E2 as <- <-. apply quiet_refine_par in E3. split; [|reflexivity].
      eapply quiet_trans; [apply quiet_log|apply E3]. }
    apply (D s2 k2 s'); [apply QG|apply QG|exact E].
Qed.
Lemma take_eval_fresh c q j P P' : take_eval c q j P = Ok P' ->
  (p_s P' = p_s P /\ gap (lc (p_k P')) = gap (lc (p_k P))) \/ (exists t, nth_error (pend (p_k P)) j = Some t /\ t_noisy t = true) \/
  current_gap c (p_s P') = Ok (gap (lc (p_k P'))).
Proof.
  unfold take_eval. destruct (nth_error (pend (p_k P)) j) as [t|] eqn:Ent; [|discriminate].
  destruct (if t_noisy t then i_nval (q_inp q) else (i_val (q_inp q), 0, 0)%Q) as [[v el] eu].
  cbv zeta. destruct (node_pos (T (p_s P))); [discriminate|].
  set (k1 := if t_noisy t then _ else _).
  assert (G1 : gap (lc k1) = gap (lc (p_k P))) by (unfold k1; destruct (t_noisy t); reflexivity).
  clearbody k1.
  destruct (near _ _ _); [intros H; injection H as <-; left; split; [reflexivity|exact G1]|].
  destruct (t_noisy t && existsb _ _); [intros H; injection H as <-; left; split; [reflexivity|exact G1]|].
  destruct (t_noisy t) eqn:ETN.
  { intros _. right. left. exists t. auto. }
  cbn [andb].
  destruct (current_gap c _) as [g|] eqn:Eg; cbn [bind]; [|discriminate].
    set (s1 := insert_node _ _ _ _ _ _) in *.
    assert (D : forall s2 k2 s', quiet s1 s2 -> gap (lc k2) = g -> end_of_pass c s2 = Ok s' ->
              current_gap c s' = Ok (gap (lc k2))).
    { intros s2 k2 s' Q2 E2 E. apply quiet_end in E. rewrite (gap_quiet _ _ _ E), (gap_quiet _ _ _ Q2), E2. exact Eg. }
    destruct (match t_id t with SRefine => _ | _ => _ end) as [[s2 k2]|] eqn:E2; cbn [bind fst snd]; [|discriminate].
    destruct (end_of_pass c _) as [s'|] eqn:E; cbn [bind]; [|discriminate].
    intros H; injection H as <-. right. right. cbn [set_s note set_k p_s p_k] in *.
    assert (QG : quiet s1 s2 /\ gap (lc k2) = g).
    { destruct (t_id t).
      all: try (injection E2 as <- <-; split; [apply quiet_log|reflexivity]).
      destruct (refinement_update_parallel c (q_inp q) (log_value v g s1)) as [s3|] eqn:E3; cbn [bind] in E2; [|discriminate].
      injection E2 as <- <-. apply quiet_refine_par in E3. split; [|reflexivity].
      eapply quiet_trans; [apply quiet_log|apply E3]. }
    apply (D s2 k2 s'); [apply QG|apply QG|exact E].
Qed.
Lemma use_point_gap c q p noisy id P P' : use_point c q p noisy id P = Ok P' -> gap_step c P P'.
Proof.
  unfold use_point. cbv zeta. destruct (node_pos (T (p_s P))); [discriminate|].
  destruct (_ || _).
  { intros H; injection H as <-. apply gap_step_same; [|]; unfold discard_search; destruct id; reflexivity. }
  assert (S1 : forall P1, Ok (submit_point c q (clip p (l_lower c) (l_upper c)) (to_orig c (clip p (l_lower c) (l_upper c))) noisy id P) = Ok P1 -> gap_step c P P1).
  { intros P1 H; injection H as <-. apply gap_step_same; [reflexivity|]. destruct noisy; reflexivity. }
  destruct (lookup_old _ _ _) as [j|]; [|apply S1].
  destruct (noisy || negb _); [|apply S1].
  unfold reuse_old. cbv zeta. destruct (if nth j (all_is_noisy (T (p_s P))) false then _ else _) as [s1|]; cbn [bind]; [|discriminate].
  destruct (current_gap c s1) as [g|] eqn:Eg; cbn [bind]; [|discriminate].
  destruct (negb (iid_set (p_k P))); [discriminate|]. destruct (save_state_interval c =? 0); [discriminate|].
  intros H; injection H as <-. right. cbn [note set_k set_s p_s p_k k_lc lc set_gap gap].
  set (s2 := log_value _ g s1). set (s3 := set_C (set_iter (itercount (C s2) + 1) (C s2)) s2).
  assert (Q3 : quiet s1 s3) by (eapply quiet_trans; [apply quiet_log|apply quiet_iter]).
  set (s4 := if itercount (C s3) mod save_state_interval c =? 0 then emit [EvSave (itercount (C s3))] s3 else s3).
  assert (Q4 : quiet s3 s4) by (unfold s4; destruct (_ =? 0); [apply quiet_emit_save|apply quiet_refl]).
  assert (Q5 : quiet s1 (phase_update c (stalling_update c s4))).
  { eapply quiet_trans; [exact Q3|]. eapply quiet_trans; [exact Q4|]. eapply quiet_trans; [apply quiet_stall|apply quiet_phase]. }
  rewrite (gap_quiet _ _ _ Q5). exact Eg.
Qed.
Lemma take_search_gap c q j P P' : has_noisy c = false -> take_search c q j P = Ok P' -> gap_step c P P'.
Proof.
  intros Hn. unfold take_search. destruct (nth_error (srch (p_k P)) j) as [e|]; [|discriminate].
  cbv zeta. destruct (s_bad e); [discriminate|].
  set (P1 := set_k _ P).
  assert (U : forall p id, use_point c q p (s_noisy e) id P1 = Ok P' -> gap_step c P P').
  { intros p id H. apply use_point_gap in H. exact H. }
  destruct (q_ans q) as [[p|] adj|p ind].
  - apply U.
  - intros H; injection H as <-. apply gap_step_same; unfold discard_search; destruct (s_id e); reflexivity.
  - rewrite Hn. cbn [andb]. destruct (s_id e); apply U.
Qed.
Lemma restart_begin_gap c q kind P m P' : restart_begin c q kind P = Ok (m, P') -> gap_kept P P'.
Proof.
  unfold restart_begin. cbv zeta. destruct (_ || _).
  - destruct (i_samples (q_inp q)) as [pts|]; [|discriminate]. destruct (if _ : bool then _ else _) as [nw prev].
    intros H; injection H as <- <-. split; [reflexivity|]. exists []. rewrite app_nil_r. reflexivity.
  - intros H; injection H as <- <-. split; [reflexivity|]. exists []. rewrite app_nil_r. reflexivity.
Qed.
Lemma restart_finish_gap c q kind w P m P' : restart_finish c q kind w P = Ok (m, P') -> gap_step c P P'.
Proof.
  unfold restart_finish. cbv zeta. destruct (restart_user _ _ _ _) as [[usr u] nu].
  destruct (map snd (w_got w) ++ w_prev w ++ usr) eqn:ER.
  { rewrite app_assoc in ER. rewrite ER. discriminate. }
  rewrite app_assoc in ER. rewrite ER. clear ER. set (rows := e :: l).
  set (s2 := mkSt _ _ _ _ _). destruct (current_gap c s2) as [g|] eqn:Eg; cbn [bind]; [|discriminate].
  destruct (_ =? 1)%nat; [discriminate|]. destruct (negb _ && negb _); [discriminate|].
  assert (A : ext (all_val (T (p_s P))) (all_val (T (log_all (node_val (restart_tabs c (T (p_s P)) rows)) g s2)))).
  { rewrite (q_T _ _ (quiet_log_all _ _ _)). eexists. reflexivity. }
  destruct kind; intros H; injection H as <- <-.
  - right. cbn [set_k note set_next set_s p_s p_k k_lc lc gap].
    change (current_gap c (log_all (node_val (restart_tabs c (T (p_s P)) rows)) g s2) = Ok g).
    rewrite (gap_quiet c s2 _ (quiet_log_all (node_val (restart_tabs c (T (p_s P)) rows)) g s2)). exact Eg.
  - left. split; [reflexivity|exact A].
  - left. split; [reflexivity|exact A].
Qed.
Lemma plan_gap c q P m P' : plan c q P = Ok (m, P') -> gap_kept P P'.
Proof.
  unfold plan. cbv zeta. destruct (skip_step _ _); [intros H; injection H as <- <-; apply gap_kept_same; reflexivity|].
  destruct (must_restart_parallel _ _); [|intros H; injection H as <- <-; apply gap_kept_same; reflexivity].
  destruct (idle _); [apply restart_begin_gap|]. intros H; injection H as <- <-; apply gap_kept_same; reflexivity.
Qed.
Lemma plan2_gap pc0 q P m P' : plan2 pc0 q P = Ok (m, P') -> gap_kept P P'.
Proof.
  unfold plan2. cbv zeta.
  assert (X : exists P1, cross_validate pc0 P = P1 /\ lc (p_k P1) = lc (p_k P) /\ T (p_s P1) = T (p_s P)).
  { eexists. split; [reflexivity|]. unfold cross_validate. cbv zeta. destruct (_ && _); auto. }
  destruct X as (P1 & -> & X1 & X2).
  assert (T0 : forall P2, gap_kept P1 P2 -> gap_kept P P2).
  { intros P2 (A & B). unfold gap_kept. rewrite <- X1, <- X2. auto. }
  intros H. apply T0. clear T0 X1 X2 P.
  unfold linear_phase in H. cbv zeta in H.
  assert (K : forall P2, lc (p_k P2) = lc (p_k P1) /\ T (p_s P2) = T (p_s P1) ->
    (if current_step (C (p_s P2)) =? restoration_step (base pc0)
     then if idle (p_k P2) then restart_begin (base pc0) q WRest (set_s (set_C (set_underdet false (C (p_s P2))) (p_s P2)) P2) else Ok (PcHead, P2)
     else if negb (busy (p_k P2)) && Qle_bool (rcount (p_k P2)) (inject_Z (itercount (C (p_s P2))) / inject_Z (refinement_frequency (base pc0)))%Q
     then plan_refinement (base pc0) q P2
     else Ok (PcHead, set_s (advance_st (base pc0) (p_s (if current_step (C (p_s P2)) =? inf_step then submit_search SInf false P2
               else if current_step (C (p_s P2)) =? local_search_step (base pc0) then submit_search SLocal (stale_all P2 [fmin_index (I (p_s P2))]) P2
               else submit_search SGlobal (stale_all P2 [fmin_index (I (p_s P2))]) P2)))
             (if current_step (C (p_s P2)) =? inf_step then submit_search SInf false P2
               else if current_step (C (p_s P2)) =? local_search_step (base pc0) then submit_search SLocal (stale_all P2 [fmin_index (I (p_s P2))]) P2
               else submit_search SGlobal (stale_all P2 [fmin_index (I (p_s P2))]) P2))) = Ok (m, P') -> gap_kept P1 P').
  { intros P2 (Y1 & Y2) HK.
    assert (T0 : gap_kept P2 P' -> gap_kept P1 P').
    { intros (A & B). unfold gap_kept. rewrite <- Y1, <- Y2. auto. }
    apply T0. clear T0.
    destruct (_ =? restoration_step _).
    { destruct (idle _); [apply restart_begin_gap in HK; exact HK|]. injection HK as <- <-. apply gap_kept_same; reflexivity. }
    destruct (negb _ && _).
    - unfold plan_refinement in HK. cbv zeta in HK.
      match type of HK with bind ?x _ = _ => destruct x as [ini|]; cbn [bind] in HK; [|discriminate] end.
      repeat match type of HK with (if ?x then Fail _ else _) = _ => destruct x; [discriminate|] end.
      match type of HK with (if ?x then _ else _) = _ => destruct x end;
        injection HK as <- <-; apply gap_kept_same; try reflexivity; destruct ini; reflexivity.
    - injection HK as <- <-. apply gap_kept_same; destruct (_ =? inf_step); try reflexivity;
        destruct (_ =? local_search_step _); reflexivity. }
  destruct (i_lin_ok (q_inp q)); [apply (K P1); auto|].
  destruct (_ && _); [injection H as <- <-; apply gap_kept_same; reflexivity|].
  destruct (_ =? 0)%nat; [discriminate|]. apply (K (set_s (set_C (set_step (restoration_step (base pc0)) (C (p_s P1))) (p_s P1)) P1)); auto.
Qed.
Lemma final_gap c q P m P' : final_step c q P = Ok (m, P') -> gap_step c P P'.
Proof.
  unfold final_step. cbv zeta. destruct (pend (p_k P)) as [|t r]; [intros H; injection H as <- <-; apply gap_step_same; reflexivity|].
  destruct (node_pos (T (p_s P))); [discriminate|]. destruct (t_noisy t); [destruct (errs _); discriminate|].
  destruct (current_gap c _) as [g|] eqn:Eg; cbn [bind]; [|discriminate].
  intros H; injection H as <- <-. right. cbn [note set_k set_s p_s p_k lc set_gap gap].
  rewrite <- Eg. set (s1 := add_node _ _ _ _) in *. apply gap_quiet.
  apply (quiet_trans _ (log_value (i_val (q_inp q)) g s1)); [apply quiet_log|].
  apply (quiet_iter (log_value (i_val (q_inp q)) g s1)).
Qed.
Lemma finish_plain c q kind w P m P' : restart_finish c q kind w P = Ok (m, P') -> not_wait m.
Proof.
  intros H. apply restart_finish_eff in H. pose proof (fe_m _ _ _ _ _ _ _ H) as E. destruct kind; subst m; intros ? ?; discriminate.
Qed.
Lemma final_plain c q P m P' : final_step c q P = Ok (m, P') -> not_wait m.
Proof.
  intros H. apply final_effect in H. destruct H as [(_ & -> & _)|(t & r & _ & -> & _)]; intros ? ?; discriminate.
Qed.
Lemma pstep_gap pc0 q m P m' P' : has_noisy (base pc0) = false -> pstep pc0 q m P = (m', P') -> no_error m' ->
  gap_kept P P' \/ not_wait m' /\ current_gap (base pc0) (p_s P') = Ok (gap (lc (p_k P'))).
Proof.
  intros Hn H N. unfold pstep in H. cbv zeta in H.
  assert (Z0 : gap_kept P P) by (apply gap_kept_same; reflexivity).
  assert (W0 : forall P1 m1, gap_step (base pc0) P P1 -> not_wait m1 ->
            gap_kept P P1 \/ not_wait m1 /\ current_gap (base pc0) (p_s P1) = Ok (gap (lc (p_k P1)))).
  { intros P1 m1 [A|A] B; auto. }
  destruct m as [|b| | | |kind w| | |e].
  - destruct (loop_cond _ _ _ _); injection H as <- <-; left; exact Z0.
  - destruct (ready q (pend (p_k P))) as [j|].
    + apply finish_ok in H; [|assumption].
      destruct (take_eval _ _ _ _) as [P1|] eqn:E; cbn [bind] in H; [|discriminate].
      injection H as <- <-. apply W0; [eapply take_eval_gap; eauto|intros ? ?; discriminate].
    + destruct (b <? _); injection H as <- <-; left; exact Z0.
  - destruct (ready q (srch (p_k P))) as [j|].
    + apply finish_ok in H; [|assumption].
      destruct (take_search _ _ _ _) as [P1|] eqn:E; cbn [bind] in H; [|discriminate].
      injection H as <- <-. apply W0; [eapply take_search_gap; eauto|intros ? ?; discriminate].
    + destruct (_ <=? _); injection H as <- <-; left; exact Z0.
  - apply finish_ok in H; [|assumption]. left; eapply plan_gap; eauto.
  - apply finish_ok in H; [|assumption]. left; eapply plan2_gap; eauto.
  - apply finish_ok in H; [|assumption]. unfold wait_step in H. cbv zeta in H.
    assert (TI : forall j w' P1, take_init q j w P = Ok (w', P1) -> gap_kept P P1).
    { intros j w' P1 E. apply take_init_eff in E. destruct E as [_ Es _ _ Ek]. apply gap_kept_same; congruence. }
    destruct (_ && _); [apply W0; [eapply restart_finish_gap; eauto|apply (finish_plain _ _ _ _ _ _ _ H)]|].
    destruct (ready q (w_pend w)) as [j|].
    + destruct (take_init q j w P) as [[w' P1]|] eqn:E; cbn [bind fst snd] in H; [|discriminate].
      injection H as <- <-. left; eapply TI; eauto.
    + destruct (_ <=? _); [apply W0; [eapply restart_finish_gap; eauto|apply (finish_plain _ _ _ _ _ _ _ H)]|]. injection H as <- <-. left; exact Z0.
  - apply finish_ok in H; [|assumption]. apply W0; [eapply final_gap; eauto|apply (final_plain _ _ _ _ _ H)].
  - injection H as <- <-. left; exact Z0.
  - injection H as <- <-. left; exact Z0.
Qed.

(** ** Without noise every row is exact *)
Definition exact_row (e : entry) : Prop := e_noisy e = false /\ e_err e = (0, 0)%Q.
Definition exact_tabs (t : tabs) : Prop :=
  Forall (fun b => b = false) (all_is_noisy t) /\ Forall (fun e => e = (0, 0)%Q) (all_err t).
Definition exact_world (m : pc) (P : pst) : Prop :=
  exact_tabs (T (p_s P)) /\
  (forall kind w, m = PcWait kind w -> Forall exact_row (map snd (w_got w) ++ w_prev w)).
Lemma exact_add p po v s : exact_tabs (T s) -> exact_tabs (T (insert_node p po v false (0, 0)%Q s)).
Proof. intros (A & B). split; cbn; apply Forall_app; auto. Qed.
Lemma exact_quiet s s' : quiet s s' -> exact_tabs (T s) -> exact_tabs (T s').
Proof. intros Q. now rewrite (q_T _ _ Q). Qed.
Lemma exact_row_of t j : exact_tabs t -> exact_row (history_row t j).
Proof.
  intros (A & B). unfold exact_row, history_row. cbn. split.
  - destruct (nth_in_or_default j (all_is_noisy t) false) as [X|X]; [|exact X]. rewrite Forall_forall in A. auto.
  - destruct (nth_in_or_default j (all_err t) (0, 0)%Q) as [X|X]; [|exact X]. rewrite Forall_forall in B. auto.
Qed.
Lemma exact_begin c q kind P w P' : begin_eff c q kind P w P' -> exact_tabs (T (p_s P)) ->
  exact_world (PcWait kind w) P'.
Proof.
  intros [(new & prev & nb & _ & W2 & W3 & _ & _ & _ & HP & _ & ET & _) _ _] H. split; [rewrite ET; exact H|].
  intros k2 w2 E2. injection E2 as <- <-. rewrite W2, W3. cbn. apply Forall_forall. intros e He.
  destruct (HP e He) as (jj & _ & -> & _). now apply exact_row_of.
Qed.
Lemma exact_reach pc0 ok m P : has_noisy (base pc0) = false -> preach pc0 ok m P -> no_error m -> exact_world m P.
Proof.
  intros Hn. apply (preach_inv2 pc0 ok exact_world).
  - intros q pa m1 P1 Hq [w It -> B|It -> Es El En SL Eb Ei Ep Eg].
    + eapply exact_begin; [exact B|]. split; constructor.
    + split; [rewrite Es; split; constructor|discriminate].
  - intros q pa P0 m1 P1 Hq (M & _) _ [w It -> B|It -> Es El En SL Eb Ei Ep Eg].
    + eapply exact_begin; [exact B|]. exact M.
    + split; [rewrite Es; exact M|discriminate].
  - intros q m1 P1 m2 P2 Hq (M & HW) HR N _ _ [-> -> -> _| -> -> -> _|b -> -> Hm| -> -> Hm| -> -> ->|kind w w' -> -> -> Ew Hw|b j -> -> E|j -> -> E|Hm E|j kind w w' -> -> E|kind w -> E|t r -> -> Ep E| -> -> Ep ->];
      try (split; [exact M|discriminate]).
    + destruct Hm as [(-> & _)|(-> & _)]; (split; [exact M|discriminate]).
    + destruct Hm as [(-> & _)|(-> & _)]; (split; [exact M|discriminate]).
    + split; [exact M|]. intros k2 w2 E2. injection E2 as <- <-. subst w'. exact (HW _ _ eq_refl).
    + destruct (quiet_reach pc0 ok _ _ Hn HR N) as (_ & QP & _).
      split; [|discriminate].
      destruct E as [t v el eu Ht Ea Nr Es Ecv En El Ek|t v el eu Ht Ea Hn1 Nr Hx Es Ecv En El Ek|t v el eu t' Ht Ea Hn1 Ht' Nr Hr Q It Ecv En El Ek|t v el eu Ht Ea Nr Hne Hr Q It Ecv En El SL Eb Elc].
      * rewrite Es. exact M.
      * rewrite Es. exact M.
      * eapply exact_quiet; [exact Q|exact M].
      * assert (F : t_noisy t = false) by (apply nth_error_In in Ht; rewrite Forall_forall in QP; auto).
        rewrite F in Q. eapply exact_quiet; [exact Q|]. now apply exact_add.
    + split; [|discriminate].
      destruct E as [e P3 He E1 ->|e p id P3 P4 He Hp E1 R U Hid Hz].
      * subst P3. destruct (s_id e); exact M.
      * assert (X : exact_tabs (T (p_s P4))).
        { subst P3. destruct R as [->|_ ->|jj s' Hn1 Hr Es _ _ El Ek]; [exact M|exact M|congruence]. }
        destruct U as [Q1 It Ecv En El SL Eb Elc|pp po jj v nz ee Ep Epo Hne N1 N2 Hl Hv Hzz Hee Q1 It Ecv En El SL Eb Elc|pp po Ep Epo Hne N1 N2 ->].
        -- eapply exact_quiet; eauto.
        -- assert (F : nz = false).
           { subst nz. apply (exact_row_of _ jj X). }
           specialize (Hee F). subst ee. rewrite F in Q1. eapply exact_quiet; [exact Q1|]. now apply exact_add.
        -- exact X.
    + destruct E as [k' Hm' Q1 It En El Ek SL Eb Elc|id bad k' -> Q1 It En El Ek I1 I2 SL Eb Eb2 Elc|kind w P0 Hk -> Hi Q1 It En El Ek B].
      * split; [eapply exact_quiet; eauto|]. destruct Hm' as [->| ->]; discriminate.
      * split; [eapply exact_quiet; eauto|discriminate].
      * eapply exact_begin; [exact B|]. eapply exact_quiet; eauto.
    + destruct (quiet_reach pc0 ok _ _ Hn HR N) as (QM & _ & _ & QW). specialize (QW _ _ eq_refl).
      destruct E as [(t & v & el & eu & Ht & Ea & W1 & W2 & _ & W4 & _) Es _ _ Ek].
      split; [rewrite Es; exact M|]. intros k2 w2 E2. injection E2 as <- <-. specialize (HW _ _ eq_refl).
      assert (F : t_noisy t = false) by (apply nth_error_In in Ht; rewrite Forall_forall in QW; auto).
      rewrite F in Ea. unfold answer_of in Ea. injection Ea as <- <- <-.
      apply Forall_app in HW. destruct HW as (HA & HB).
      rewrite W2, W4, map_app. apply Forall_app. split; [|exact HB]. apply Forall_app. split; [exact HA|].
      cbn. constructor; [|constructor]. split; [exact QM|reflexivity].
    + specialize (HW _ _ eq_refl). pose proof (fe_m _ _ _ _ _ _ _ E) as Em.
      assert (Hm2 : not_wait m2) by (destruct kind; subst m2; discriminate).
      destruct (fe_ex _ _ _ _ _ _ _ E) as (usr & uevs & nu & rows & _ & US & -> & _ & ET & _).
      split; [|intros k2 w2 E2; exfalso; eapply Hm2; exact E2].
      assert (HU : Forall exact_row usr).
      { apply Forall_forall. intros e He. pose proof (us_origin _ _ _ _ _ _ US) as UO. pose proof (us_flag _ _ _ _ _ _ US) as UF.
        rewrite Forall_forall in UO, UF. split; [auto|].
        destruct (UO e He) as [_ X _|el eu _ _ X _|_ X _ _|j _ X].
        - exact X.
        - rewrite (UF e He) in X. discriminate.
        - exact X.
        - rewrite X. apply exact_row_of. exact M. }
      assert (HA : Forall exact_row ((map snd (w_got w) ++ w_prev w) ++ usr)) by (apply Forall_app; auto).
      rewrite ET. destruct M as (M1 & M2). split; cbn; apply Forall_app; (split; [assumption|]).
      * rewrite Forall_forall in *. intros b Hb. apply in_map_iff in Hb. destruct Hb as (e & <- & He). apply (HA e He).
      * rewrite Forall_forall in *. intros b Hb. apply in_map_iff in Hb. destruct Hb as (e & <- & He). apply (HA e He).
    + split; [|discriminate]. eapply exact_quiet; [exact (fi_s _ _ _ _ _ _ E)|]. now apply exact_add.
Qed.

(** ** The gap belongs to a value of the history *)
Definition pgap_real (c : cfg) (P : pst) : Prop :=
  forall g, gap (lc (p_k P)) = Some g -> exists v, In v (all_val (T (p_s P))) /\ (compute_gap c v <= g)%Q.
Lemma par_fresh_value pc0 ok m P : has_noisy (base pc0) = false -> preach pc0 ok m P -> no_error m -> not_wait m ->
  exists v p, result (p_s P) = Some (v, p) /\ current_gap (base pc0) (p_s P) = Ok (Some (compute_gap (base pc0) (v + 0)%Q)) /\
    (forall x, In x (all_val (T (p_s P))) -> (v <= x)%Q) /\ In v (all_val (T (p_s P))).
Proof.
  intros Hn HR N NW. destruct (par_incumbents pc0 ok m P Hn HR N NW) as [_ _ ((F1 & F2 & F3) & FB) _ _].
  pose proof (par_aligned pc0 ok m P HR N NW) as A. apply aligned_lengths in A.
  destruct (exact_reach pc0 ok m P Hn HR N) as ((_ & EX) & _).
  set (s := p_s P) in *. set (j := fbest_index (I s)) in *.
  assert (HL : (j < length (all_err (T s)))%nat) by (unfold point in *; lia).
  assert (FE : nth j (all_err (T s)) (0, 0)%Q = (0, 0)%Q) by (rewrite Forall_forall in EX; apply EX, nth_In, HL).
  assert (NE : all_val (T s) <> []) by (destruct (all_val (T s)); [cbn in F1; lia|discriminate]).
  destruct (argmin_spec (all_val (T s)) NE) as (G1 & G2 & G3).
  assert (EJ : argmin (all_val (T s)) = j).
  { set (a := argmin (all_val (T s))) in *. destruct (lt_eq_lt_dec a j) as [[X|X]|X]; [|exact X|].
    - specialize (F3 a X). specialize (G2 j F1). lra.
    - specialize (G3 j X). specialize (F2 a G1). lra. }
  exists (nth j (all_val (T s)) 0%Q), (nth j (all_pos (T s)) []).
  split.
  { unfold result. destruct (all_val (T s)); [congruence|]. rewrite EJ. reflexivity. }
  split.
  { unfold current_gap. fold j. rewrite (nth_error_nth' _ (0,0)%Q HL), FE, FB. reflexivity. }
  split; [|apply nth_In; exact F1].
  intros x Hx. apply (In_nth _ _ 0%Q) in Hx. destruct Hx as (k & Hk & <-). apply F2. exact Hk.
Qed.
Definition not_wait_dec (m : pc) : {not_wait m} + {exists kind w, m = PcWait kind w}.
Proof. destruct m; try (left; intros ? ?; discriminate). right. eauto. Qed.
Lemma pgap_fresh pc0 ok m P : has_noisy (base pc0) = false -> preach pc0 ok m P -> no_error m -> not_wait m ->
  current_gap (base pc0) (p_s P) = Ok (gap (lc (p_k P))) -> pgap_real (base pc0) P.
Proof.
  intros Hn HR N NW HF g E. destruct (par_fresh_value pc0 ok m P Hn HR N NW) as (v & p & _ & A & _ & B).
  rewrite HF in A. inversion A as [X]. rewrite E in X. inversion X; subst g.
  exists v. split; [exact B|]. rewrite gap_plus0. lra.
Qed.
Lemma ext_real c P P' : gap (lc (p_k P')) = gap (lc (p_k P)) -> ext (all_val (T (p_s P))) (all_val (T (p_s P'))) ->
  pgap_real c P -> pgap_real c P'.
Proof.
  intros A (b & B) H g E. rewrite A in E. destruct (H g E) as (v & X & Y). exists v. split; [|exact Y].
  rewrite B. apply in_or_app. auto.
Qed.
Lemma pgap_reach pc0 ok m P : has_noisy (base pc0) = false -> preach pc0 ok m P -> no_error m -> pgap_real (base pc0) P.
Proof.
  intros Hn HR. induction HR as [q pa m P Hok H|q pa P0 m P Hok HR IH H|q m0 P0 m P Hok HR IH H]; intros N.
  - assert (HR : preach pc0 ok m P) by (econstructor; eauto).
    destruct (pstart_effect _ _ _ _ _ _ H N) as [w It -> B|It -> Es El En SL Eb Ei Ep Eg].
    + intros g E. rewrite (be_k _ _ _ _ _ _ B) in E. discriminate.
    + cbn in It. congruence.
  - assert (HR' : preach pc0 ok m P) by (eapply pr_again; eauto).
    destruct (pstart_effect _ _ _ _ _ _ H N) as [w It -> B|It -> Es El En SL Eb Ei Ep Eg].
    + intros g E. rewrite (be_k _ _ _ _ _ _ B) in E. discriminate.
    + apply (pgap_fresh pc0 ok PcHead P Hn HR' N); [intros ? ?; discriminate|]. rewrite Es. exact Eg.
  - assert (HR' : preach pc0 ok m P) by (eapply pr_step; eauto).
    assert (N0 : no_error m0).
    { intros e ->. cbn in H. injection H as <- <-. now apply (N e). }
    destruct (pstep_gap _ _ _ _ _ _ Hn H N) as [(A & B)|(A & B)].
    + apply (ext_real _ P0 P A B). apply IH. exact N0.
    + apply (pgap_fresh pc0 ok m P Hn HR' N A B).
Qed.
Lemma par_leave pc0 q P m P' : pstep pc0 q PcHead P = (m, P') -> P' = P /\
  (m = PcFinal /\ loop_cond (base pc0) (p_s P) (lc (p_k P)) (i_clock_ok (q_inp q)) = false \/
   m = PcEvals (itercount (C (p_s P))) /\ loop_cond (base pc0) (p_s P) (lc (p_k P)) (i_clock_ok (q_inp q)) = true).
Proof.
  cbn [pstep]. destruct (loop_cond _ _ _ _); intros H; injection H as <- <-; auto.
Qed.
Lemma par_stop_real pc0 ok q P : has_noisy (base pc0) = false -> (0 < eps_zero (base pc0))%Q -> preach pc0 ok PcHead P ->
  pstep pc0 q PcHead P = (PcFinal, P) ->
  limit_reached (base pc0) (it_start (lc (p_k P))) (pause (lc (p_k P))) (p_s P) (i_clock_ok (q_inp q)) \/
  target_met (base pc0) (p_s P).
Proof.
  intros Hn H3 HR H. destruct (par_leave _ _ _ _ _ H) as (_ & [(_ & E)|(X & _)]); [|discriminate].
  apply loop_cond_false in E. destruct E as [E|(g & E & L)]; [auto|right].
  assert (N : no_error PcHead) by (intros e; discriminate).
  destruct (pgap_reach pc0 ok _ _ Hn HR N g E) as (w & A & B).
  destruct (par_fresh_value pc0 ok PcHead P Hn HR N) as (v & p & R & _ & M & _); [intros ? ?; discriminate|].
  exists v, p. split; [exact R|]. apply (within_le _ w); [|apply M; exact A].
  apply within_gap; [exact H3|]. lra.
Qed.
(** ** Once the target is met *)
Definition evals_fresh (c : cfg) (m : pc) (P : pst) : Prop :=
  forall b, m = PcEvals b -> b < itercount (C (p_s P)) -> current_gap c (p_s P) = Ok (gap (lc (p_k P))).
Lemma evals_fresh_reach pc0 ok m P : has_noisy (base pc0) = false -> preach pc0 ok m P -> no_error m -> evals_fresh (base pc0) m P.
Proof.
  intros Hn HR. induction HR as [q pa m P Hok H|q pa P0 m P Hok HR IH H|q m0 P0 m P Hok HR IH H]; intros N.
  - destruct (pstart_effect _ _ _ _ _ _ H N) as [w It -> B|It -> Es El En SL Eb Ei Ep Eg]; intros b E; discriminate.
  - destruct (pstart_effect _ _ _ _ _ _ H N) as [w It -> B|It -> Es El En SL Eb Ei Ep Eg]; intros b E; discriminate.
  - assert (N0 : no_error m0).
    { intros e ->. cbn in H. injection H as <- <-. now apply (N e). }
    intros b -> L. destruct m0 as [|b0| | | |kind w| | |e].
    + destruct (par_leave _ _ _ _ _ H) as (-> & [(X & _)|(X & _)]); [discriminate|]. injection X as ->. lia.
    + cbn [pstep] in H. destruct (ready q (pend (p_k P0))) as [j|].
      * apply finish_ok in H; [|assumption].
        destruct (take_eval _ _ _ _) as [P1|] eqn:E; cbn [bind] in H; [|discriminate].
        injection H as <- <-. destruct (take_eval_fresh _ _ _ _ _ E) as [(X & Y)|[(t & X & Y)|X]].
        -- rewrite X, Y. rewrite X in L. apply (IH N0 b0 eq_refl L).
        -- destruct (quiet_reach pc0 ok _ _ Hn HR N0) as (_ & QP & _). apply nth_error_In in X.
           rewrite Forall_forall in QP. rewrite (QP t X) in Y. discriminate.
        -- exact X.
      * destruct (b0 <? _); [discriminate|discriminate].
    + cbn [pstep] in H. destruct (ready q (srch (p_k P0))) as [j|].
      * apply finish_ok in H; [|assumption]. destruct (take_search _ _ _ _) as [P1|]; cbn [bind] in H; discriminate.
      * destruct (_ <=? _); discriminate.
    + pose proof (pstep_effect _ _ _ _ _ _ H N) as SE.
      destruct SE as [Hm|Hm|b1 Hm|Hm|Hm|kind w w' Hm|b1 j Hm|j Hm|Hm E|j kind w w' Hm|kind w Hm|t r Hm|Hm]; try discriminate.
      destruct E as [k' [Hm'|Hm'] _|id bad k' Hm' _|kind w Px Hk Hm' _]; discriminate.
    + pose proof (pstep_effect _ _ _ _ _ _ H N) as SE.
      destruct SE as [Hm|Hm|b1 Hm|Hm|Hm|kind w w' Hm|b1 j Hm|j Hm|Hm E|j kind w w' Hm|kind w Hm|t r Hm|Hm]; try discriminate.
      destruct E as [k' [Hm'|Hm'] _|id bad k' Hm' _|kind w Px Hk Hm' _]; discriminate.
    + pose proof (pstep_effect _ _ _ _ _ _ H N) as SE.
      destruct SE as [Hm|Hm|b1 Hm|Hm|Hm|k1 w1 w' Hm Hm'|b1 j Hm|j Hm|[Hm|Hm] E|j k1 w1 w' Hm Hm'|k1 w1 Hm E|t r Hm|Hm]; try discriminate.
      pose proof (fe_m _ _ _ _ _ _ _ E) as X. destruct k1; discriminate.
    + cbn [pstep] in H. apply finish_ok in H; [|assumption]. apply final_effect in H.
      destruct H as [(_ & X & _)|(t & r & _ & X & _)]; discriminate.
    + discriminate.
    + exfalso. now apply (N0 e).
Qed.
Lemma par_fresh_stops pc0 ok q P : has_noisy (base pc0) = false -> (0 < eps_zero (base pc0))%Q -> preach pc0 ok PcHead P ->
  current_gap (base pc0) (p_s P) = Ok (gap (lc (p_k P))) -> target_met (base pc0) (p_s P) ->
  pstep pc0 q PcHead P = (PcFinal, P).
Proof.
  intros Hn H3 HR HF (v & p & R & W). assert (N : no_error PcHead) by (intros e; discriminate).
  destruct (par_fresh_value pc0 ok PcHead P Hn HR N) as (v' & p' & R' & A & _); [intros ? ?; discriminate|].
  rewrite R in R'. inversion R'; subst v' p'.
  cbn [pstep]. assert (E : loop_cond (base pc0) (p_s P) (lc (p_k P)) (i_clock_ok (q_inp q)) = false); [|rewrite E; reflexivity].
  apply loop_cond_false. right. rewrite HF in A. inversion A as [X]. eexists. split; [exact X|].
  rewrite gap_plus0. apply within_gap; assumption.
Qed.
Lemma par_eval_then_stop pc0 (ok : pin -> Prop) q b P P' q' : has_noisy (base pc0) = false -> (0 < eps_zero (base pc0))%Q -> ok q ->
  preach pc0 ok (PcEvals b) P -> pstep pc0 q (PcEvals b) P = (PcHead, P') -> target_met (base pc0) (p_s P') ->
  pstep pc0 q' PcHead P' = (PcFinal, P').
Proof.
  intros Hn H3 Hq HR H HT. assert (HR' : preach pc0 ok PcHead P') by (eapply pr_step; eauto).
  assert (N : no_error (PcEvals b)) by (intros e; discriminate).
  apply (par_fresh_stops pc0 ok q' P' Hn H3 HR'); [|exact HT].
  cbn [pstep] in H. destruct (ready q (pend (p_k P))) as [j|].
  - destruct (take_eval _ _ _ _); cbn [bind finish_step] in H; discriminate.
  - destruct (Z.ltb_spec b (itercount (C (p_s P)))); [|discriminate]. injection H as <-.
    exact (evals_fresh_reach pc0 ok _ _ Hn HR N b eq_refl ltac:(assumption)).
Qed.
Lemma par_call_at_target pc0 (ok : pin -> Prop) q pa P0 q' : has_noisy (base pc0) = false -> (0 < eps_zero (base pc0))%Q -> ok q ->
  preach pc0 ok PcDone P0 -> itercount (C (p_s P0)) <> 0 -> refinement_frequency (base pc0) <> 0 -> target_met (base pc0) (p_s P0) ->
  exists P, pstart pc0 q pa P0 = (PcHead, P) /\ p_s P = p_s P0 /\ p_log P = p_log P0 /\
    pstep pc0 q' PcHead P = (PcFinal, P) /\ pstep pc0 q' PcFinal P = (PcDone, P).
Proof.
  intros Hn H3 Hq HR It RF HT. assert (N : no_error PcDone) by (intros e; discriminate).
  destruct (par_fresh_value pc0 ok PcDone P0 Hn HR N) as (v & p & R & A & _); [intros ? ?; discriminate|].
  destruct (pstart pc0 q pa P0) as [m P] eqn:E.
  assert (X : m = PcHead /\ p_s P = p_s P0 /\ p_log P = p_log P0 /\ pend (p_k P) = [] /\ current_gap (base pc0) (p_s P) = Ok (gap (lc (p_k P)))).
  { unfold pstart in E. cbv zeta in E. destruct (Z.eqb_spec (refinement_frequency (base pc0)) 0); [contradiction|].
    destruct (Z.eqb_spec (itercount (C (p_s P0))) 0); [contradiction|]. rewrite A in E. injection E as <- <-.
    cbn [p_s p_log p_k set_k k_lc lc gap pend empty_loc]. auto. }
  destruct X as (-> & Es & El & Ep & Eg). exists P. split; [reflexivity|]. split; [exact Es|]. split; [exact El|].
  assert (HR' : preach pc0 ok PcHead P) by (eapply pr_again; eauto).
  split.
  - apply (par_fresh_stops pc0 ok q' P Hn H3 HR' Eg). unfold target_met in *. rewrite Es. exact HT.
  - cbn [pstep]. unfold final_step. rewrite Ep. reflexivity.
Qed.
