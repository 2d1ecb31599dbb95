(** * Waiting, shutdown and refinement: what can never happen again. *)
From Verif Require Export ParBox.
From Verif Require Import ModelInit.
Open Scope Z_scope.

(** ** C75: shutdown *)
Lemma crash_stays pc0 e : forall qs P, prun pc0 qs (PcCrash e) P = (PcCrash e, P).
Proof. induction qs as [|q r IH]; intros P; cbn; auto. Qed.
Lemma done_stays pc0 : forall qs P, prun pc0 qs PcDone P = (PcDone, P).
Proof. induction qs as [|q r IH]; intros P; cbn; auto. Qed.

Lemma final_noisy pc0 : forall qs P, (exists t, In t (pend (p_k P)) /\ t_noisy t = true) ->
  (exists P', prun pc0 qs PcFinal P = (PcFinal, P') /\ (length qs < length (pend (p_k P)))%nat) \/
  (exists e P', prun pc0 qs PcFinal P = (PcCrash e, P')).
Proof.
  induction qs as [|q r IH]; intros P (t & Ht & Hz).
  - left. exists P. split; [reflexivity|]. destruct (pend (p_k P)); cbn; [destruct Ht|lia].
  - cbn [prun pstep]. unfold final_step. destruct (pend (p_k P)) as [|t0 rest] eqn:Ep; [destruct Ht|].
    cbv zeta. destruct (node_pos (T (p_s P))) as [|n0 nr].
    { right. cbn [finish_step]. exists EAssert, P. apply crash_stays. }
    destruct (t_noisy t0) eqn:E0.
    { right. destruct (errs (lc (p_k P))); cbn [finish_step]; eexists _, P; apply crash_stays. }
    destruct (current_gap (base pc0) _) as [g|e]; cbn [bind finish_step].
    2: { right. exists e, P. apply crash_stays. }
    match goal with |- context [prun pc0 r PcFinal ?X] => set (P1 := X); specialize (IH P1) end.
    assert (HE : pend (p_k P1) = rest) by reflexivity.
    destruct IH as [(P' & E & L)|(e & P' & E)].
    + exists t. rewrite HE. destruct Ht as [->|Ht]; [congruence|auto].
    + left. exists P'. split; [exact E|]. rewrite HE in L. cbn. lia.
    + right. eauto.
Qed.

(** ** C76: the wait for the initial sample *)
Lemma wait_forever pc0 : forall qs kind w P,
  Z.of_nat (length (w_got w)) + Z.of_nat (length (w_pend w)) < w_need w ->
  exists w' P', prun pc0 qs (PcWait kind w) P = (PcWait kind w', P').
Proof.
  induction qs as [|q r IH]; intros kind w P H; [exists w, P; reflexivity|].
  cbn [prun pstep]. unfold wait_step. cbv zeta.
  replace (w_need w <=? Z.of_nat (length (w_got w))) with false by (symmetry; apply Z.leb_gt; lia).
  cbn [andb]. destruct (ready q (w_pend w)) as [j|] eqn:Er.
  - pose proof (ready_lt _ _ _ Er) as L.
    destruct (take_init q j w P) as [[w' P1]|e] eqn:E; cbn [bind finish_step fst snd].
    + apply IH. apply take_init_eff in E. destruct E as [(t & v & el & eu & Ht & _ & W1 & W2 & W3 & _) _ _ _ _].
      rewrite W1, W2, W3, app_length, length_delete by assumption. cbn [length]. lia.
    + unfold take_init in E. destruct (nth_error (w_pend w) j) eqn:En.
      2: { apply nth_error_None in En. lia. }
      destruct (if t_noisy t then _ else _) as [[? ?] ?]; discriminate.
  - cbn [finish_step]. apply IH. exact H.
Qed.
Lemma wait_leaves pc0 q kind w P : w_pend w = [] -> w_need w <= Z.of_nat (length (w_got w)) ->
  not_wait (fst (pstep pc0 q (PcWait kind w) P)).
Proof.
  intros Hp Hn. cbn [pstep]. unfold wait_step. cbv zeta.
  replace (w_need w <=? Z.of_nat (length (w_got w))) with true by (symmetry; apply Z.leb_le; lia).
  assert (HR : ready q (w_pend w) = None) by (rewrite Hp; unfold ready; destruct (q_pick q); reflexivity).
  rewrite HR.
  assert (X : not_wait (fst (finish_step (restart_finish (base pc0) q kind w P) P))).
  { destruct (restart_finish (base pc0) q kind w P) as [[m P']|e] eqn:E; cbn [finish_step fst]; [|discriminate].
    apply restart_finish_eff in E. pose proof (fe_m _ _ _ _ _ _ _ E) as Em. destruct kind; subst m; discriminate. }
  cbn [andb]. destruct (negb (w_inner w)); exact X.
Qed.

Definition wait_feasible (m : pc) : Prop :=
  forall kind w, m = PcWait kind w -> w_need w <= Z.of_nat (length (w_got w)) + Z.of_nat (length (w_pend w)).
Lemma begin_feasible c q kind P m P' : samples_from c q -> restart_begin c q kind P = Ok (m, P') -> wait_feasible m.
Proof.
  intros HS. unfold restart_begin. cbv zeta. fold (mark (T (p_s P))). fold (bump_restarts (C (p_s P))).
  destruct (_ || _).
  - destruct (i_samples (q_inp q)) as [pts|] eqn:Es; [|discriminate].
    match goal with |- context [let (_, _) := ?x in _] => destruct x as [new prev] eqn:Er end.
    intros H; injection H as <- <-. intros kd w E. injection E as <- <-.
    cbn [w_need w_got w_pend]. rewrite submit_from_length. specialize (HS pts Es).
    assert (X : (length new + length prev = length pts)%nat).
    { destruct (nodes_at_restart (mark (T (p_s P))) =? 0)%nat.
      - injection Er as <- <-. cbn. lia.
      - apply remove_existing_spec in Er. tauto. }
    cbn [length]. lia.
  - intros H; injection H as <- <-. intros kd w E. injection E as <- <-. cbn. lia.
Qed.
Lemma feasible_plain m : not_wait m -> wait_feasible m.
Proof. intros H k w E. exfalso. eapply H; eauto. Qed.
Lemma plan_feasible c q P m P' : samples_from c q -> plan c q P = Ok (m, P') -> wait_feasible m.
Proof.
  intros HS. unfold plan. destruct (skip_step _ _); [intros H; injection H as <- <-; apply feasible_plain; discriminate|].
  destruct (must_restart_parallel _ _); [|intros H; injection H as <- <-; apply feasible_plain; discriminate].
  destruct (idle _); [now apply begin_feasible|intros H; injection H as <- <-; apply feasible_plain; discriminate].
Qed.
Lemma plan_refinement_head c q P m P' : plan_refinement c q P = Ok (m, P') -> m = PcHead.
Proof.
  unfold plan_refinement. cbv zeta.
  match goal with |- bind ?x _ = _ -> _ => destruct x as [init|] end; cbn [bind]; [|discriminate].
  destruct (init && stale _ _); [discriminate|].
  destruct (init && (_ <? _)%nat); [discriminate|].
  destruct (stale_all _ _); [discriminate|].
  destruct (negb (i_ref_ok (q_inp q))); intros H; injection H as <- _; reflexivity.
Qed.
Lemma plan2_feasible pc0 q P m P' : samples_from (base pc0) q -> plan2 pc0 q P = Ok (m, P') -> wait_feasible m.
Proof.
  intros HS. unfold plan2. cbv zeta. destruct (linear_phase _ _ _) as [P1|P1|e]; [|intros H; injection H as <- <-; apply feasible_plain; discriminate|discriminate].
  destruct (_ =? restoration_step _).
  - destruct (idle _); [now apply begin_feasible|intros H; injection H as <- <-; apply feasible_plain; discriminate].
  - destruct (negb _ && _).
    + intros H. apply plan_refinement_head in H. subst m. apply feasible_plain; discriminate.
    + intros H; injection H as <- <-; apply feasible_plain; discriminate.
Qed.
Lemma step_feasible pc0 q m P m' P' : samples_from (base pc0) q -> pstep pc0 q m P = (m', P') ->
  wait_feasible m -> wait_feasible m'.
Proof.
  intros HS H HF.
  assert (HC : forall r, finish_step r P = (m', P') -> (r = Ok (m', P') -> wait_feasible m') -> wait_feasible m').
  { intros [[m1 P1]|e] E K; cbn in E.
    - injection E as <- <-. auto.
    - injection E as <- <-. apply feasible_plain; discriminate. }
  destruct m as [|b| | | |kind w| | |e]; cbn [pstep] in H.
  - destruct (loop_cond _ _ _ _); injection H as <- <-; apply feasible_plain; discriminate.
  - destruct (ready _ _).
    + apply (HC _ H). intros E. destruct (take_eval _ _ _ _); cbn [bind] in E; [|discriminate].
      injection E as <- <-. apply feasible_plain; discriminate.
    + destruct (_ <? _); injection H as <- <-; apply feasible_plain; discriminate.
  - destruct (ready _ _).
    + apply (HC _ H). intros E. destruct (take_search _ _ _ _); cbn [bind] in E; [|discriminate].
      injection E as <- <-. apply feasible_plain; discriminate.
    + destruct (_ <=? _); injection H as <- <-; apply feasible_plain; discriminate.
  - apply (HC _ H). now apply plan_feasible.
  - apply (HC _ H). now apply plan2_feasible.
  - apply (HC _ H). clear H HC. unfold wait_step. cbv zeta. specialize (HF kind w eq_refl).
    assert (X : restart_finish (base pc0) q kind w P = Ok (m', P') -> wait_feasible m').
    { intros E. apply restart_finish_eff in E. pose proof (fe_m _ _ _ _ _ _ _ E) as Em.
      apply feasible_plain. destruct kind; subst m'; discriminate. }
    destruct (_ && _); [exact X|]. destruct (ready q (w_pend w)) as [j|] eqn:Er.
    + pose proof (ready_lt _ _ _ Er) as L.
      destruct (take_init q j w P) as [[w' P1]|] eqn:E; cbn [bind fst snd]; [|discriminate].
      intros H; injection H as <- <-. intros k2 w2 E2. injection E2 as <- <-.
      apply take_init_eff in E. destruct E as [(t & v & el & eu & Ht & _ & W1 & W2 & W3 & _) _ _ _ _].
      rewrite W1, W2, W3, app_length, length_delete by assumption. cbn [length]. lia.
    + destruct (_ <=? _); [exact X|]. intros H; injection H as <- <-. intros k2 w2 E2. injection E2 as <- <-.
      exact HF.
  - apply (HC _ H). clear H HC. intros H. apply final_effect in H.
    destruct H as [(_ & -> & _)|(t & r & _ & -> & _)]; apply feasible_plain; discriminate.
  - injection H as <- <-. exact HF.
  - injection H as <- <-. exact HF.
Qed.
Lemma start_feasible pc0 q pa P0 m P : samples_from (base pc0) q -> pstart pc0 q pa P0 = (m, P) -> wait_feasible m.
Proof.
  intros HS. unfold pstart. cbv zeta. destruct (refinement_frequency _ =? 0).
  { intros H; injection H as <- <-. apply feasible_plain; discriminate. }
  destruct (_ =? 0).
  - destruct (restart_begin _ _ _ _) as [[m1 P1]|e] eqn:E; cbn [finish_step]; intros H; injection H as <- <-.
    + eapply begin_feasible; eauto.
    + apply feasible_plain; discriminate.
  - destruct (current_gap _ _); intros H; injection H as <- <-; apply feasible_plain; discriminate.
Qed.
Lemma feasible_reach pc0 (ok : pin -> Prop) m P : (forall q, ok q -> samples_from (base pc0) q) ->
  preach pc0 ok m P -> wait_feasible m.
Proof.
  intros HS HR. induction HR as [q pa m P Hok H|q pa P0 m P Hok HR IH H|q m0 P0 m P Hok HR IH H].
  - eapply start_feasible; eauto.
  - eapply start_feasible; eauto.
  - eapply step_feasible; eauto.
Qed.

(** ** C109: the refinement flag *)
Definition is_refine (id : sid) : bool := match id with SRefine => true | _ => false end.
Definition no_refine (k : ploc) : Prop :=
  Forall (fun t => t_id t <> SRefine) (pend k) /\ Forall (fun e => s_id e <> SRefine) (srch k).
Definition stuck_refine (m : pc) (P : pst) : Prop :=
  busy (p_k P) = true /\ no_refine (p_k P) /\
  (forall kind w, m = PcWait kind w -> Forall (fun t => t_id t <> SRefine) (w_pend w)).
Lemma submit_not_refine nb new m : Forall (fun t => t_id t <> SRefine) (submit_from m nb new).
Proof.
  destruct (submit_from_spec nb new m) as (_ & _ & F). eapply Forall_impl; [|exact F].
  cbn. intros t (_ & -> & _). discriminate.
Qed.
Lemma stuck_step pc0 q m P m' P' : step_eff pc0 q m P m' P' -> stuck_refine m P -> stuck_refine m' P'.
Proof.
  intros E0 (H1 & (H2 & H3) & H4).
  assert (HB : forall kind w P0 Q0, begin_eff (base pc0) q kind P0 w Q0 -> p_k P0 = p_k P -> stuck_refine (PcWait kind w) Q0).
  { intros kind w P0 Q0 [(new & prev & nb & W1 & _) _ Ek] Ek0. unfold stuck_refine, no_refine. rewrite Ek, Ek0.
    repeat split; auto. intros k2 w2 E2. injection E2 as <- <-. rewrite W1. apply submit_not_refine. }
  destruct E0 as [-> -> -> _| -> -> -> _|b -> -> Hm| -> -> Hm| -> -> ->|kind w w' -> -> -> Ew Hw|b j -> -> E|j -> -> E|Hm E|j kind w w' -> -> E|kind w -> E|t r -> -> Ep E| -> -> Ep ->];
    try (repeat split; auto; discriminate).
  - destruct Hm as [(-> & _)|(-> & _)]; repeat split; auto; discriminate.
  - destruct Hm as [(-> & _)|(-> & _)]; repeat split; auto; discriminate.
  - repeat split; auto. intros k2 w2 E2. injection E2 as <- <-. subst w'. exact (H4 _ _ eq_refl).
  - assert (HD : forall bb e, Forall (fun t => t_id t <> SRefine) (pend (popped j bb e (p_k P))) /\
                srch (popped j bb e (p_k P)) = srch (p_k P) /\ busy (popped j bb e (p_k P)) = busy (p_k P)).
    { intros bb e. destruct (popped_pend j bb e (p_k P)) as (-> & -> & _). split; [now apply in_del|].
      split; auto. destruct bb; reflexivity. }
    assert (HT : forall t, nth_error (pend (p_k P)) j = Some t -> t_id t <> SRefine).
    { intros t Ht. apply nth_error_In in Ht. rewrite Forall_forall in H2. auto. }
    destruct E as [t v el eu Ht Ea Nr Es Ecv En El Ek|t v el eu Ht Ea Hn Nr Hx Es Ecv En El Ek|t v el eu t' Ht Ea Hn Ht' Nr Hr Q It Ecv En El Ek|t v el eu Ht Ea Nr Hne Hr Q It Ecv En El SL Eb Elc].
    + destruct (HD (t_noisy t) (el, eu)) as (D1 & D2 & D3).
      unfold stuck_refine, no_refine. rewrite Ek, D2, D3. repeat split; auto; discriminate.
    + destruct (HD true (el, eu)) as (D1 & D2 & D3).
      unfold stuck_refine, no_refine. rewrite Ek. cbn [busy pend srch k_tabu]. rewrite D2, D3. repeat split; auto; discriminate.
    + destruct (HD true (el, eu)) as (D1 & D2 & D3).
      unfold stuck_refine, no_refine. rewrite Ek. cbn [busy pend srch k_push]. rewrite D2, D3.
      repeat split; auto; try discriminate. apply Forall_app. split; auto. constructor; auto. subst t'. cbn. eapply HT; eauto.
    + destruct (HD (t_noisy t) (el, eu)) as (D1 & D2 & D3).
      unfold stuck_refine, no_refine. rewrite (sl_pend _ _ SL), (sl_srch _ _ SL), D2, Eb.
      repeat split; auto; try discriminate. specialize (HT t Ht). destruct (t_id t); solve [auto|congruence].
  - assert (HS : Forall (fun e => s_id e <> SRefine) (delete_at j (srch (p_k P)))) by now apply in_del.
    assert (HT : forall e, nth_error (srch (p_k P)) j = Some e -> s_id e <> SRefine).
    { intros t Ht. apply nth_error_In in Ht. rewrite Forall_forall in H3. auto. }
    destruct E as [e P1 He E1 ->|e p id P1 P2 He Hp E1 R U Hid Hz].
    + pose proof (discard_lists (base pc0) (s_id e) P1) as SL. specialize (HT e He).
      unfold stuck_refine, no_refine. rewrite (sl_pend _ _ SL), (sl_srch _ _ SL). subst P1.
      repeat split; auto; try discriminate. destruct (s_id e); solve [auto|congruence].
    + specialize (HT e He).
      assert (Hid' : id <> SRefine) by (destruct Hid as [->|(_ & ->)]; [exact HT|discriminate]).
      assert (X : busy (p_k P2) = true /\ pend (p_k P2) = pend (p_k P) /\ srch (p_k P2) = delete_at j (srch (p_k P))).
      { apply reeval_k in R. destruct R as [->| ->]; subst P1; auto. }
      destruct X as (X1 & X2 & X3).
      destruct U as [Q1 It Ecv En El SL Eb Elc|pp po jj v nz ee Ep Epo Hne N1 N2 Hl Hv Hzz Hee Q1 It Ecv En El SL Eb Elc|pp po Ep Epo Hne N1 N2 ->].
      * unfold stuck_refine, no_refine. rewrite (sl_pend _ _ SL), (sl_srch _ _ SL), X2, X3, Eb.
        repeat split; auto; try discriminate. destruct id; solve [auto|congruence].
      * unfold stuck_refine, no_refine. rewrite (sl_pend _ _ SL), (sl_srch _ _ SL), X2, X3, Eb.
        repeat split; auto; discriminate.
      * unfold stuck_refine, no_refine, submit_point. cbn [p_k note set_next set_k set_s pend srch busy k_push].
        rewrite X1, X2, X3. repeat split; auto; try discriminate. apply Forall_app. split; auto.
  - destruct E as [k' Hm' Q1 It En El Ek SL Eb Elc|id bad k' -> Q1 It En El Ek I1 I2 SL Eb Eb2 Elc|kind w P0 Hk -> Hi Q1 It En El Ek B].
    + unfold stuck_refine, no_refine. rewrite Ek, (sl_pend _ _ SL), (sl_srch _ _ SL), Eb. repeat split; auto.
      destruct Hm' as [->| ->]; discriminate.
    + unfold stuck_refine, no_refine. rewrite Ek, (sl_pend _ _ SL), (sl_srch _ _ SL), Eb.
      assert (Hid : id <> SRefine) by (intros ->; specialize (Eb2 eq_refl); congruence).
      repeat split; auto; try discriminate.
      * destruct id; auto.
      * cbn. apply Forall_app. split; auto.
    + eapply HB; [exact B|exact Ek].
  - destruct E as [(t & v & el & eu & Ht & Ea & W1 & W2 & W3 & W4 & EL) Es Ecv En Ek].
    unfold stuck_refine, no_refine. rewrite Ek. repeat split; auto. intros k2 w2 E2. injection E2 as <- <-.
    rewrite W1. apply in_del. eapply H4; reflexivity.
  - pose proof (fe_m _ _ _ _ _ _ _ E) as Em.
    unfold stuck_refine, no_refine. rewrite (fe_pend _ _ _ _ _ _ _ E), (fe_srch _ _ _ _ _ _ _ E), (fe_busy _ _ _ _ _ _ _ E).
    repeat split; auto; [eapply H4; reflexivity|]. intros k2 w2 E2. destruct kind; congruence.
  - destruct E as [Ft Fne Fs Fit Fn Fl Fp Fsr Fb]. unfold stuck_refine, no_refine. rewrite Fp, Fsr, Fb.
    rewrite Ep in H2. inversion H2; subst. repeat split; auto; discriminate.
Qed.
Lemma stuck_run pc0 : forall qs m P m' P', stuck_refine m P -> prun pc0 qs m P = (m', P') -> no_error m' ->
  stuck_refine m' P'.
Proof.
  induction qs as [|q r IH]; intros m P m' P' H E N; cbn in E.
  - injection E as <- <-. exact H.
  - destruct (pstep pc0 q m P) as [m1 P1] eqn:E1.
    assert (N1 : no_error m1).
    { intros e ->. rewrite crash_stays in E. injection E as <- <-. now apply (N e). }
    eapply IH; [|exact E|exact N]. eapply stuck_step; [eapply pstep_effect; eassumption|exact H].
Qed.

Lemma refine_app a b : refine_submissions (a ++ b) = (refine_submissions a + refine_submissions b)%nat.
Proof. unfold refine_submissions. now rewrite filter_app, app_length. Qed.
Lemma refine_rows {A} (f : A -> pev) l : (forall x, match f x with PSubmit _ _ _ _ => False | _ => True end) ->
  refine_submissions (map f l) = 0%nat.
Proof.
  intros H. unfold refine_submissions. induction l as [|x r IH]; cbn; auto. specialize (H x).
  destruct (f x); try tauto; auto.
Qed.
Lemma refine_none es : (forall e, In e es -> match e with PSubmit _ _ _ SRefine => False | _ => True end) ->
  refine_submissions es = 0%nat.
Proof.
  intros H. unfold refine_submissions. induction es as [|x r IH]; cbn; auto.
  pose proof (H x (or_introl eq_refl)) as Hx.
  destruct x as [k p nz id| | | | |]; try (apply IH; intros e He; apply H; now right).
  destruct id; try (apply IH; intros e He; apply H; now right). destruct Hx.
Qed.
Lemma stuck_log pc0 q m P m' P' : step_eff pc0 q m P m' P' -> stuck_refine m P ->
  refine_submissions (p_log P') = refine_submissions (p_log P).
Proof.
  intros E0 (H1 & (H2 & H3) & H4).
  assert (Z : forall a es, a = p_log P ++ es ->
     (forall e, In e es -> match e with PSubmit _ _ _ SRefine => False | _ => True end) ->
     refine_submissions a = refine_submissions (p_log P)).
  { intros a es -> He. rewrite refine_app, (refine_none es He). lia. }
  assert (HB : forall kind w P0 Q0, begin_eff (base pc0) q kind P0 w Q0 -> p_log P0 = p_log P ->
     refine_submissions (p_log Q0) = refine_submissions (p_log P)).
  { intros kind w P0 Q0 [(new & prev & nb & W1 & _ & _ & _ & _ & _ & _ & _ & _ & _ & _ & _ & _ & EL & _) _ _] El0.
    rewrite El0 in EL. eapply Z; [exact EL|]. intros e He. apply in_sub_log in He. destruct He as (t & Ht & ->).
    rewrite W1 in Ht. pose proof (submit_not_refine nb new (p_next P0)) as F. rewrite Forall_forall in F.
    specialize (F t Ht). cbn. destruct (t_id t); auto. }
  destruct E0 as [-> -> -> _| -> -> -> _|b -> -> Hm| -> -> Hm| -> -> ->|kind w w' -> -> -> Ew Hw|b j -> -> E|j -> -> E|Hm E|j kind w w' -> -> E|kind w -> E|t r -> -> Ep E| -> -> Ep ->];
    try reflexivity.
  - destruct E as [t v el eu Ht Ea Nr Es Ecv En El Ek|t v el eu Ht Ea Hn Nr Hx Es Ecv En El Ek|t v el eu t' Ht Ea Hn Ht' Nr Hr Q It Ecv En El Ek|t v el eu Ht Ea Nr Hne Hr Q It Ecv En El SL Eb Elc];
      (eapply Z; [exact El|]).
    + intros e [<-|[<-|[]]]; exact Logic.I.
    + intros e [<-|[<-|[]]]; exact Logic.I.
    + apply nth_error_In in Ht. rewrite Forall_forall in H2. specialize (H2 t Ht).
      intros e [<-|[<-|[<-|[]]]]; try exact Logic.I. destruct (t_id t); auto.
    + intros e [<-|[<-|[]]]; exact Logic.I.
  - destruct E as [e P1 He E1 ->|e p id P1 P2 He Hp E1 R U Hid Hz].
    + subst P1. destruct (s_id e); reflexivity.
    + apply nth_error_In in He. rewrite Forall_forall in H3. specialize (H3 e He).
      assert (Hid' : id <> SRefine) by (destruct Hid as [->|(_ & ->)]; [exact H3|discriminate]).
      assert (X : refine_submissions (p_log P2) = refine_submissions (p_log P)).
      { subst P1. destruct R as [->|_ ->|jj s' _ Hr Es _ _ El Ek]; try reflexivity.
        eapply Z; [exact El|]. intros x [<-|[]]; exact Logic.I. }
      rewrite <- X. clear X Z HB.
      destruct U as [Q1 It Ecv En El SL Eb Elc|pp po jj v nz ee Ep Epo Hne N1 N2 Hl Hv Hzz Hee Q1 It Ecv En El SL Eb Elc|pp po Ep Epo Hne N1 N2 ->].
      * now rewrite El.
      * rewrite El, refine_app, (refine_none [_]); [apply Nat.add_0_r|]. intros x [<-|[]]. exact Logic.I.
      * cbn [p_log submit_point note set_next set_k set_s]. rewrite refine_app, (refine_none [_]); [apply Nat.add_0_r|].
        intros x [<-|[]]. destruct id; auto.
  - destruct E as [k' Hm' Q1 It En El Ek SL Eb Elc|id bad k' -> Q1 It En El Ek I1 I2 SL Eb Eb2 Elc|kind w P0 Hk -> Hi Q1 It En El Ek B].
    + now rewrite El.
    + now rewrite El.
    + eapply HB; eauto.
  - destruct E as [(t & v & el & eu & Ht & Ea & W1 & W2 & W3 & W4 & EL) Es Ecv En Ek].
    eapply Z; [exact EL|]. intros e [<-|[]]; exact Logic.I.
  - destruct (fe_ex _ _ _ _ _ _ _ E) as (usr & uevs & nu & rows & _ & _ & _ & _ & _ & _ & _ & _ & EL & _).
    eapply Z; [exact EL|]. intros e He. apply in_app_or in He. destruct He as [He|He].
    { apply in_map_iff in He. destruct He as (? & <- & _). exact Logic.I. }
    apply in_app_or in He. destruct He as [He|He].
    { apply in_map_iff in He. destruct He as (? & <- & _). exact Logic.I. }
    unfold user_log in He. destruct (0 <? nu).
    + apply in_flat_map in He. destruct He as (? & _ & [<-|[<-|[<-|[]]]]); exact Logic.I.
    + apply in_map_iff in He. destruct He as (? & <- & _). exact Logic.I.
  - eapply Z; [exact (fi_log _ _ _ _ _ _ E)|]. intros e [<-|[<-|[]]]; exact Logic.I.
Qed.
Lemma stuck_run_log pc0 : forall qs m P m' P', stuck_refine m P -> prun pc0 qs m P = (m', P') -> no_error m' ->
  refine_submissions (p_log P') = refine_submissions (p_log P).
Proof.
  induction qs as [|q r IH]; intros m P m' P' H E N; cbn in E.
  - injection E as <- <-. reflexivity.
  - destruct (pstep pc0 q m P) as [m1 P1] eqn:E1.
    assert (N1 : no_error m1).
    { intros e ->. rewrite crash_stays in E. injection E as <- <-. now apply (N e). }
    assert (ES : step_eff pc0 q m P m1 P1) by (eapply pstep_effect; eassumption).
    rewrite (IH m1 P1 m' P'); [eapply stuck_log; eassumption|eapply stuck_step; eassumption|exact E|exact N].
Qed.

(** ** C111: failure of the linear algebra without stored cross-validation results *)
Lemma plan_cv c q P m P' : plan c q P = Ok (m, P') -> p_cv P' = p_cv P.
Proof.
  unfold plan. destruct (skip_step _ _); [intros H; injection H as <- <-; reflexivity|].
  destruct (must_restart_parallel _ _); [|intros H; injection H as <- <-; reflexivity].
  destruct (idle _); [|intros H; injection H as <- <-; reflexivity].
  intros H. apply restart_begin_eff in H. destruct H as (w & -> & B). apply (be_cv _ _ _ _ _ _ B).
Qed.
Lemma plan_refinement_cv c q P m P' : plan_refinement c q P = Ok (m, P') -> p_cv P' = p_cv P.
Proof.
  unfold plan_refinement. cbv zeta.
  match goal with |- bind ?x _ = _ -> _ => destruct x as [init|] end; cbn [bind]; [|discriminate].
  destruct (init && stale _ _); [discriminate|].
  destruct (init && (_ <? _)%nat); [discriminate|].
  destruct (stale_all _ _); [discriminate|].
  destruct (negb (i_ref_ok (q_inp q))); intros H; injection H as _ <-; reflexivity.
Qed.
Lemma cross_off pc0 P : rbf_auto pc0 = false -> cross_validate pc0 P = P.
Proof. intros H. unfold cross_validate. now rewrite H. Qed.
Lemma plan2_cv pc0 q P m P' : rbf_auto pc0 = false -> plan2 pc0 q P = Ok (m, P') -> p_cv P' = p_cv P.
Proof.
  intros Ha. unfold plan2. rewrite (cross_off pc0 P Ha). cbv zeta. unfold linear_phase. cbv zeta.
  assert (HB : forall P2, p_cv P2 = p_cv P -> forall X Y : bool,
    (if X then if idle (p_k P2)
          then restart_begin (base pc0) q WRest (set_s (set_C (set_underdet false (C (p_s P2))) (p_s P2)) P2)
          else Ok (PcHead, P2)
     else if Y then plan_refinement (base pc0) q P2
     else Ok (PcHead, set_s (advance_st (base pc0) (p_s (if current_step (C (p_s P2)) =? inf_step then submit_search SInf false P2
                  else if current_step (C (p_s P2)) =? local_search_step (base pc0)
                       then submit_search SLocal (stale_all P2 [fmin_index (I (p_s P2))]) P2
                       else submit_search SGlobal (stale_all P2 [fmin_index (I (p_s P2))]) P2)))
                  (if current_step (C (p_s P2)) =? inf_step then submit_search SInf false P2
                  else if current_step (C (p_s P2)) =? local_search_step (base pc0)
                       then submit_search SLocal (stale_all P2 [fmin_index (I (p_s P2))]) P2
                       else submit_search SGlobal (stale_all P2 [fmin_index (I (p_s P2))]) P2)))
     = Ok (m, P') -> p_cv P' = p_cv P).
  { intros P2 E2 [] Y.
    - destruct (idle _); [|intros H; injection H as <- <-; exact E2].
      intros H. apply restart_begin_eff in H. destruct H as (w & -> & B). rewrite (be_cv _ _ _ _ _ _ B). exact E2.
    - destruct Y; [intros H; apply plan_refinement_cv in H; congruence|].
      intros H; injection H as <- <-. cbn. destruct (_ =? inf_step); [exact E2|].
      destruct (_ =? local_search_step _); exact E2. }
  destruct (i_lin_ok (q_inp q)); [apply HB; reflexivity|].
  destruct (_ && _); [intros H; injection H as <- <-; reflexivity|].
  destruct (p_cv P =? 0)%nat; [discriminate|]. apply HB. reflexivity.
Qed.
Lemma search_cv c q j P P' : search_eff_par c q j P P' -> p_cv P' = p_cv P.
Proof.
  intros [e P1 He E1 ->|e p id P1 P2 He Hp E1 R U Hid Hz].
  - subst P1. destruct (s_id e); reflexivity.
  - assert (X : p_cv P2 = p_cv P) by (subst P1; destruct R as [->|_ ->|jj s' _ Hr Es Ec _ El Ek]; auto).
    destruct U as [Q1 It Ecv En El SL Eb Elc|pp po jj v nz ee Ep Epo Hne N1 N2 Hl Hv Hzz Hee Q1 It Ecv En El SL Eb Elc|pp po Ep Epo Hne N1 N2 ->];
      try congruence. exact X.
Qed.
Lemma cv_zero pc0 ok m P : rbf_auto pc0 = false -> preach pc0 ok m P -> no_error m -> p_cv P = 0%nat.
Proof.
  intros Ha HR. induction HR as [q pa m P Hok H|q pa P0 m P Hok HR IH H|q m0 P0 m P Hok HR IH H]; intros N.
  - unfold pstart in H. cbv zeta in H. destruct (_ =? 0); [injection H as <- <-; exfalso; now apply (N EZeroDiv)|].
    destruct (_ =? 0).
    + apply finish_ok in H; [|assumption]. apply restart_begin_eff in H. destruct H as (w & -> & B).
      rewrite (be_cv _ _ _ _ _ _ B). reflexivity.
    + destruct (current_gap _ _) as [g|e]; injection H as <- <-; reflexivity.
  - specialize (IH ltac:(intros e; discriminate)). unfold pstart in H. cbv zeta in H.
    destruct (_ =? 0); [injection H as <- <-; exfalso; now apply (N EZeroDiv)|].
    destruct (_ =? 0).
    + apply finish_ok in H; [|assumption]. apply restart_begin_eff in H. destruct H as (w & -> & B).
      rewrite (be_cv _ _ _ _ _ _ B). exact IH.
    + destruct (current_gap _ _) as [g|e]; injection H as <- <-; exact IH.
  - assert (N0 : no_error m0).
    { intros e ->. cbn in H. injection H as <- <-. now apply (N e). }
    specialize (IH N0).
    destruct m0 as [|b| | | |kind w| | |e] eqn:Em; cbn [pstep] in H.
    + destruct (loop_cond _ _ _ _); injection H as <- <-; exact IH.
    + destruct (ready _ _).
      * apply finish_ok in H; [|assumption]. destruct (take_eval _ _ _ _) eqn:E; cbn [bind] in H; [|discriminate].
        injection H as <- <-. apply take_eval_eff in E. destruct E; congruence.
      * destruct (_ <? _); injection H as <- <-; exact IH.
    + destruct (ready _ _).
      * apply finish_ok in H; [|assumption]. destruct (take_search _ _ _ _) eqn:E; cbn [bind] in H; [|discriminate].
        injection H as <- <-. apply take_search_eff in E. apply search_cv in E. congruence.
      * destruct (_ <=? _); injection H as <- <-; exact IH.
    + apply finish_ok in H; [|assumption]. apply plan_cv in H. congruence.
    + apply finish_ok in H; [|assumption]. apply plan2_cv in H; [congruence|exact Ha].
    + apply finish_ok in H; [|assumption]. unfold wait_step in H. cbv zeta in H.
      assert (X : restart_finish (base pc0) q kind w P0 = Ok (m, P) -> p_cv P = 0%nat).
      { intros E. apply restart_finish_eff in E. rewrite (fe_cv _ _ _ _ _ _ _ E). exact IH. }
      destruct (_ && _); [auto|]. destruct (ready _ _).
      * destruct (take_init _ _ _ _) as [[w' P1]|] eqn:E; cbn [bind fst snd] in H; [|discriminate].
        injection H as <- <-. apply take_init_eff in E. destruct E as [_ _ Ec _ _]. congruence.
      * destruct (_ <=? _); [auto|]. injection H as <- <-. exact IH.
    + apply finish_ok in H; [|assumption]. unfold final_step in H. destruct (pend (p_k P0)) as [|t0 r0]; [injection H as <- <-; exact IH|].
      cbv zeta in H. destruct (node_pos _); [discriminate|]. destruct (t_noisy t0); [destruct (errs _); discriminate|].
      destruct (current_gap _ _); cbn [bind] in H; [|discriminate]. injection H as <- <-. exact IH.
    + injection H as <- <-. exact IH.
    + injection H as <- <-. exfalso. now apply (N e).
Qed.
Lemma second_failure pc0 ok q P : rbf_auto pc0 = false -> preach pc0 ok PcPlan2 P ->
  i_lin_ok (q_inp q) = false ->
  (solve_underdetermined (C (p_s P)) = true \/ Z.of_nat (n_all P) < Z.of_nat (n (base pc0)) + 1) ->
  fst (pstep pc0 q PcPlan2 P) = PcCrash EIndex.
Proof.
  intros Ha HR Hl Hu. pose proof (cv_zero pc0 ok PcPlan2 P Ha HR ltac:(intros e; discriminate)) as Hc.
  cbn [pstep]. unfold plan2. rewrite (cross_off pc0 P Ha). cbv zeta. unfold linear_phase. cbv zeta. rewrite Hl, Hc.
  replace ((Z.of_nat (n (base pc0)) + 1 <=? Z.of_nat (n_all P)) && negb (solve_underdetermined (C (p_s P)))) with false.
  - reflexivity.
  - symmetry. apply andb_false_iff. destruct Hu as [->|Hu]; [right; reflexivity|left; apply Z.leb_gt; lia].
Qed.
