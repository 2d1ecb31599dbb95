(** * Budgets of the parallel optimizer: evaluations and iterations in one call. *)
From Verif Require Export ParCap.
Open Scope Z_scope.

Lemma pduring_reach pc0 ok pa P0 m P : may_call pc0 ok P0 -> pduring pc0 ok pa P0 m P -> preach pc0 ok m P.
Proof.
  intros H0 H. induction H as [q m P Hq H|q m P m' P' Hq _ IH H].
  - destruct H0 as [->|H0]; [eapply pr_start|eapply pr_again]; eauto.
  - eapply pr_step; eauto.
Qed.

Lemma pduring_inv pc0 (ok : pin -> Prop) pa P0 (Inv : pc -> pst -> Prop) : may_call pc0 ok P0 ->
  (forall q m P, ok q -> start_eff pc0 q pa P0 m P -> Inv m P) ->
  (forall q m P m' P', ok q -> Inv m P -> preach pc0 ok m P -> no_error m -> wait_idle m P -> wait_tasks m ->
     pstep pc0 q m P = (m', P') -> step_eff pc0 q m P m' P' -> Inv m' P') ->
  forall m P, pduring pc0 ok pa P0 m P -> no_error m -> Inv m P.
Proof.
  intros H0 H1 H2 m P HR. induction HR as [q m P Hok H|q m0 P1 m P Hok HR IH H]; intros N.
  - eapply H1; [eassumption|]. eapply pstart_effect; eassumption.
  - assert (N0 : no_error m0).
    { intros e ->. cbn in H. injection H as <- <-. now apply (N e). }
    pose proof (pduring_reach _ _ _ _ _ _ H0 HR) as HR1.
    eapply H2; [eassumption|apply IH; assumption|exact HR1|assumption| | |exact H|eapply pstep_effect; eassumption].
    + eapply idle_reach; eauto.
    + eapply wait_tasks_reach; eauto.
Qed.

(** Which restart follows which planning state. *)
Lemma plan_kind pc0 q P P' kind w : pstep pc0 q PcPlan P = (PcWait kind w, P') -> kind = WMid.
Proof.
  cbn [pstep]. unfold finish_step, plan. cbv zeta. destruct (skip_step _ _); [discriminate|].
  destruct (must_restart_parallel _ _); [|discriminate]. destruct (idle _); [|discriminate].
  destruct (restart_begin _ _ _ _) as [[m1 P1]|e] eqn:E; [|discriminate].
  apply restart_begin_eff in E. destruct E as (w' & -> & _). congruence.
Qed.
Lemma plan2_kind pc0 q P P' m : pstep pc0 q PcPlan2 P = (m, P') ->
  m <> PcPlan2 /\ forall kind w, m = PcWait kind w -> kind = WRest.
Proof.
  cbn [pstep]. unfold finish_step. destruct (plan2 pc0 q P) as [[m1 P1]|e] eqn:E.
  2: { intros H. injection H as <- <-. split; discriminate. }
  intros H. injection H as -> ->. revert E. unfold plan2. cbv zeta.
  destruct (linear_phase _ _ _) as [P1|P1|e]; [|intros H; injection H as <- <-; split; discriminate|discriminate].
  destruct (_ =? restoration_step _).
  - destruct (idle _); [|intros H; injection H as <- <-; split; discriminate].
    intros H. apply restart_begin_eff in H. destruct H as (w' & -> & _). split; [discriminate|congruence].
  - destruct (_ && _).
    + unfold plan_refinement. cbv zeta.
      match goal with |- bind ?x _ = _ -> _ => destruct x end; cbn [bind]; [|discriminate].
      destruct (_ && _); [discriminate|]. destruct (_ && _); [discriminate|].
      destruct (stale_all _ _); [discriminate|].
      destruct (negb _); intros H; injection H as <- <-; split; discriminate.
    + intros H; injection H as <- <-; split; discriminate.
Qed.

(** ** A bound on the outstanding tasks, initial points included *)
Definition small_wait (S : nat) (m : pc) : Prop :=
  forall kind w, m = PcWait kind w -> (length (w_pend w) <= S)%nat.
Definition load_inv (pc0 : pcfg) (S : nat) (m : pc) (P : pst) : Prop :=
  let k := p_k P in
  let N := num_cpus (base pc0) in
  small_wait S m /\
  match m with
  | PcPlan => load k < N
  | PcPlan2 => load k < N \/ load k <= Z.of_nat S
  | _ => load k <= Z.max N (Z.of_nat S + 1)
  end.

Lemma begin_small c q kind P w P' S : samples_upto S q -> begin_eff c q kind P w P' ->
  (length (w_pend w) <= S)%nat.
Proof.
  intros HS [(new & prev & nb & W1 & _ & _ & _ & _ & Hnew & _ & Hlen & _) _ _].
  rewrite W1, submit_from_length. destruct (i_samples (q_inp q)) as [pts|] eqn:E.
  - specialize (Hlen pts eq_refl). specialize (HS pts E). lia.
  - destruct new as [|p r]; [cbn; lia|]. destruct (Hnew p (or_introl eq_refl)) as (pts & E1 & _). congruence.
Qed.

Lemma load_zero k : pend k = [] -> srch k = [] -> load k = 0.
Proof. intros H1 H2. unfold load. now rewrite H1, H2. Qed.
Lemma load_nonneg k : 0 <= load k.
Proof. unfold load. lia. Qed.

Lemma start_load pc0 q pa P0 m P S : samples_upto S q -> start_eff pc0 q pa P0 m P -> load_inv pc0 S m P.
Proof.
  intros HS [w It -> B|It -> Es El En SL Eb Ei Ep Eg]; split.
  - intros k w' E. injection E as <- <-. eapply begin_small; eauto.
  - rewrite (be_k _ _ _ _ _ _ B). rewrite load_zero by reflexivity. lia.
  - discriminate.
  - rewrite load_zero; [lia| |]; [rewrite (sl_pend _ _ SL)|rewrite (sl_srch _ _ SL)]; reflexivity.
Qed.

Lemma load_reach pc0 (ok : pin -> Prop) S m P : (forall q, ok q -> samples_upto S q) ->
  preach pc0 ok m P -> no_error m -> load_inv pc0 S m P.
Proof.
  intros HS. apply (preach_inv2 pc0 ok (load_inv pc0 S)).
  - intros q pa m1 P1 Hq E. eapply start_load; eauto.
  - intros q pa P0 m1 P1 Hq _ _ E. eapply start_load; eauto.
  - intros q m1 P1 m2 P2 Hq (HW & H) HR N (WI & WD) WT [-> -> -> _| -> -> -> _|b -> -> Hm| -> -> Hm| -> -> ->|kind w w' -> -> -> Ew Hw|b j -> -> E|j -> -> E|Hm E|j kind w w' -> -> E|kind w -> E|t r -> -> Ep E| -> -> Ep ->];
      try (split; [discriminate|exact H]).
    + destruct Hm as [(-> & _)|(-> & _)]; (split; [discriminate|exact H]).
    + destruct Hm as [(-> & _)|(-> & L)]; (split; [discriminate|]); [exact H|exact L].
    + split; [|exact H]. intros k2 w2 E2. injection E2 as <- <-. subst w'. exact (HW _ _ eq_refl).
    + apply eval_counts in E. split; [discriminate|]. cbn in *. lia.
    + apply search_counts in E. split; [discriminate|]. cbn in *. lia.
    + assert (X : load (p_k P1) < num_cpus (base pc0) \/ load (p_k P1) <= Z.of_nat S).
      { destruct Hm as [->| ->]; cbn in H; auto. }
      destruct E as [k' Hm' Q1 It En El Ek SL Eb Elc|id bad k' -> Q1 It En El Ek I1 I2 SL Eb Eb2 Elc|kind w P0 Hk -> Hi Q1 It En El Ek B].
      * assert (Y : load k' = load (p_k P1)).
        { unfold load. rewrite (sl_pend _ _ SL), (sl_srch _ _ SL). auto. }
        subst k'. destruct Hm' as [->| ->]; (split; [discriminate|]); cbn; lia.
      * assert (Y : load k' = load (p_k P1) + 1).
        { unfold load. rewrite (sl_pend _ _ SL), (sl_srch _ _ SL). cbn [pend srch k_srch].
          rewrite app_length. cbn [length]. lia. }
        subst k'. split; [discriminate|]. cbn. lia.
      * apply idle_iff in Hi. destruct Hi as [Hi1 Hi2]. split.
        { intros k2 w2 E2. injection E2 as <- <-. eapply begin_small; eauto. }
        rewrite (be_k _ _ _ _ _ _ B), Ek. rewrite load_zero by assumption. lia.
    + split.
      { intros k2 w2 E2. injection E2 as <- <-. specialize (HW _ _ eq_refl).
        destruct E as [(t & v & el & eu & Ht & Ea & W1 & _) _ _ _ _]. rewrite W1.
        pose proof (nth_error_lt _ _ _ Ht). rewrite length_delete by assumption. lia. }
      rewrite (ie_k _ _ _ _ _ _ E). exact H.
    + destruct (WI _ _ eq_refl) as [Hi1 Hi2]. specialize (HW _ _ eq_refl).
      assert (Y : load (p_k P2) <= Z.of_nat S).
      { unfold load. rewrite (fe_pend _ _ _ _ _ _ _ E), (fe_srch _ _ _ _ _ _ _ E), Hi2. cbn. lia. }
      pose proof (fe_m _ _ _ _ _ _ _ E) as Em. destruct kind; subst m2; (split; [discriminate|]); cbn; lia.
    + split; [discriminate|]. cbn in *. unfold load in *. rewrite (fi_pend _ _ _ _ _ _ E), (fi_srch _ _ _ _ _ _ E).
      rewrite Ep in H. cbn [length] in H. lia.
Qed.

(** ** Noise *)
Definition quiet_world (m : pc) (P : pst) : Prop :=
  noisy_mode (C (p_s P)) = false /\
  Forall (fun t => t_noisy t = false) (pend (p_k P)) /\
  Forall (fun e => s_noisy e = false) (srch (p_k P)) /\
  (forall kind w, m = PcWait kind w -> Forall (fun t => t_noisy t = false) (w_pend w)).
Lemma mode_false s s' : quiet s s' -> noisy_mode (C s) = false -> noisy_mode (C s') = false.
Proof.
  intros Q H. destruct (noisy_mode (C s')) eqn:E; auto. apply (q_mode _ _ Q) in E. congruence.
Qed.
Lemma begin_accurate c q kind P w P' : begin_eff c q kind P w P' -> noisy_mode (C (p_s P)) = false ->
  Forall (fun t => t_noisy t = false) (w_pend w) /\ noisy_mode (C (p_s P')) = false.
Proof.
  intros [(new & prev & nb & W1 & _ & _ & _ & Hnb & _ & _ & _ & _ & _ & _ & HC & _) _ _] H.
  destruct nb; [rewrite Hnb in H by reflexivity; discriminate|]. rewrite W1, HC. split; [|exact H].
  destruct (submit_from_spec false new (p_next P)) as (_ & _ & F).
  eapply Forall_impl; [|exact F]. cbn. tauto.
Qed.
Lemma quiet_start pc0 q pa P0 m P : noisy_mode (C (p_s P0)) = false -> start_eff pc0 q pa P0 m P -> quiet_world m P.
Proof.
  intros H [w It -> B|It -> Es El En SL Eb Ei Ep Eg].
  - destruct (begin_accurate _ _ _ _ _ _ B H) as (A1 & A2). split; [exact A2|].
    rewrite (be_k _ _ _ _ _ _ B). split; [constructor|]. split; [constructor|].
    intros k w' E. injection E as <- <-. exact A1.
  - split; [now rewrite Es|]. rewrite (sl_pend _ _ SL), (sl_srch _ _ SL).
    split; [constructor|]. split; [constructor|discriminate].
Qed.
Lemma insert_mode p po v b e s : noisy_mode (C (insert_node p po v b e s)) = noisy_mode (C s).
Proof. reflexivity. Qed.

Lemma eval_quiet c q j P P' b b' : eval_eff_par c q j P P' -> quiet_world (PcEvals b) P -> quiet_world (PcEvals b') P'.
Proof.
  intros E (M & HP & HS & _).
  assert (HP' : Forall (fun t => t_noisy t = false) (delete_at j (pend (p_k P)))) by now apply Forall_delete.
  assert (HN : forall t, nth_error (pend (p_k P)) j = Some t -> t_noisy t = false).
  { intros t Ht. apply nth_error_In in Ht. rewrite Forall_forall in HP. auto. }
  destruct E as [t v el eu Ht Ea Nr Es Ecv En El Ek|t v el eu Ht Ea Hn Nr Hx Es Ecv En El Ek|t v el eu t' Ht Ea Hn Ht' Nr Hr Q It Ecv En El Ek|t v el eu Ht Ea Nr Hne Hr Q It Ecv En El SL Eb Elc].
  - destruct (popped_pend j (t_noisy t) (el, eu) (p_k P)) as (A & B & _).
    unfold quiet_world. rewrite Ek, A, B, Es. repeat split; auto; discriminate.
  - rewrite (HN t Ht) in Hn. discriminate.
  - rewrite (HN t Ht) in Hn. discriminate.
  - destruct (popped_pend j (t_noisy t) (el, eu) (p_k P)) as (A & B & _).
    unfold quiet_world. rewrite (sl_pend _ _ SL), (sl_srch _ _ SL), A, B.
    split; [|repeat split; auto; discriminate]. eapply mode_false; [exact Q|]. exact M.
Qed.

Lemma search_quiet c q j P P' : search_eff_par c q j P P' -> quiet_world PcSearches P -> quiet_world PcSearches P'.
Proof.
  intros E (M & HP & HS & _).
  assert (HS' : Forall (fun e => s_noisy e = false) (delete_at j (srch (p_k P)))) by now apply Forall_delete.
  destruct E as [e P1 He E1 ->|e p id P1 P2 He Hp E1 R U Hid Hz].
  - pose proof (discard_lists c (s_id e) P1) as SL. unfold quiet_world. rewrite (sl_pend _ _ SL), (sl_srch _ _ SL).
    subst P1. cbn [p_k set_k pend srch k_srch]. split; [|repeat split; auto; discriminate].
    destruct (s_id e); exact M.
  - assert (HN : s_noisy e = false).
    { apply nth_error_In in He. rewrite Forall_forall in HS. auto. }
    assert (X : pend (p_k P2) = pend (p_k P) /\ srch (p_k P2) = delete_at j (srch (p_k P)) /\
                noisy_mode (C (p_s P2)) = false).
    { subst P1. destruct R as [->|_ ->|jj s' _ Hr Es _ _ _ Ek]; [auto|auto|].
      apply remove_fields in Hr. destruct Hr as (_ & _ & _ & HC & _).
      split; [|split]; [destruct Ek as [->| ->]; reflexivity|destruct Ek as [->| ->]; reflexivity|].
      rewrite Es, HC. exact M. }
    destruct X as (X1 & X2 & X3).
    destruct U as [Q1 It Ecv En El SL Eb Elc|pp po jj v nz ee Ep Epo Hne N1 N2 Hl Hv Hzz Hee Q1 It Ecv En El SL Eb Elc|pp po Ep Epo Hne N1 N2 ->].
    + unfold quiet_world. rewrite (sl_pend _ _ SL), (sl_srch _ _ SL), X1, X2.
      split; [eapply mode_false; eauto|repeat split; auto; discriminate].
    + unfold quiet_world. rewrite (sl_pend _ _ SL), (sl_srch _ _ SL), X1, X2.
      split; [eapply mode_false; [exact Q1|exact X3]|repeat split; auto; discriminate].
    + unfold quiet_world, submit_point. cbn [p_k p_s note set_next set_k set_s pend srch k_push C set_C].
      rewrite X1, X2, HN. split; [exact X3|]. split; [|split; [auto|discriminate]].
      apply Forall_app. split; auto.
Qed.

Lemma quiet_reach pc0 ok m P : has_noisy (base pc0) = false -> preach pc0 ok m P -> no_error m -> quiet_world m P.
Proof.
  intros Hn. apply (preach_inv2 pc0 ok quiet_world).
  - intros q pa m1 P1 Hq E. eapply quiet_start; [|exact E]. exact Hn.
  - intros q pa P0 m1 P1 Hq (M & _) _ E. eapply quiet_start; [|exact E]. exact M.
  - intros q m1 P1 m2 P2 Hq (M & HP & HS & HW) HR N (WI & WD) WT [-> -> -> _| -> -> -> _|b -> -> Hm| -> -> Hm| -> -> ->|kind w w' -> -> -> Ew Hw|b j -> -> E|j -> -> E|Hm E|j kind w w' -> -> E|kind w -> E|t r -> -> Ep E| -> -> Ep ->];
      try (split; [|split; [|split]]; auto; discriminate).
    + destruct Hm as [(-> & _)|(-> & _)]; (split; [|split; [|split]]; auto; discriminate).
    + destruct Hm as [(-> & _)|(-> & _)]; (split; [|split; [|split]]; auto; discriminate).
    + split; [|split; [|split]]; auto. intros k2 w2 E2. injection E2 as <- <-. subst w'. exact (HW _ _ eq_refl).
    + eapply (eval_quiet _ _ _ _ _ b b); [exact E|]. split; [|split; [|split]]; auto; discriminate.
    + eapply search_quiet; [exact E|]. split; [|split; [|split]]; auto; discriminate.
    + destruct E as [k' Hm' Q1 It En El Ek SL Eb Elc|id bad k' -> Q1 It En El Ek I1 I2 SL Eb Eb2 Elc|kind w P0 Hk -> Hi Q1 It En El Ek B].
      * unfold quiet_world. rewrite Ek, (sl_pend _ _ SL), (sl_srch _ _ SL).
        split; [eapply mode_false; eauto|]. split; [auto|]. split; [auto|].
        destruct Hm' as [->| ->]; discriminate.
      * unfold quiet_world. rewrite Ek, (sl_pend _ _ SL), (sl_srch _ _ SL). cbn [pend srch k_srch].
        split; [eapply mode_false; eauto|]. split; [auto|]. split; [|discriminate].
        apply Forall_app. split; auto.
      * destruct (begin_accurate _ _ _ _ _ _ B (mode_false _ _ Q1 M)) as (A1 & A2).
        split; [exact A2|]. rewrite (be_k _ _ _ _ _ _ B), Ek. split; [auto|]. split; [auto|].
        intros k2 w2 E2. injection E2 as <- <-. exact A1.
    + destruct E as [(t & v & el & eu & Ht & Ea & W1 & _) Es _ _ Ek]. unfold quiet_world. rewrite Es, Ek.
      split; [auto|]. split; [auto|]. split; [auto|]. intros k2 w2 E2. injection E2 as <- <-. rewrite W1.
      apply Forall_delete. eapply HW; reflexivity.
    + pose proof (fe_m _ _ _ _ _ _ _ E) as Em.
      assert (Hm2 : not_wait m2) by (destruct kind; subst m2; discriminate).
      destruct (fe_ex _ _ _ _ _ _ _ E) as (usr & uevs & nu & rows & _ & _ & _ & _ & _ & _ & EC & _).
      unfold quiet_world. rewrite (fe_pend _ _ _ _ _ _ _ E), (fe_srch _ _ _ _ _ _ _ E), EC.
      split; [exact M|]. split; [eapply HW; reflexivity|]. split; [auto|].
      intros k2 w2 E2. exfalso. eapply Hm2; exact E2.
    + unfold quiet_world. rewrite (fi_pend _ _ _ _ _ _ E), (fi_srch _ _ _ _ _ _ E).
      split; [exact (mode_false _ _ (fi_s _ _ _ _ _ _ E) M)|].
      rewrite Ep in HP. split; [exact (Forall_inv_tail HP)|]. split; [exact HS|discriminate].
Qed.

(** ** Evaluations *)
Definition noisy_pend (k : ploc) : Z := Z.of_nat (length (filter t_noisy (pend k))).
Definition searching (k : ploc) : Z := Z.of_nat (length (srch k)).
(** Accurate evaluations made, plus tasks that may still lead to one. *)
Definition pot (P : pst) : Z := evalcount (C (p_s P)) + noisy_pend (p_k P) + searching (p_k P).

Lemma noisy_pend_nonneg k : 0 <= noisy_pend k. Proof. unfold noisy_pend. lia. Qed.
Lemma searching_nonneg k : 0 <= searching k. Proof. unfold searching. lia. Qed.
Lemma insert_ev p po v b e s : evalcount (C (insert_node p po v b e s)) = evalcount (C s).
Proof. reflexivity. Qed.

Lemma eval_pot c q j P P' : eval_eff_par c q j P P' -> pot P' <= pot P.
Proof.
  intros E. unfold pot.
  assert (HP : forall b e t, nth_error (pend (p_k P)) j = Some t ->
    noisy_pend (popped j b e (p_k P)) = noisy_pend (p_k P) - (if t_noisy t then 1 else 0) /\
    searching (popped j b e (p_k P)) = searching (p_k P)).
  { intros b e t Ht. destruct (popped_pend j b e (p_k P)) as (A & B & _).
    unfold noisy_pend, searching. rewrite A, B.
    pose proof (filter_delete_eq t_noisy _ _ _ Ht) as F. destruct (t_noisy t); lia. }
  destruct E as [t v el eu Ht Ea Nr Es Ecv En El Ek|t v el eu Ht Ea Hn Nr Hx Es Ecv En El Ek|t v el eu t' Ht Ea Hn Ht' Nr Hr Q It Ecv En El Ek|t v el eu Ht Ea Nr Hne Hr Q It Ecv En El SL Eb Elc].
  - destruct (HP (t_noisy t) (el, eu) t Ht) as (A & B). rewrite Es, Ek, A, B. destruct (t_noisy t); lia.
  - destruct (HP true (el, eu) t Ht) as (A & B). rewrite Es, Ek.
    change (noisy_pend (k_tabu _ ?k)) with (noisy_pend k). change (searching (k_tabu _ ?k)) with (searching k).
    rewrite A, B. destruct (t_noisy t); lia.
  - destruct (HP true (el, eu) t Ht) as (A & B). rewrite Ek, (q_ev _ _ Q).
    set (k1 := popped j true (el, eu) (p_k P)) in *.
    assert (X : noisy_pend (k_push t' (clip_val v (p_s P)) k1) = noisy_pend k1).
    { unfold noisy_pend. cbn [pend k_push]. rewrite filter_app. subst t'. cbn [filter t_noisy]. now rewrite app_nil_r. }
    change (searching (k_push t' (clip_val v (p_s P)) k1)) with (searching k1).
    rewrite X, A, B, Hn. cbn [C set_C evalcount add_evals]. lia.
  - destruct (HP (t_noisy t) (el, eu) t Ht) as (A & B). rewrite (q_ev _ _ Q), insert_ev.
    unfold noisy_pend, searching in *. rewrite (sl_pend _ _ SL), (sl_srch _ _ SL). destruct (t_noisy t); lia.
Qed.

Lemma search_pot c q j P P' : search_eff_par c q j P P' -> pot P' <= pot P.
Proof.
  intros [e P1 He E1 ->|e p id P1 P2 He Hp E1 R U Hid Hz]; unfold pot.
  - pose proof (discard_lists c (s_id e) P1) as SL.
    unfold noisy_pend, searching. rewrite (sl_pend _ _ SL), (sl_srch _ _ SL).
    replace (evalcount (C (p_s (discard_search c (s_id e) P1)))) with (evalcount (C (p_s P1))) by (destruct (s_id e); reflexivity).
    subst P1. cbn [p_s p_k set_k pend srch k_srch].
    pose proof (nth_error_lt _ _ _ He). rewrite length_delete by assumption. lia.
  - pose proof (nth_error_lt _ _ _ He) as HL.
    assert (X : pend (p_k P2) = pend (p_k P) /\ srch (p_k P2) = delete_at j (srch (p_k P)) /\
                evalcount (C (p_s P2)) = evalcount (C (p_s P))).
    { subst P1. destruct R as [->|_ ->|jj s' _ Hr Es _ _ _ Ek]; [auto|auto|].
      apply remove_fields in Hr. destruct Hr as (_ & _ & _ & HC & _).
      split; [|split]; [destruct Ek as [->| ->]; reflexivity|destruct Ek as [->| ->]; reflexivity|].
      now rewrite Es, HC. }
    destruct X as (X1 & X2 & X3).
    destruct U as [Q1 It Ecv En El SL Eb Elc|pp po jj v nz ee Ep Epo Hne N1 N2 Hl Hv Hzz Hee Q1 It Ecv En El SL Eb Elc|pp po Ep Epo Hne N1 N2 ->].
    + unfold noisy_pend, searching. rewrite (q_ev _ _ Q1), (sl_pend _ _ SL), (sl_srch _ _ SL), X1, X2, X3, length_delete by assumption. lia.
    + unfold noisy_pend, searching. rewrite (q_ev _ _ Q1), insert_ev, (sl_pend _ _ SL), (sl_srch _ _ SL), X1, X2, X3, length_delete by assumption. lia.
    + unfold noisy_pend, searching, submit_point. cbn [p_k p_s note set_next set_k set_s pend srch k_push C set_C].
      rewrite X1, X2, filter_app, app_length, length_delete by assumption. cbn [filter t_noisy].
      destruct (s_noisy e); cbn [length set_discarded evalcount add_evals]; lia.
Qed.

Lemma begin_evals c q kind P w P' S : samples_upto S q -> begin_eff c q kind P w P' ->
  evalcount (C (p_s P')) <= evalcount (C (p_s P)) + Z.of_nat S.
Proof.
  intros HS B. pose proof (begin_small _ _ _ _ _ _ _ HS B) as L.
  destruct B as [(new & prev & nb & W1 & _ & _ & _ & _ & _ & _ & _ & _ & _ & _ & HC & _) _ _].
  rewrite W1, submit_from_length in L. rewrite HC. cbn. destruct nb; lia.
Qed.
Lemma finish_evals c q kind w P m P' : finish_eff c q kind w P m P' ->
  evalcount (C (p_s P')) <= evalcount (C (p_s P)) + Z.of_nat (length (init_node_pos c)).
Proof.
  intros E. destruct (fe_ex _ _ _ _ _ _ _ E) as (usr & uevs & nu & rows & _ & U & _ & _ & _ & _ & EC & _ & _ & _).
  rewrite EC. cbn. pose proof (us_len _ _ _ _ _ _ U). pose proof (us_bound _ _ _ _ _ _ U). lia.
Qed.

Definition budget_inv (pc0 : pcfg) (S : nat) (L e0 : Z) (m : pc) (P : pst) : Prop :=
  let c := base pc0 in
  let U := Z.of_nat (length (init_node_pos c)) in
  let D := Z.of_nat S + U in
  let B0 := max_evaluations c - 1 + L in
  let ev := evalcount (C (p_s P)) in
  match m with
  | PcEvals _ | PcSearches | PcPlan => pot P <= B0
  | PcPlan2 => ev <= B0 + D
  | PcWait (WStart _) _ => ev <= e0 + Z.of_nat S
  | PcWait WMid _ => ev <= B0 + Z.of_nat S
  | PcWait WRest _ => ev <= B0 + D + Z.of_nat S
  | _ => ev <= Z.max (e0 + D) (B0 + 2 * D)
  end.

Lemma loop_cond_ev c s l b : loop_cond c s l b = true -> evalcount (C s) < max_evaluations c.
Proof.
  unfold loop_cond. intros H. repeat (apply andb_true_iff in H; destruct H as [H ?]).
  now apply Z.ltb_lt.
Qed.
Lemma loop_cond_it c s l b : loop_cond c s l b = true ->
  itercount (C s) < it_start l + pause l /\ itercount (C s) < max_iterations c.
Proof.
  unfold loop_cond. intros H. repeat (apply andb_true_iff in H; destruct H as [H ?]).
  rewrite Z.ltb_lt in *. lia.
Qed.

Ltac bred := unfold budget_inv in *; cbv beta iota zeta in *.
Lemma budget_during pc0 (ok : pin -> Prop) S L pa P0 m P : (forall q, ok q -> samples_upto S q) ->
  may_call pc0 ok P0 -> 0 <= L ->
  (forall m1 P1, preach pc0 ok m1 P1 -> no_error m1 -> noisy_pend (p_k P1) + searching (p_k P1) <= L) ->
  pduring pc0 ok pa P0 m P -> no_error m -> budget_inv pc0 S L (evalcount (C (p_s P0))) m P.
Proof.
  intros HS H0 HL0 HL. apply (pduring_inv pc0 ok pa P0 (budget_inv pc0 S L (evalcount (C (p_s P0)))) H0).
  - intros q m1 P1 Hq [w It -> B|It -> Es El En SL Eb Ei Ep Eg]; bred.
    + apply (begin_evals _ _ _ _ _ _ S (HS q Hq)) in B. exact B.
    + rewrite Es. lia.
  - intros q m1 P1 m2 P2 Hq H HR N (WI & WD) WT ES E0.
    pose proof (noisy_pend_nonneg (p_k P1)). pose proof (searching_nonneg (p_k P1)).
    assert (NP : evalcount (C (p_s P1)) <= pot P1) by (unfold pot; lia).
    destruct E0 as [-> -> -> Hc| -> -> -> _|b -> -> Hm| -> -> Hm| -> -> ->|kind w w' -> -> -> Ew Hw|b j -> -> E|j -> -> E|Hm E|j kind w w' -> -> E|kind w -> E|t r -> -> Ep E| -> -> Ep ->]; try exact H.
    + bred. apply loop_cond_ev in Hc. specialize (HL _ _ HR N). unfold pot. lia.
    + destruct Hm as [(-> & _)|(-> & _)]; bred; lia.
    + destruct Hm as [(-> & _)|(-> & _)]; bred; lia.
    + apply eval_pot in E. bred. lia.
    + apply search_pot in E. bred. lia.
    + assert (X : evalcount (C (p_s P1)) <= max_evaluations (base pc0) - 1 + L + (Z.of_nat S + Z.of_nat (length (init_node_pos (base pc0))))).
      { destruct Hm as [->| ->]; bred; lia. }
      assert (XI : m1 = PcPlan -> evalcount (C (p_s P1)) <= max_evaluations (base pc0) - 1 + L).
      { intros ->. bred. lia. }
      destruct E as [k' Hm' Q1 It En El Ek SL Eb Elc|id bad k' -> Q1 It En El Ek I1 I2 SL Eb Eb2 Elc|kind w P0' Hk -> Hi Q1 It En El Ek B].
      * pose proof (q_ev _ _ Q1). destruct Hm' as [->| ->]; bred; lia.
      * pose proof (q_ev _ _ Q1). bred. lia.
      * pose proof (q_ev _ _ Q1). pose proof (begin_evals _ _ _ _ _ _ S (HS q Hq) B).
        destruct Hm as [->| ->].
        -- apply plan_kind in ES. subst kind. specialize (XI eq_refl). bred; lia.
        -- apply plan2_kind in ES. destruct ES as [_ ES]. rewrite (ES _ _ eq_refl). bred. lia.
    + destruct E as [_ Es _ _ _]. destruct kind; bred; rewrite Es; exact H.
    + pose proof (finish_evals _ _ _ _ _ _ _ E) as F. pose proof (fe_m _ _ _ _ _ _ _ E) as Em.
      destruct kind; subst m2; bred; lia.
    + pose proof (q_ev _ _ (fi_s _ _ _ _ _ _ E)) as Ev. rewrite insert_ev in Ev. bred. lia.
Qed.

Lemma budget_weak pc0 S L e0 m P : 0 <= L -> no_error m -> budget_inv pc0 S L e0 m P ->
  evalcount (C (p_s P)) <= Z.max (e0 + (Z.of_nat S + Z.of_nat (length (init_node_pos (base pc0)))))
    (max_evaluations (base pc0) - 1 + L + 2 * (Z.of_nat S + Z.of_nat (length (init_node_pos (base pc0))))).
Proof.
  intros HL N H.
  pose proof (noisy_pend_nonneg (p_k P)). pose proof (searching_nonneg (p_k P)).
  assert (NP : evalcount (C (p_s P)) <= pot P) by (unfold pot; lia).
  destruct m as [|b| | | |[pa| |] w| | |e]; bred; try lia.
Qed.

Lemma extra_bound pc0 (ok : pin -> Prop) S m P : (forall q, ok q -> samples_upto S q) ->
  preach pc0 ok m P -> no_error m ->
  noisy_pend (p_k P) + searching (p_k P) <= Z.max (num_cpus (base pc0)) (Z.of_nat S + 1).
Proof.
  intros HS HR N. destruct (load_reach pc0 ok S m P HS HR N) as (_ & H).
  assert (X : noisy_pend (p_k P) + searching (p_k P) <= load (p_k P)).
  { unfold noisy_pend, searching, load.
    assert ((length (filter t_noisy (pend (p_k P))) <= length (pend (p_k P)))%nat).
    { generalize (pend (p_k P)). intros l. induction l as [|x r IH]; cbn; auto. destruct (t_noisy x); cbn; lia. }
    lia. }
  destruct m; lia.
Qed.
Lemma noisy_none ts : Forall (fun t => t_noisy t = false) ts -> filter t_noisy ts = [].
Proof. induction 1 as [|t r H _ IH]; cbn; auto. now rewrite H. Qed.
Lemma extra_quiet pc0 (ok : pin -> Prop) m P : has_noisy (base pc0) = false ->
  preach pc0 ok m P -> no_error m ->
  noisy_pend (p_k P) + searching (p_k P) <= Z.max (num_cpus (base pc0)) 1.
Proof.
  intros Hn HR N. destruct (quiet_reach pc0 ok m P Hn HR N) as (_ & HP & _).
  unfold noisy_pend. rewrite (noisy_none _ HP). cbn [length].
  pose proof (cap_reach pc0 ok m P HR N) as H.
  assert (X : searching (p_k P) <= load (p_k P) /\ searching (p_k P) <= other_load (p_k P)).
  { unfold searching, load, other_load. lia. }
  destruct m; cbn in H; lia.
Qed.

(** ** Iterations *)
Definition noisy_srch (k : ploc) : Z := Z.of_nat (length (filter s_noisy (srch k))).
Definition weight (k : ploc) : Z := load k + noisy_pend k + noisy_srch k.
Definition psi (P : pst) : Z := itercount (C (p_s P)) + weight (p_k P).
Lemma noisy_srch_nonneg k : 0 <= noisy_srch k. Proof. unfold noisy_srch. lia. Qed.
Lemma weight_nonneg k : 0 <= weight k.
Proof. unfold weight. pose proof (load_nonneg k). pose proof (noisy_pend_nonneg k). pose proof (noisy_srch_nonneg k). lia. Qed.

Lemma filter_le {A} (f : A -> bool) l : (length (filter f l) <= length l)%nat.
Proof. induction l as [|x r IH]; cbn; auto. destruct (f x); cbn; lia. Qed.
Lemma weight_load k : weight k <= 2 * load k.
Proof.
  unfold weight, noisy_pend, noisy_srch, load.
  pose proof (filter_le t_noisy (pend k)). pose proof (filter_le s_noisy (srch k)). lia.
Qed.
Lemma weight_same k k' : pend k' = pend k -> srch k' = srch k -> weight k' = weight k.
Proof. intros H1 H2. unfold weight, load, noisy_pend, noisy_srch. now rewrite H1, H2. Qed.

Lemma eval_psi c q j P P' : eval_eff_par c q j P P' -> psi P' <= psi P.
Proof.
  intros E. unfold psi.
  assert (HP : forall b e t, nth_error (pend (p_k P)) j = Some t ->
    weight (popped j b e (p_k P)) = weight (p_k P) - (if t_noisy t then 2 else 1)).
  { intros b e t Ht. destruct (popped_pend j b e (p_k P)) as (A & B & _).
    unfold weight, noisy_pend, noisy_srch, load. rewrite A, B.
    pose proof (nth_error_lt _ _ _ Ht). rewrite length_delete by assumption.
    pose proof (filter_delete_eq t_noisy _ _ _ Ht) as F. destruct (t_noisy t); lia. }
  destruct E as [t v el eu Ht Ea Nr Es Ecv En El Ek|t v el eu Ht Ea Hn Nr Hx Es Ecv En El Ek|t v el eu t' Ht Ea Hn Ht' Nr Hr Q It Ecv En El Ek|t v el eu Ht Ea Nr Hne Hr Q It Ecv En El SL Eb Elc].
  - pose proof (HP (t_noisy t) (el, eu) t Ht) as A. rewrite Es, Ek, A. destruct (t_noisy t); lia.
  - pose proof (HP true (el, eu) t Ht) as A. rewrite Es, Ek.
    change (weight (k_tabu _ ?k)) with (weight k). rewrite A. destruct (t_noisy t); lia.
  - pose proof (HP true (el, eu) t Ht) as A. rewrite Ek, It.
    set (k1 := popped j true (el, eu) (p_k P)) in *.
    assert (X : weight (k_push t' (clip_val v (p_s P)) k1) = weight k1 + 1).
    { unfold weight, load, noisy_pend, noisy_srch. cbn [pend srch k_push]. rewrite filter_app, !app_length.
      subst t'. cbn [filter t_noisy length]. lia. }
    rewrite X, A, Hn. lia.
  - pose proof (HP (t_noisy t) (el, eu) t Ht) as A. rewrite It.
    rewrite (weight_same (popped j (t_noisy t) (el, eu) (p_k P)) (p_k P') (sl_pend _ _ SL) (sl_srch _ _ SL)), A.
    destruct (t_noisy t); lia.
Qed.

Lemma search_psi c q j P P' : search_eff_par c q j P P' -> psi P' <= psi P.
Proof.
  intros E. unfold psi.
  assert (HP : forall e, nth_error (srch (p_k P)) j = Some e ->
    weight (k_srch (delete_at j (srch (p_k P))) (p_k P)) = weight (p_k P) - (if s_noisy e then 2 else 1)).
  { intros e He. unfold weight, noisy_pend, noisy_srch, load. cbn [pend srch k_srch].
    pose proof (nth_error_lt _ _ _ He). rewrite length_delete by assumption.
    pose proof (filter_delete_eq s_noisy _ _ _ He) as F. destruct (s_noisy e); lia. }
  destruct E as [e P1 He E1 ->|e p id P1 P2 He Hp E1 R U Hid Hz].
  - pose proof (HP e He) as A.
    rewrite (weight_same (p_k P1) (p_k (discard_search c (s_id e) P1))) by (destruct (s_id e); reflexivity).
    replace (itercount (C (p_s (discard_search c (s_id e) P1)))) with (itercount (C (p_s P1)) + 1) by (destruct (s_id e); reflexivity).
    subst P1. cbn [p_s p_k set_k]. rewrite A. destruct (s_noisy e); lia.
  - pose proof (HP e He) as A.
    assert (X : weight (p_k P2) = weight (p_k P) - (if s_noisy e then 2 else 1) /\
                itercount (C (p_s P2)) = itercount (C (p_s P))).
    { subst P1. destruct R as [->|_ ->|jj s' _ Hr Es _ _ _ Ek]; [auto|auto|].
      apply remove_fields in Hr. destruct Hr as (_ & _ & _ & HC & _).
      split; [destruct Ek as [->| ->]; exact A|]. now rewrite Es, HC. }
    destruct X as (X1 & X3).
    destruct U as [Q1 It Ecv En El SL Eb Elc|pp po jj v nz ee Ep Epo Hne N1 N2 Hl Hv Hzz Hee Q1 It Ecv En El SL Eb Elc|pp po Ep Epo Hne N1 N2 ->].
    + rewrite It, (weight_same (p_k P2) (p_k P') (sl_pend _ _ SL) (sl_srch _ _ SL)), X1, X3. destruct (s_noisy e); lia.
    + rewrite It, (weight_same (p_k P2) (p_k P') (sl_pend _ _ SL) (sl_srch _ _ SL)), X1, X3. destruct (s_noisy e); lia.
    + unfold submit_point. cbn [p_k p_s note set_next set_k set_s C set_C set_discarded itercount].
      assert (Y : forall t v k, weight (k_push t v k) = weight k + (if t_noisy t then 2 else 1)).
      { intros t v k. unfold weight, load, noisy_pend, noisy_srch. cbn [pend srch k_push].
        rewrite filter_app, !app_length. cbn [filter length]. destruct (t_noisy t); cbn [length]; lia. }
      rewrite Y. cbn [t_noisy]. rewrite X1.
      destruct (s_noisy e); cbn [itercount add_evals]; lia.
Qed.


Definition iter_inv (i0 pa lim W : Z) (m : pc) (P : pst) : Prop :=
  (in_loop m -> it_start (lc (p_k P)) = i0 /\ pause (lc (p_k P)) = pa) /\
  match m with
  | PcHead | PcFinal | PcDone => psi P <= Z.max (i0 + W) (lim - 1 + 2 * W)
  | PcEvals _ | PcSearches => psi P <= lim - 1 + W
  | PcPlan | PcPlan2 => itercount (C (p_s P)) <= lim - 1 + W
  | PcWait (WStart pa') _ => itercount (C (p_s P)) = i0 /\ pa' = pa
  | PcWait _ _ => itercount (C (p_s P)) <= lim - 1 + W
  | PcCrash _ => True
  end.
Ltac ired := unfold iter_inv in *; cbv beta iota zeta in *.

Lemma eval_loc c q j P P' : eval_eff_par c q j P P' ->
  it_start (lc (p_k P')) = it_start (lc (p_k P)) /\ pause (lc (p_k P')) = pause (lc (p_k P)).
Proof.
  assert (HP : forall b e, it_start (lc (popped j b e (p_k P))) = it_start (lc (p_k P)) /\
     pause (lc (popped j b e (p_k P))) = pause (lc (p_k P))) by (intros [] e; auto).
  intros [t v el eu Ht Ea Nr Es Ecv En El Ek|t v el eu Ht Ea Hn Nr Hx Es Ecv En El Ek|t v el eu t' Ht Ea Hn Ht' Nr Hr Q It Ecv En El Ek|t v el eu Ht Ea Nr Hne Hr Q It Ecv En El SL Eb Elc];
    try (rewrite Ek; exact (HP _ _)).
  destruct (HP (t_noisy t) (el, eu)). destruct Elc. split; congruence.
Qed.
Lemma search_loc c q j P P' : search_eff_par c q j P P' ->
  it_start (lc (p_k P')) = it_start (lc (p_k P)) /\ pause (lc (p_k P')) = pause (lc (p_k P)).
Proof.
  intros [e P1 He E1 ->|e p id P1 P2 He Hp E1 R U Hid Hz].
  - subst P1. destruct (s_id e); auto.
  - assert (X : lc (p_k P2) = lc (p_k P)).
    { subst P1. apply reeval_k in R. destruct R as [->| ->]; reflexivity. }
    destruct U as [Q1 It Ecv En El SL Eb Elc|pp po jj v nz ee Ep Epo Hne N1 N2 Hl Hv Hzz Hee Q1 It Ecv En El SL Eb Elc|pp po Ep Epo Hne N1 N2 ->].
    + rewrite Elc, X. auto.
    + rewrite X in Elc. exact Elc.
    + unfold submit_point. cbn. rewrite X. auto.
Qed.

Lemma begin_iter c q kind P w P' : begin_eff c q kind P w P' -> itercount (C (p_s P')) = itercount (C (p_s P)).
Proof.
  intros [(new & prev & nb & W1 & _ & _ & _ & _ & _ & _ & _ & _ & _ & _ & HC & _) _ _]. now rewrite HC.
Qed.
Lemma finish_iter c q kind w P m P' : finish_eff c q kind w P m P' -> itercount (C (p_s P')) = itercount (C (p_s P)).
Proof.
  intros E. destruct (fe_ex _ _ _ _ _ _ _ E) as (usr & uevs & nu & rows & _ & U & _ & _ & _ & _ & EC & _ & _ & _).
  now rewrite EC.
Qed.

Lemma iter_during pc0 (ok : pin -> Prop) W pa P0 m P :
  may_call pc0 ok P0 -> 0 <= W ->
  (forall m1 P1, preach pc0 ok m1 P1 -> no_error m1 -> weight (p_k P1) <= W) ->
  pduring pc0 ok pa P0 m P -> no_error m ->
  iter_inv (itercount (C (p_s P0))) pa (Z.min (itercount (C (p_s P0)) + pa) (max_iterations (base pc0))) W m P.
Proof.
  intros H0 HW0 HW. set (i0 := itercount (C (p_s P0))).
  set (lim := Z.min (i0 + pa) (max_iterations (base pc0))).
  apply (pduring_inv pc0 ok pa P0 (iter_inv i0 pa lim W) H0).
  - intros q m1 P1 Hq [w It -> B|It -> Es El En SL Eb Ei Ep Eg].
    + ired. rewrite (begin_iter _ _ _ _ _ _ B), (be_k _ _ _ _ _ _ B). cbn. auto.
    + ired. split; [auto|]. unfold psi. rewrite Es.
      replace (weight (p_k P1)) with 0; [unfold i0; lia|].
      rewrite (weight_same _ _ (sl_pend _ _ SL) (sl_srch _ _ SL)). reflexivity.
  - intros q m1 P1 m2 P2 Hq (HLc & H) HR N (WI & WD) WT ES E0.
    pose proof (weight_nonneg (p_k P1)) as WN.
    assert (NP : itercount (C (p_s P1)) <= psi P1) by (unfold psi; lia).
    assert (HR2 : no_error m2 -> weight (p_k P2) <= W).
    { intros N2. eapply HW; [|exact N2]. eapply pr_step; eauto. }
    destruct E0 as [-> -> -> Hc| -> -> -> _|b -> -> Hm| -> -> Hm| -> -> ->|kind w w' -> -> -> Ew Hw|b j -> -> E|j -> -> E|Hm E|j kind w w' -> -> E|kind w -> E|t r -> -> Ep E| -> -> Ep ->].
    + destruct HLc as [L1 L2]; [split; discriminate|].
      ired. split; [auto|]. apply loop_cond_it in Hc. specialize (HW _ _ HR N). unfold psi, lim. lia.
    + ired. split; [intros [X _]; congruence|]. exact H.
    + destruct HLc as [L1 L2]; [split; discriminate|].
      destruct Hm as [(-> & _)|(-> & _)]; ired; (split; [auto|]); lia.
    + destruct HLc as [L1 L2]; [split; discriminate|].
      destruct Hm as [(-> & _)|(-> & _)]; ired; (split; [auto|]); lia.
    + split; auto.
    + split; [intros _; apply HLc; split; discriminate|]. destruct kind; exact H.
    + destruct HLc as [L1 L2]; [split; discriminate|].
      pose proof (eval_loc _ _ _ _ _ E) as (M1 & M2).
      apply eval_psi in E. ired. split; [intros _; split; congruence|lia].
    + destruct HLc as [L1 L2]; [split; discriminate|].
      pose proof (search_loc _ _ _ _ _ E) as (M1 & M2).
      apply search_psi in E. ired. split; [intros _; split; congruence|lia].
    + assert (L : it_start (lc (p_k P1)) = i0 /\ pause (lc (p_k P1)) = pa).
      { apply HLc. destruct Hm; subst; split; discriminate. }
      assert (X : itercount (C (p_s P1)) <= lim - 1 + W) by (destruct Hm as [->| ->]; ired; lia).
      destruct E as [k' Hm' Q1 It En El Ek SL Eb Elc|id bad k' -> Q1 It En El Ek I1 I2 SL Eb Eb2 Elc|kind w P0' Hk -> Hi Q1 It En El Ek B].
      * split; [intros _; now rewrite Ek, Elc|].
        destruct Hm' as [->| ->]; ired; [|lia].
        unfold psi in *. assert (weight (p_k P2) <= W) by (apply HR2; discriminate). lia.
      * split; [intros _; now rewrite Ek, Elc|]. ired.
        unfold psi in *. assert (weight (p_k P2) <= W) by (apply HR2; discriminate). lia.
      * pose proof (begin_iter _ _ _ _ _ _ B) as BI.
        split; [intros _; rewrite (be_k _ _ _ _ _ _ B), Ek; exact L|].
        destruct Hk as [->| ->]; ired; lia.
    + destruct E as [_ Es _ _ Ek]. split.
      { intros _. rewrite Ek. apply HLc. split; discriminate. }
      destruct kind; ired; rewrite Es; exact H.
    + pose proof (finish_iter _ _ _ _ _ _ _ E) as F. pose proof (fe_m _ _ _ _ _ _ _ E) as Em.
      pose proof (fe_lc _ _ _ _ _ _ _ E) as Lc.
      assert (L : it_start (lc (p_k P1)) = i0 /\ pause (lc (p_k P1)) = pa) by (apply HLc; split; discriminate).
      destruct kind; subst m2; ired.
      * destruct H as [Hi ->]. destruct Lc as [L1 L2]. split; [intros _; split; congruence|].
        unfold psi in *. assert (weight (p_k P2) <= W) by (apply HR2; discriminate). lia.
      * split; [intros _; now rewrite Lc|]. lia.
      * split; [intros _; now rewrite Lc|].
        unfold psi in *. assert (weight (p_k P2) <= W) by (apply HR2; discriminate). lia.
    + ired. split; [intros [X _]; congruence|].
      assert (Y : weight (p_k P2) <= weight (p_k P1) - 1).
      { unfold weight, load, noisy_pend, noisy_srch.
        rewrite (fi_pend _ _ _ _ _ _ E), (fi_srch _ _ _ _ _ _ E), Ep. cbn [length filter].
        destruct (t_noisy t); cbn [length]; lia. }
      pose proof (fi_it _ _ _ _ _ _ E). unfold psi in *. lia.
    + ired. split; [intros [_ X]; congruence|]. exact H.
Qed.

Lemma iter_weak i0 pa lim W m P : 0 <= W -> no_error m -> iter_inv i0 pa lim W m P ->
  itercount (C (p_s P)) <= Z.max (i0 + W) (lim - 1 + 2 * W).
Proof.
  intros HW N (_ & H). pose proof (weight_nonneg (p_k P)).
  assert (NP : itercount (C (p_s P)) <= psi P) by (unfold psi; lia).
  destruct m as [|b| | | |[p| |] w| | |e]; ired; try lia. exfalso. now apply (N e).
Qed.
Lemma weight_bound pc0 (ok : pin -> Prop) S m P : (forall q, ok q -> samples_upto S q) ->
  preach pc0 ok m P -> no_error m -> weight (p_k P) <= 2 * Z.max (num_cpus (base pc0)) (Z.of_nat S + 1).
Proof.
  intros HS HR N. destruct (load_reach pc0 ok S m P HS HR N) as (_ & H).
  pose proof (weight_load (p_k P)). destruct m; lia.
Qed.
Lemma weight_quiet pc0 (ok : pin -> Prop) S m P : has_noisy (base pc0) = false ->
  (forall q, ok q -> samples_upto S q) -> preach pc0 ok m P -> no_error m ->
  weight (p_k P) <= Z.max (num_cpus (base pc0)) (Z.of_nat S + 1).
Proof.
  intros Hn HS HR N. destruct (load_reach pc0 ok S m P HS HR N) as (_ & H).
  destruct (quiet_reach pc0 ok m P Hn HR N) as (_ & HP & HQ & _).
  unfold weight, noisy_pend, noisy_srch. rewrite (noisy_none _ HP).
  assert (X : filter s_noisy (srch (p_k P)) = []).
  { clear -HQ. induction HQ as [|t r H _ IH]; cbn; auto. now rewrite H. }
  rewrite X. cbn [length]. destruct m; lia.
Qed.
