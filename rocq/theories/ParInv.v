(** * Invariants of the parallel machine. *)
From Coq Require Import Permutation.
From Verif Require Export ParEffects.
Open Scope Z_scope.

(** ** Steps and starts as effects *)
Inductive step_eff (pc0 : pcfg) (q : pin) (m : pc) (P : pst) (m' : pc) (P' : pst) : Prop :=
| SF_enter : m = PcHead -> m' = PcEvals (itercount (C (p_s P))) -> P' = P ->
    loop_cond (base pc0) (p_s P) (lc (p_k P)) (i_clock_ok (q_inp q)) = true ->
    step_eff pc0 q m P m' P'
| SF_leave : m = PcHead -> m' = PcFinal -> P' = P ->
    loop_cond (base pc0) (p_s P) (lc (p_k P)) (i_clock_ok (q_inp q)) = false ->
    step_eff pc0 q m P m' P'
| SF_evals_out b : m = PcEvals b -> P' = P ->
    (m' = PcHead /\ b < itercount (C (p_s P)) \/ m' = PcSearches /\ itercount (C (p_s P)) <= b) ->
    step_eff pc0 q m P m' P'
| SF_searches_out : m = PcSearches -> P' = P ->
    (m' = PcHead /\ num_cpus (base pc0) <= load (p_k P) \/
     m' = PcPlan /\ load (p_k P) < num_cpus (base pc0)) -> step_eff pc0 q m P m' P'
| SF_done : m = PcDone -> m' = PcDone -> P' = P -> step_eff pc0 q m P m' P'
| SF_sleep kind w w' : m = PcWait kind w -> m' = PcWait kind w' -> P' = P ->
    w' = mkWait (w_pend w) (w_got w) (w_need w) (w_prev w) false ->
    Z.of_nat (length (w_got w)) < w_need w -> step_eff pc0 q m P m' P'
| SF_eval b j : m = PcEvals b -> m' = PcEvals b -> eval_eff_par (base pc0) q j P P' ->
    step_eff pc0 q m P m' P'
| SF_search j : m = PcSearches -> m' = PcSearches -> search_eff_par (base pc0) q j P P' ->
    step_eff pc0 q m P m' P'
| SF_plan : (m = PcPlan \/ m = PcPlan2) -> plan_eff (base pc0) q P m' P' -> step_eff pc0 q m P m' P'
| SF_init j kind w w' : m = PcWait kind w -> m' = PcWait kind w' -> init_eff q j w P w' P' ->
    step_eff pc0 q m P m' P'
| SF_finish kind w : m = PcWait kind w -> finish_eff (base pc0) q kind w P m' P' ->
    step_eff pc0 q m P m' P'
| SF_final t r : m = PcFinal -> m' = PcFinal -> pend (p_k P) = t :: r ->
    final_eff (base pc0) q t r P P' -> step_eff pc0 q m P m' P'
| SF_end : m = PcFinal -> m' = PcDone -> pend (p_k P) = [] -> P' = P -> step_eff pc0 q m P m' P'.

Lemma finish_ok r P m' P' : finish_step r P = (m', P') -> no_error m' -> r = Ok (m', P').
Proof.
  unfold finish_step. destruct r as [x|e].
  - intros -> _. reflexivity.
  - intros H N. injection H as <- <-. exfalso. apply (N e). reflexivity.
Qed.

Lemma pstep_effect pc0 q m P m' P' : pstep pc0 q m P = (m', P') -> no_error m' ->
  step_eff pc0 q m P m' P'.
Proof.
  intros H N. unfold pstep in H. cbv zeta in H.
  destruct m as [|b| | | |kind w| | |e].
  - destruct (loop_cond _ _ _ _) eqn:E; injection H as <- <-.
    + now apply SF_enter.
    + now apply SF_leave.
  - destruct (ready q (pend (p_k P))) as [j|] eqn:Er.
    + apply finish_ok in H; [|assumption].
      destruct (take_eval _ _ _ _) as [P1|] eqn:E; cbn [bind] in H; [|discriminate].
      injection H as <- <-. eapply SF_eval; eauto. eapply take_eval_eff; eassumption.
    + destruct (Z.ltb_spec b (itercount (C (p_s P)))); injection H as <- <-;
        (eapply SF_evals_out; [reflexivity|reflexivity|]); auto.
  - destruct (ready q (srch (p_k P))) as [j|] eqn:Er.
    + apply finish_ok in H; [|assumption].
      destruct (take_search _ _ _ _) as [P1|] eqn:E; cbn [bind] in H; [|discriminate].
      injection H as <- <-. eapply SF_search; eauto. eapply take_search_eff; eassumption.
    + destruct (Z.leb_spec (num_cpus (base pc0)) (load (p_k P))); injection H as <- <-;
        (eapply SF_searches_out; [reflexivity|reflexivity|]); auto.
  - apply finish_ok in H; [|assumption]. apply plan_effect in H. apply SF_plan; auto.
  - apply finish_ok in H; [|assumption]. apply plan2_effect in H. apply SF_plan; auto.
  - apply finish_ok in H; [|assumption]. unfold wait_step in H. cbv zeta in H.
    destruct (Z.leb_spec (w_need w) (Z.of_nat (length (w_got w)))) as [L|L]; cbn [andb] in H.
    + destruct (w_inner w); cbn [negb] in H.
      * destruct (ready q (w_pend w)) as [j|].
        { destruct (take_init q j w P) as [[w' P1]|] eqn:E; cbn [bind fst snd] in H; [|discriminate].
          injection H as <- <-. eapply SF_init; eauto. apply take_init_eff. eassumption. }
        eapply SF_finish; eauto. now apply restart_finish_eff.
      * eapply SF_finish; eauto. now apply restart_finish_eff.
    + destruct (ready q (w_pend w)) as [j|].
      { destruct (take_init q j w P) as [[w' P1]|] eqn:E; cbn [bind fst snd] in H; [|discriminate].
        injection H as <- <-. eapply SF_init; eauto. apply take_init_eff. eassumption. }
      injection H as <- <-. eapply SF_sleep; eauto.
  - apply finish_ok in H; [|assumption]. apply final_effect in H.
    destruct H as [(E & -> & ->)|(t & r & E & -> & F)]; [now apply SF_end|eapply SF_final; eauto].
  - injection H as <- <-. now apply SF_done.
  - injection H as <- <-. exfalso. now apply (N e).
Qed.

Inductive start_eff (pc0 : pcfg) (q : pin) (pa : Z) (P0 : pst) (m : pc) (P : pst) : Prop :=
| ST_restart w : itercount (C (p_s P0)) = 0 -> m = PcWait (WStart pa) w ->
    begin_eff (base pc0) q (WStart pa) (set_k (empty_loc (base pc0) (p_s P0) pa) P0) w P ->
    start_eff pc0 q pa P0 m P
| ST_resume : itercount (C (p_s P0)) <> 0 -> m = PcHead -> p_s P = p_s P0 -> p_log P = p_log P0 ->
    p_next P = p_next P0 -> same_lists (empty_loc (base pc0) (p_s P0) pa) (p_k P) ->
    busy (p_k P) = false ->
    it_start (lc (p_k P)) = itercount (C (p_s P0)) -> pause (lc (p_k P)) = pa ->
    current_gap (base pc0) (p_s P0) = Ok (gap (lc (p_k P))) ->
    start_eff pc0 q pa P0 m P.

Lemma pstart_effect pc0 q pa P0 m P : pstart pc0 q pa P0 = (m, P) -> no_error m ->
  start_eff pc0 q pa P0 m P.
Proof.
  unfold pstart. cbv zeta. intros H N.
  destruct (refinement_frequency (base pc0) =? 0); [injection H as <- <-; exfalso; now apply (N EZeroDiv)|].
  destruct (itercount (C (p_s P0)) =? 0) eqn:E.
  - apply Z.eqb_eq in E. apply finish_ok in H; [|assumption].
    apply restart_begin_eff in H. destruct H as (w & -> & B). eapply ST_restart; eauto.
  - apply Z.eqb_neq in E. destruct (current_gap (base pc0) (p_s P0)) as [g|e] eqn:Eg; injection H as <- <-.
    + apply ST_resume; cbn; auto. constructor; reflexivity.
    + exfalso; now apply (N e).
Qed.

Lemma preach_inv pc0 (ok : pin -> Prop) (Inv : pc -> pst -> Prop) :
  (forall q pa m P, ok q -> start_eff pc0 q pa (pinit (base pc0)) m P -> Inv m P) ->
  (forall q pa P0 m P, ok q -> Inv PcDone P0 -> start_eff pc0 q pa P0 m P -> Inv m P) ->
  (forall q m P m' P', ok q -> Inv m P -> no_error m -> step_eff pc0 q m P m' P' -> Inv m' P') ->
  forall m P, preach pc0 ok m P -> no_error m -> Inv m P.
Proof.
  intros H1 H2 H3 m P HR. induction HR as [q pa m P Hok H|q pa P0 m P Hok HR IH H|q m0 P0 m P Hok HR IH H]; intros N.
  - eapply H1; [eassumption|]. eapply pstart_effect; eassumption.
  - eapply H2; [eassumption|apply IH; intros e; discriminate|]. eapply pstart_effect; eassumption.
  - assert (N0 : no_error m0).
    { intros e ->. cbn in H. injection H as <- <-. now apply (N e). }
    eapply H3; [eassumption|apply IH; assumption|assumption|]. eapply pstep_effect; eassumption.
Qed.

(** ** Lists and logs *)
Lemma perm_delete {A} (l : list A) : forall j x, nth_error l j = Some x ->
  Permutation l (x :: delete_at j l).
Proof.
  induction l as [|y r IH]; intros [|j] x H; cbn in *; try discriminate.
  - injection H as ->. apply Permutation_refl.
  - apply IH in H. rewrite H at 1. apply perm_swap.
Qed.
Lemma map_delete {A B} (f : A -> B) l : forall j, map f (delete_at j l) = delete_at j (map f l).
Proof. induction l as [|y r IH]; intros [|j]; cbn; auto. now rewrite IH. Qed.
Lemma length_delete {A} (l : list A) : forall j, (j < length l)%nat ->
  length (delete_at j l) = (length l - 1)%nat.
Proof. induction l as [|y r IH]; intros [|j] H; cbn in *; try lia. rewrite IH by lia. lia. Qed.
Lemma nth_error_lt {A} (l : list A) j x : nth_error l j = Some x -> (j < length l)%nat.
Proof. intros H. apply nth_error_Some. congruence. Qed.
Lemma length_delete_eq {A B} (l : list A) (k : list B) : forall j, length l = length k ->
  length (delete_at j l) = length (delete_at j k).
Proof.
  revert k. induction l as [|y r IH]; intros [|z t] [|j] H; cbn in *; try lia.
  f_equal. apply IH. lia.
Qed.

Lemma submitted_app a b : submitted (a ++ b) = submitted a ++ submitted b.
Proof. induction a as [|e r IH]; cbn; auto. destruct e; cbn; rewrite ?IH; auto. Qed.
Lemma settled_app a b : settled (a ++ b) = settled a ++ settled b.
Proof. induction a as [|e r IH]; cbn; auto. destruct e as [|?|[?|]| | |]; cbn; rewrite ?IH; auto. Qed.
Lemma acc_app a b : accurate_submissions (a ++ b) = accurate_submissions a + accurate_submissions b.
Proof.
  induction a as [|e r IH]; cbn [app]; [reflexivity|].
  destruct e as [? ? [] ?| | | | |]; cbn [accurate_submissions]; lia.
Qed.
Lemma noisy_app a b : noisy_submissions (a ++ b) = noisy_submissions a + noisy_submissions b.
Proof.
  induction a as [|e r IH]; cbn [app]; [reflexivity|].
  destruct e as [? ? [] ?| | | | |]; cbn [noisy_submissions]; lia.
Qed.
Lemma replay_app a b : forall h, replay (a ++ b) h = replay b (replay a h).
Proof. induction a as [|e r IH]; intros h; cbn; auto. destruct e; cbn; auto. Qed.

(** Logs of a restart. *)
Definition sub_log (ts : list task) : list pev :=
  map (fun t => PSubmit (t_ticket t) (t_at t) (t_noisy t) (t_id t)) ts.
Lemma sub_log_facts ts : submitted (sub_log ts) = map t_ticket ts /\ settled (sub_log ts) = [] /\
  (forall h, replay (sub_log ts) h = h).
Proof.
  induction ts as [|t r (A & B & D)]; [repeat split|].
  unfold sub_log in *. cbn [map submitted settled replay]. rewrite A, B. auto.
Qed.
Lemma sub_log_count noisy m pts :
  accurate_submissions (sub_log (submit_from m noisy pts)) = (if noisy then 0 else Z.of_nat (length pts)) /\
  noisy_submissions (sub_log (submit_from m noisy pts)) = (if noisy then Z.of_nat (length pts) else 0).
Proof.
  revert m. induction pts as [|p r IH]; intros m; cbn [submit_from sub_log map length].
  - destruct noisy; auto.
  - destruct (IH (S m)) as (A & B). fold (sub_log (submit_from (S m) noisy r)).
    cbn [t_ticket t_at t_noisy t_id accurate_submissions noisy_submissions].
    destruct noisy; cbn [accurate_submissions noisy_submissions]; lia.
Qed.

Lemma rows_log_facts (got : list (task * entry)) :
  let l := map (fun te => PRow (Some (t_ticket (fst te))) (e_pos (snd te)) (e_val (snd te))) got in
  submitted l = [] /\ settled l = map (fun te => t_ticket (fst te)) got /\
  accurate_submissions l = 0 /\ noisy_submissions l = 0 /\
  (forall h, replay l h = h ++ map (fun e => (e_pos e, e_val e)) (map snd got)).
Proof.
  cbv zeta. induction got as [|te r (A & B & D & E & F)];
    cbn [map submitted settled accurate_submissions noisy_submissions replay].
  - repeat split; auto. intros h. now rewrite app_nil_r.
  - rewrite A, B, D, E. repeat split; auto. intros h. now rewrite F, <- app_assoc.
Qed.
Lemma old_log_facts (es : list entry) :
  let l := map (fun e => PRow None (e_pos e) (e_val e)) es in
  submitted l = [] /\ settled l = [] /\ accurate_submissions l = 0 /\ noisy_submissions l = 0 /\
  (forall h, replay l h = h ++ map (fun e => (e_pos e, e_val e)) es).
Proof.
  cbv zeta. induction es as [|te r (A & B & D & E & F)]; cbn.
  - repeat split; auto. intros h. now rewrite app_nil_r.
  - rewrite A, B, D, E. repeat split; auto. intros h. now rewrite F, <- app_assoc.
Qed.
Lemma user_log_facts m usr : forall i,
  let l := flat_map (fun je => [PSubmit (m + fst je) (e_pos (snd je)) false SInit;
                            PAnswer (m + fst je) (e_val (snd je));
                            PRow (Some (m + fst je)%nat) (e_pos (snd je)) (e_val (snd je))])
                (indexed i usr) in
  submitted l = seq (m + i) (length usr) /\ settled l = seq (m + i) (length usr) /\
  accurate_submissions l = Z.of_nat (length usr) /\ noisy_submissions l = 0 /\
  (forall h, replay l h = h ++ map (fun e => (e_pos e, e_val e)) usr).
Proof.
  induction usr as [|e r IH]; intros i.
  - repeat split; auto. intros h. cbn. now rewrite app_nil_r.
  - destruct (IH (S i)) as (A & B & D & E & F). cbv zeta in *.
    cbn [indexed flat_map app fst snd submitted settled accurate_submissions noisy_submissions replay length seq].
    rewrite A, B, D, E. replace (m + S i)%nat with (S (m + i)) by lia.
    split; [reflexivity|]. split; [reflexivity|]. split; [lia|]. split; [reflexivity|].
    intros h. now rewrite F, <- app_assoc.
Qed.
Lemma user_log_all ev m usr :
  submitted (user_log ev m usr) = (if ev then seq m (length usr) else []) /\
  settled (user_log ev m usr) = (if ev then seq m (length usr) else []) /\
  accurate_submissions (user_log ev m usr) = (if ev then Z.of_nat (length usr) else 0) /\
  noisy_submissions (user_log ev m usr) = 0 /\
  (forall h, replay (user_log ev m usr) h = h ++ map (fun e => (e_pos e, e_val e)) usr).
Proof.
  unfold user_log. destruct ev.
  - pose proof (user_log_facts m usr 0) as H. cbv zeta in H. now rewrite Nat.add_0_r in H.
  - apply old_log_facts.
Qed.

(** ** C72: alignment of the pending lists *)
Definition lists_ok (k : ploc) : Prop :=
  tpos k = map t_pos (pend k) /\ tnoisy k = map t_noisy (pend k) /\ length (tval k) = length (pend k).

Lemma lists_same k k' : same_lists k k' -> lists_ok k -> lists_ok k'.
Proof. intros [A B D E F G] (H1 & H2 & H3). unfold lists_ok. now rewrite A, B, D, E. Qed.
Lemma lists_popped j b e k : lists_ok k -> lists_ok (popped j b e k).
Proof.
  intros (H1 & H2 & H3). unfold lists_ok.
  assert (E : pend (popped j b e k) = delete_at j (pend k) /\ tpos (popped j b e k) = delete_at j (tpos k) /\
              tval (popped j b e k) = delete_at j (tval k) /\ tnoisy (popped j b e k) = delete_at j (tnoisy k))
    by (destruct b; cbn; auto).
  destruct E as (-> & -> & -> & ->). rewrite H1, H2, !map_delete. repeat split; auto.
  now apply length_delete_eq.
Qed.
Lemma lists_push t v k : lists_ok k -> lists_ok (k_push t v k).
Proof.
  intros (H1 & H2 & H3). unfold lists_ok. cbn. rewrite H1, H2, !map_app, !app_length, H3. cbn. auto.
Qed.
Lemma lists_tabu l k : lists_ok k -> lists_ok (k_tabu l k).
Proof. intros H. exact H. Qed.
Lemma lists_srch l k : lists_ok k -> lists_ok (k_srch l k).
Proof. intros H. exact H. Qed.

Lemma lists_eval c q j P P' : eval_eff_par c q j P P' -> lists_ok (p_k P) -> lists_ok (p_k P').
Proof.
  intros E H. destruct E.
  - rewrite H7. now apply lists_popped.
  - rewrite H9. apply lists_tabu. now apply lists_popped.
  - rewrite H11. apply lists_push. now apply lists_popped.
  - eapply lists_same; [eassumption|]. now apply lists_popped.
Qed.
Lemma discard_lists c id P : same_lists (p_k P) (p_k (discard_search c id P)).
Proof. destruct id; constructor; reflexivity. Qed.
Lemma reeval_k c p P P' : reeval_eff c p P P' ->
  p_k P' = p_k P \/ p_k P' = k_tabu (tabu (p_k P) ++ [p]) (p_k P).
Proof. intros [E|Hn E|jj s' Hn Hr Es Ec Enx El Ek]; subst; auto. Qed.
Lemma use_lists c q p b id P P' : use_eff c q p b id P P' -> lists_ok (p_k P) -> lists_ok (p_k P').
Proof.
  intros [Q1 It Ecv En El SL Eb Elc|pp po jj v nz e Ep Epo Hne N1 N2 Hl Hv Hz He Q1 It Ecv En El SL Eb Elc|pp po Ep Epo Hne N1 N2 ->] H.
  - eapply lists_same; eauto.
  - eapply lists_same; eauto.
  - cbn. now apply lists_push.
Qed.
Lemma lists_search c q j P P' : search_eff_par c q j P P' -> lists_ok (p_k P) -> lists_ok (p_k P').
Proof.
  intros [e P1 He E1 ->|e p id P1 P2 He Hp E1 R U Hid Hz] H.
  - eapply lists_same; [apply discard_lists|]. subst P1. exact H.
  - eapply use_lists; [exact U|]. apply reeval_k in R. destruct R as [->| ->]; subst P1; exact H.
Qed.

Definition lists_inv (m : pc) (P : pst) : Prop := in_loop m -> lists_ok (p_k P).
Lemma lists_reach pc0 ok m P : preach pc0 ok m P -> no_error m -> lists_inv m P.
Proof.
  assert (HS : forall q pa P0 m P, start_eff pc0 q pa P0 m P -> lists_inv m P).
  { intros q pa P0 m1 P1 [w It -> B|It -> Es El En SL Eb Ei Ep Eg] _.
    - rewrite (be_k _ _ _ _ _ _ B). repeat split.
    - eapply lists_same; [exact SL|]. repeat split. }
  apply (preach_inv pc0 ok lists_inv); eauto.
  intros q m1 P1 m2 P2 _ H N [-> -> -> _| -> -> -> _|b -> -> Hm| -> -> Hm| -> -> ->|kind w w' -> -> -> Ew Hw|b j -> -> E|j -> -> E|Hm E|j kind w w' -> -> E|kind w -> E|t r -> -> Ep E| -> -> Ep ->] HL.
  - apply H. split; discriminate.
  - destruct HL; congruence.
  - apply H. split; discriminate.
  - apply H. split; discriminate.
  - destruct HL; congruence.
  - apply H. split; discriminate.
  - eapply lists_eval; [exact E|]. apply H. split; discriminate.
  - eapply lists_search; [exact E|]. apply H. split; discriminate.
  - assert (L : lists_ok (p_k P1)) by (apply H; destruct Hm; subst; split; discriminate).
    destruct E as [k' Hm' Q1 It En El Ek SL Eb Elc|id bad k' -> Q1 It En El Ek I1 I2 SL Eb Eb2 Elc|kind w P0 Hk -> Hi Q1 It En El Ek B].
    + rewrite Ek. eapply lists_same; eauto.
    + rewrite Ek. eapply lists_same; [exact SL|exact L].
    + rewrite (be_k _ _ _ _ _ _ B), Ek. exact L.
  - rewrite (ie_k _ _ _ _ _ _ E). apply H. split; discriminate.
  - unfold lists_ok. rewrite (fe_pend _ _ _ _ _ _ _ E), (fe_tpos _ _ _ _ _ _ _ E), (fe_tnoisy _ _ _ _ _ _ _ E), (fe_tval _ _ _ _ _ _ _ E). auto.
  - destruct HL; congruence.
  - destruct HL; congruence.
Qed.

(** ** Nothing else is pending while the machine waits for an initial sample *)
Definition wait_idle (m : pc) (P : pst) : Prop :=
  (forall kind w, m = PcWait kind w -> pend (p_k P) = [] /\ srch (p_k P) = []) /\
  (m = PcDone -> pend (p_k P) = []).
Lemma idle_iff k : idle k = true -> pend k = [] /\ srch k = [].
Proof.
  unfold idle. intros H. apply andb_true_iff in H. destruct H as [A B].
  apply Nat.eqb_eq in A, B. split; now apply length_zero_iff_nil.
Qed.
Lemma idle_reach pc0 ok m P : preach pc0 ok m P -> no_error m -> wait_idle m P.
Proof.
  assert (HS : forall q pa P0 m P, start_eff pc0 q pa P0 m P -> wait_idle m P).
  { intros q pa P0 m1 P1 [w It -> B|It -> Es El En SL Eb Ei Ep Eg].
    - split; [|discriminate]. intros kind w' E. rewrite (be_k _ _ _ _ _ _ B). split; reflexivity.
    - split; discriminate. }
  apply (preach_inv pc0 ok wait_idle); eauto.
  intros q m1 P1 m2 P2 _ (H1 & H2) N [-> -> -> _| -> -> -> _|b -> -> Hm| -> -> Hm| -> -> ->|kind w w' -> -> -> Ew Hw|b j -> -> E|j -> -> E|Hm E|j kind w w' -> -> E|kind w -> E|t r -> -> Ep E| -> -> Ep ->];
    try (split; discriminate).
  - destruct Hm as [(-> & _)|(-> & _)]; split; discriminate.
  - destruct Hm as [(-> & _)|(-> & _)]; split; discriminate.
  - split; [discriminate|auto].
  - split; [|discriminate]. intros k2 w2 E2. eauto.
  - destruct E as [k' Hm' Q1 It En El Ek SL Eb Elc|id bad k' -> Q1 It En El Ek I1 I2 SL Eb Eb2 Elc|kind w P0 Hk -> Hi Q1 It En El Ek B].
    + destruct Hm' as [->| ->]; split; discriminate.
    + split; discriminate.
    + split; [|discriminate]. intros k2 w2 _. rewrite (be_k _ _ _ _ _ _ B), Ek. now apply idle_iff.
  - split; [|discriminate]. intros k2 w2 _. rewrite (ie_k _ _ _ _ _ _ E). eapply H1; eauto.
  - pose proof (fe_m _ _ _ _ _ _ _ E) as Em. destruct kind; subst m2; split; discriminate.
  - split; [discriminate|auto].
Qed.

(** ** C73: conservation and counters *)
Record ledger (m : pc) (P : pst) : Prop := {
  lg_sub : submitted (p_log P) = seq 0 (p_next P);
  lg_perm : Permutation (outstanding m P ++ settled (p_log P)) (seq 0 (p_next P));
  lg_acc : evalcount (C (p_s P)) = accurate_submissions (p_log P);
  lg_noisy : noisy_evalcount (C (p_s P)) = noisy_submissions (p_log P);
  lg_pos : map fst (replay (p_log P) []) = all_pos (T (p_s P));
  lg_val : map snd (replay (p_log P) []) = all_val (T (p_s P)) }.

Lemma seq_snoc k : seq 0 (S k) = seq 0 k ++ [k].
Proof. now rewrite seq_S. Qed.

Lemma ledger_same m m' P P' : ledger m P -> outstanding m' P' = outstanding m P ->
  p_log P' = p_log P -> p_next P' = p_next P -> quiet (p_s P) (p_s P') -> ledger m' P'.
Proof.
  intros [A B D E F G] HO HL HN Q. constructor; rewrite ?HO, ?HL, ?HN; auto.
  - now rewrite (q_ev _ _ Q).
  - now rewrite (q_nev _ _ Q).
  - now rewrite (q_T _ _ Q).
  - now rewrite (q_T _ _ Q).
Qed.

Definition not_wait (m : pc) : Prop := forall k w, m <> PcWait k w.
Lemma outstanding_plain m P : not_wait m -> outstanding m P = map t_ticket (pend (p_k P)).
Proof.
  intros H. unfold outstanding. destruct m; rewrite ?app_nil_r; auto. exfalso. eapply H; reflexivity.
Qed.

Lemma popped_pend j b e k : pend (popped j b e k) = delete_at j (pend k) /\ srch (popped j b e k) = srch k /\
  tabu (popped j b e k) = tabu k.
Proof. destruct b; cbn; auto. Qed.

Lemma all_add p po v b e s s' : quiet (insert_node p po v b e s) s' ->
  all_pos (T s') = all_pos (T s) ++ [po] /\ all_val (T s') = all_val (T s) ++ [v] /\
  evalcount (C s') = evalcount (C s) /\ noisy_evalcount (C s') = noisy_evalcount (C s).
Proof.
  intros Q. rewrite (q_T _ _ Q), (q_ev _ _ Q), (q_nev _ _ Q). cbn. auto.
Qed.

(** A pending task is removed and settled. *)
Lemma perm_settle j t (l : list task) (s rest : list nat) :
  nth_error l j = Some t -> Permutation (map t_ticket l ++ s) rest ->
  Permutation (map t_ticket (delete_at j l) ++ s ++ [t_ticket t]) rest.
Proof.
  intros H HP. rewrite <- HP. rewrite (perm_delete l j t H) at 2. cbn.
  rewrite app_assoc. rewrite <- Permutation_cons_append. reflexivity.
Qed.

Lemma ledger_eval c q j P P' b b' : eval_eff_par c q j P P' -> ledger (PcEvals b) P -> ledger (PcEvals b') P'.
Proof.
  intros E [A B D F G H]. rewrite outstanding_plain in B by discriminate.
  assert (X1 : not_wait (PcEvals b')) by discriminate.
  destruct E as [t v el eu Ht Ea Nr Es Ecv En El Ek|t v el eu Ht Ea Hn Nr Hx Es Ecv En El Ek|t v el eu t' Ht Ea Hn Ht' Nr Hr Q It Ecv En El Ek|t v el eu Ht Ea Nr Hne Hr Q It Ecv En El SL Eb Elc].
  - constructor; rewrite ?(outstanding_plain _ _ X1), ?Es, ?En, ?El, ?submitted_app, ?settled_app, ?acc_app, ?noisy_app, ?replay_app; cbn; rewrite ?app_nil_r, ?Z.add_0_r; auto.
    rewrite Ek. destruct (popped_pend j (t_noisy t) (el, eu) (p_k P)) as (-> & _). now apply perm_settle.
  - constructor; rewrite ?(outstanding_plain _ _ X1), ?Es, ?En, ?El, ?submitted_app, ?settled_app, ?acc_app, ?noisy_app, ?replay_app; cbn; rewrite ?app_nil_r, ?Z.add_0_r; auto.
    rewrite Ek. cbn [pend k_tabu]. destruct (popped_pend j true (el, eu) (p_k P)) as (-> & _). now apply perm_settle.
  - constructor; rewrite ?(outstanding_plain _ _ X1), ?En, ?El, ?submitted_app, ?settled_app, ?acc_app, ?noisy_app, ?replay_app; cbn [submitted settled accurate_submissions noisy_submissions replay app]; rewrite ?app_nil_r, ?Z.add_0_r.
    + now rewrite A, seq_snoc.
    + rewrite Ek. cbn [pend k_push]. destruct (popped_pend j true (el, eu) (p_k P)) as (-> & _).
      rewrite map_app. subst t'. cbn [map t_ticket]. rewrite seq_snoc.
      rewrite <- (perm_settle j t _ _ _ Ht B). rewrite <- !app_assoc.
      apply Permutation_app_head. rewrite (app_assoc _ _ [p_next P]).
      apply Permutation_app_comm.
    + rewrite (q_ev _ _ Q). cbn. lia.
    + rewrite (q_nev _ _ Q). cbn. lia.
    + rewrite (q_T _ _ Q). exact G.
    + rewrite (q_T _ _ Q). exact H.
  - destruct (all_add _ _ _ _ _ _ _ Q) as (P1 & P2 & P3 & P4).
    constructor; rewrite ?(outstanding_plain _ _ X1), ?En, ?El, ?submitted_app, ?settled_app, ?acc_app, ?noisy_app, ?replay_app; cbn [submitted settled accurate_submissions noisy_submissions replay app]; rewrite ?app_nil_r, ?Z.add_0_r, ?P1, ?P2, ?P3, ?P4, ?map_app; cbn [map fst snd]; try congruence.
    rewrite (sl_pend _ _ SL). destruct (popped_pend j (t_noisy t) (el, eu) (p_k P)) as (-> & _). now apply perm_settle.
Qed.

Lemma ledger_reeval c p P P' : reeval_eff c p P P' -> ledger PcSearches P -> ledger PcSearches P'.
Proof.
  intros [->|Hn ->|jj s' Hn Hr Es Ecv En El Ek] L.
  - exact L.
  - destruct L as [A B D F G H]. constructor; auto.
  - destruct L as [A B D F G H].
    assert (X1 : not_wait PcSearches) by discriminate.
    rewrite outstanding_plain in B by discriminate.
    apply remove_fields in Hr. destruct Hr as (Hj & HT & _ & HC & _).
    assert (EP : pend (p_k P') = pend (p_k P)) by (destruct Ek as [->| ->]; reflexivity).
    constructor; rewrite ?(outstanding_plain _ _ X1), ?Es, ?EP, ?En, ?El, ?submitted_app, ?settled_app, ?acc_app, ?noisy_app, ?replay_app; cbn [submitted settled accurate_submissions noisy_submissions replay]; rewrite ?app_nil_r, ?Z.add_0_r; auto.
    + congruence.
    + congruence.
    + rewrite HT, map_delete, G. reflexivity.
    + rewrite HT, map_delete, H. reflexivity.
Qed.

Lemma ledger_use c q p b id P P' : use_eff c q p b id P P' -> ledger PcSearches P -> ledger PcSearches P'.
Proof.
  intros [Q1 It Ecv En El SL Eb Elc|pp po jj v nz e Ep Epo Hne N1 N2 Hl Hv Hz He Q1 It Ecv En El SL Eb Elc|pp po Ep Epo Hne N1 N2 ->] L;
  assert (X1 : not_wait PcSearches) by discriminate.
  - eapply ledger_same; eauto. rewrite !outstanding_plain by assumption. now rewrite (sl_pend _ _ SL).
  - destruct L as [A B D F G H]. rewrite outstanding_plain in B by discriminate.
    destruct (all_add _ _ _ _ _ _ _ Q1) as (P1 & P2 & P3 & P4).
    constructor; rewrite ?(outstanding_plain _ _ X1), ?(sl_pend _ _ SL), ?En, ?El, ?submitted_app, ?settled_app, ?acc_app, ?noisy_app, ?replay_app; cbn [submitted settled accurate_submissions noisy_submissions replay app]; rewrite ?app_nil_r, ?Z.add_0_r, ?P1, ?P2, ?P3, ?P4, ?map_app; cbn [map fst snd]; try congruence.
  - destruct L as [A B D F G H]. rewrite outstanding_plain in B by discriminate.
    unfold submit_point. cbv zeta.
    constructor; rewrite ?(outstanding_plain _ _ X1); cbn [p_k p_s p_log p_next note set_next set_k set_s pend k_push];
      rewrite ?submitted_app, ?settled_app, ?acc_app, ?noisy_app, ?replay_app; cbn [submitted settled accurate_submissions noisy_submissions replay]; rewrite ?app_nil_r; auto.
    + now rewrite A, seq_snoc.
    + rewrite map_app, seq_snoc. cbn [map t_ticket]. rewrite <- B, <- !app_assoc.
      apply Permutation_app_head. apply Permutation_app_comm.
    + destruct b; cbn; lia.
    + destruct b; cbn; lia.
Qed.

Lemma ledger_search c q j P P' : search_eff_par c q j P P' -> ledger PcSearches P -> ledger PcSearches P'.
Proof.
  intros [e P1 He E1 ->|e p id P1 P2 He Hp E1 R U Hid Hz] L.
  - assert (L1 : ledger PcSearches P1) by (subst P1; destruct L as [A B D F G H]; constructor; auto).
    eapply ledger_same; [exact L1|..].
    + destruct (s_id e); reflexivity.
    + destruct (s_id e); reflexivity.
    + destruct (s_id e); reflexivity.
    + destruct (s_id e); constructor; cbn; auto using same_incs_refl with zarith;
        exists []; rewrite app_nil_r; auto.
  - assert (L1 : ledger PcSearches P1) by (subst P1; destruct L as [A B D F G H]; constructor; auto).
    eapply ledger_use; [exact U|]. eapply ledger_reeval; eauto.
Qed.

Lemma ledger_begin c q kind P w P' m : begin_eff c q kind P w P' -> not_wait m -> pend (p_k P) = [] ->
  ledger m P -> ledger (PcWait kind w) P'.
Proof.
  intros [(new & prev & nb & W1 & W2 & W3 & W4 & Hnb & Hnew & Hprev & Hlen & ET & EI & ER & EC & EN & EL & _) Ecv Ek] X Hp [A B D F G H].
  rewrite outstanding_plain in B by assumption. rewrite Hp in B. cbn in B.
  fold (sub_log (w_pend w)) in EL. rewrite W1 in EL.
  destruct (sub_log_facts (submit_from (p_next P) nb new)) as (S1 & S2 & S3).
  destruct (sub_log_count nb (p_next P) new) as (S4 & S5).
  assert (SQ : seq 0 (p_next P + length new) = seq 0 (p_next P) ++ seq (p_next P) (length new)) by apply seq_app.
  constructor; rewrite ?EN, ?EL, ?submitted_app, ?settled_app, ?acc_app, ?noisy_app, ?replay_app, ?S1, ?S2, ?S3, ?S4, ?S5, ?app_nil_r, ?submit_from_tickets.
  - now rewrite SQ, A.
  - unfold outstanding. rewrite Ek, Hp, W1, W2. cbn [map app]. rewrite app_nil_r, submit_from_tickets, SQ.
    rewrite B. apply Permutation_app_comm.
  - rewrite EC. cbn. rewrite D. reflexivity.
  - rewrite EC. cbn. rewrite F. reflexivity.
  - rewrite ET. exact G.
  - rewrite ET. exact H.
Qed.

Lemma ledger_finish c q kind w P m P' : finish_eff c q kind w P m P' -> pend (p_k P) = [] ->
  ledger (PcWait kind w) P -> ledger m P'.
Proof.
  intros [(usr & uevs & nu & rows & Eu & U & Er & Hne & ET & EI & EC & EN & EL & HN) E1 E2 E3 E4 E5 E6 E7 E8 E9] Hp [A B D F G H].
  assert (X : not_wait m) by (destruct kind; subst m; discriminate).
  unfold outstanding in B. rewrite Hp in B. cbn [map app] in B.
  destruct (rows_log_facts (w_got w)) as (R1 & R2 & R3 & R4 & R5).
  destruct (old_log_facts (w_prev w)) as (O1 & O2 & O3 & O4 & O5).
  destruct (user_log_all (0 <? nu) (p_next P) usr) as (U1 & U2 & U3 & U4 & U5).
  assert (HR : replay (p_log P') [] = replay (p_log P) [] ++ map (fun e => (e_pos e, e_val e)) rows).
  { rewrite EL, !replay_app, R5, O5, U5, Er, !map_app, !app_assoc. reflexivity. }
  assert (SQ : seq 0 (p_next P') = seq 0 (p_next P) ++ (if 0 <? nu then seq (p_next P) (length usr) else [])).
  { rewrite EN. destruct (0 <? nu); [apply seq_app|now rewrite app_nil_r]. }
  constructor.
  - rewrite SQ, EL, !submitted_app, R1, O1, U1, A. reflexivity.
  - rewrite outstanding_plain by assumption. rewrite E1, SQ, EL, !settled_app, R2, O2, U2. cbn [app].
    rewrite <- B. rewrite !app_assoc. apply Permutation_app_tail.
    rewrite <- !app_assoc. apply Permutation_app_head. apply Permutation_app_comm.
  - rewrite EC, EL, !acc_app, R3, O3, U3. cbn. rewrite D.
    destruct (Z.ltb_spec 0 nu); destruct HN as [HN|HN]; lia.
  - rewrite EC, EL, !noisy_app, R4, O4, U4. cbn. lia.
  - rewrite HR, ET. cbn. rewrite map_app, map_map, G. reflexivity.
  - rewrite HR, ET. cbn. rewrite map_app, map_map, H. reflexivity.
Qed.

Lemma ledger_init_st c : ledger PcDone (pinit c).
Proof. constructor; cbn; auto. Qed.

Lemma ledger_start pc0 q pa P0 m P : ledger PcDone P0 -> start_eff pc0 q pa P0 m P ->
  pend (p_k P0) = [] -> ledger m P.
Proof.
  intros L E Hp. destruct E as [w It -> B|It -> Es El En SL Eb Ei Ep Eg].
  - eapply (ledger_begin _ _ _ _ _ _ PcDone); [exact B|discriminate|reflexivity|].
    destruct L as [A B' D F G H]. constructor; auto.
    unfold outstanding in *. rewrite Hp in B'. exact B'.
  - destruct L as [A B' D F G H]. constructor; rewrite ?Es, ?El, ?En; auto.
    unfold outstanding in *. rewrite (sl_pend _ _ SL). rewrite Hp in B'. exact B'.
Qed.

Lemma ledger_reach pc0 ok m P : preach pc0 ok m P -> no_error m -> ledger m P.
Proof.
  intros HR HN.
  assert (HB : wait_idle m P /\ ledger m P); [|tauto].
  revert m P HR HN. apply (preach_inv pc0 ok (fun m P => wait_idle m P /\ ledger m P)).
  - intros q pa m P _ E. split.
    + destruct E as [w It -> B|It -> Es El En SL Eb Ei Ep Eg]; split; try discriminate.
      intros kind w' _. rewrite (be_k _ _ _ _ _ _ B). split; reflexivity.
    + eapply ledger_start; [apply ledger_init_st|exact E|reflexivity].
  - intros q pa P0 m P _ ((_ & H2) & L) E. split.
    + destruct E as [w It -> B|It -> Es El En SL Eb Ei Ep Eg]; split; try discriminate.
      intros kind w' _. rewrite (be_k _ _ _ _ _ _ B). split; reflexivity.
    + eapply ledger_start; eauto.
  - intros q m P m' P' _ ((H1 & H2) & L) N E.
    assert (W : wait_idle m' P').
    { destruct E as [-> -> -> _| -> -> -> _|b -> -> Hm| -> -> Hm| -> -> ->|kind w w' -> -> -> Ew Hw|b j -> -> E|j -> -> E|Hm E|j kind w w' -> -> E|kind w -> E|t r -> -> Ep E| -> -> Ep ->];
        try (split; discriminate).
      - destruct Hm as [(-> & _)|(-> & _)]; split; discriminate.
      - destruct Hm as [(-> & _)|(-> & _)]; split; discriminate.
      - split; [discriminate|auto].
      - split; [|discriminate]. intros k2 w2 E2. eauto.
      - destruct E as [k' Hm' Q1 It En El Ek SL Eb Elc|id bad k' -> Q1 It En El Ek I1 I2 SL Eb Eb2 Elc|kind w P0 Hk -> Hi Q1 It En El Ek B].
        + destruct Hm' as [->| ->]; split; discriminate.
        + split; discriminate.
        + split; [|discriminate]. intros k2 w2 _. rewrite (be_k _ _ _ _ _ _ B), Ek. now apply idle_iff.
      - split; [|discriminate]. intros k2 w2 _. rewrite (ie_k _ _ _ _ _ _ E). eapply H1; eauto.
      - pose proof (fe_m _ _ _ _ _ _ _ E) as Em. destruct kind; subst m'; split; discriminate.
      - split; [discriminate|auto]. }
    split; [exact W|]. clear W.
    assert (PL : forall m1 m2, not_wait m1 -> not_wait m2 -> ledger m1 P -> ledger m2 P).
    { intros m1 m2 X1 X2 L1. eapply ledger_same; [exact L1|..]; auto using quiet_refl.
      now rewrite !outstanding_plain. }
    destruct E as [-> -> -> _| -> -> -> _|b -> -> Hm| -> -> Hm| -> -> ->|kind w w' -> -> -> Ew Hw|b j -> -> E|j -> -> E|Hm E|j kind w w' -> -> E|kind w -> E|t r -> -> Ep E| -> -> Ep ->].
    + eapply PL; [| |exact L]; discriminate.
    + eapply PL; [| |exact L]; discriminate.
    + eapply PL; [| |exact L]; [discriminate|]. destruct Hm as [(-> & _)|(-> & _)]; discriminate.
    + eapply PL; [| |exact L]; [discriminate|]. destruct Hm as [(-> & _)|(-> & _)]; discriminate.
    + exact L.
    + eapply ledger_same; [exact L|..]; auto using quiet_refl. subst w'. reflexivity.
    + eapply ledger_eval; eauto.
    + eapply ledger_search; eauto.
    + assert (X : not_wait m) by (destruct Hm; subst; discriminate).
      destruct E as [k' Hm' Q1 It En El Ek SL Eb Elc|id bad k' -> Q1 It En El Ek I1 I2 SL Eb Eb2 Elc|kind w P0 Hk -> Hi Q1 It En El Ek B].
      * eapply ledger_same; [exact L|..]; auto. rewrite !outstanding_plain; [|assumption|destruct Hm'; subst; discriminate].
        now rewrite Ek, (sl_pend _ _ SL).
      * eapply ledger_same; [exact L|..]; auto. rewrite !outstanding_plain; [|assumption|discriminate].
        now rewrite Ek, (sl_pend _ _ SL).
      * apply idle_iff in Hi. destruct Hi as [Hi1 Hi2].
        eapply ledger_begin; [exact B|exact X|rewrite Ek; exact Hi1|].
        eapply ledger_same; [exact L|..]; auto. rewrite !outstanding_plain by assumption. now rewrite Ek.
    + destruct (H1 _ _ eq_refl) as [Hp Hs]. destruct E as [(t & v & el & eu & Ht & Ea & W1 & W2 & W3 & W4 & EL) Es Ecv En Ek].
      destruct L as [A B D F G H].
      constructor; rewrite ?Es, ?En, ?EL, ?submitted_app, ?settled_app, ?acc_app, ?noisy_app, ?replay_app; cbn [submitted settled accurate_submissions noisy_submissions replay]; rewrite ?app_nil_r, ?Z.add_0_r; auto.
      unfold outstanding in *. rewrite Ek, Hp in *. cbn [map app] in *. rewrite W1, W2, map_app. cbn [map fst].
      rewrite <- B. rewrite (perm_delete _ _ _ Ht) at 2. cbn [map app].
      rewrite <- !app_assoc. cbn [app]. rewrite !app_assoc. symmetry. apply Permutation_middle.
    + destruct (H1 _ _ eq_refl) as [Hp Hs]. eapply ledger_finish; eauto.
    + destruct L as [A B D F G H]. rewrite outstanding_plain in B by discriminate.
      destruct E as [Ft Fne Fs Fit Fn Fl Fp Fsr Fb].
      destruct (all_add _ _ _ _ _ _ _ Fs) as (P1 & P2 & P3 & P4).
      assert (X1 : not_wait PcFinal) by discriminate.
      constructor; rewrite ?(outstanding_plain _ _ X1), ?Fp, ?Fn, ?Fl, ?submitted_app, ?settled_app, ?acc_app, ?noisy_app, ?replay_app; cbn [submitted settled accurate_submissions noisy_submissions replay app]; rewrite ?app_nil_r, ?Z.add_0_r, ?P1, ?P2, ?P3, ?P4, ?map_app; cbn [map fst snd]; try congruence.
      rewrite Ep in B. cbn [map app] in B. rewrite <- B. rewrite app_assoc. rewrite <- Permutation_cons_append. reflexivity.
    + eapply PL; [| |exact L]; discriminate.
Qed.
