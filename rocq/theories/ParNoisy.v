(** * Noisy evaluations of the parallel optimizer: budget and end of the phase (C145). *)
From Verif Require Export ParBudget AlgPhase.
From Coq Require Import Lia.
Open Scope Z_scope.

Definition nev (P : pst) : Z := noisy_evalcount (C (p_s P)).
Definition mode (P : pst) : bool := noisy_mode (C (p_s P)).

(** ** Where the phase is updated *)
Lemma end_limit c s s' : end_of_pass c s = Ok s' -> has_noisy c = true -> noisy_mode (C s') = true ->
  noisy_evalcount (C s') < max_noisy_evaluations c.
Proof.
  intros H Hn M. apply (end_phase _ _ _ H Hn) in M. destruct M as (_ & M). unfold noisy_phase_over in M. lia.
Qed.
Lemma phase_limit c s : has_noisy c = true -> noisy_mode (C (phase_update c s)) = true ->
  noisy_evalcount (C (phase_update c s)) < max_noisy_evaluations c.
Proof.
  intros Hn. unfold phase_update. rewrite Hn. cbn [andb].
  destruct (noisy_mode (C s)) eqn:Em; cbn [andb]; [|congruence].
  destruct (_ || _) eqn:E; cbn; [discriminate|]. intros _.
  apply orb_false_iff in E. destruct E as (_ & E). apply Z.leb_gt in E. exact E.
Qed.

Lemma take_eval_phase c q j P P' : has_noisy c = true -> take_eval c q j P = Ok P' -> mode P' = true ->
  (p_s P' = p_s P /\ exists t, nth_error (pend (p_k P)) j = Some t /\
     (near (min_dist c) (t_pos t) (node_pos (T (p_s P))) = true \/ tabu (p_k P) <> [])) \/
  nev P' < max_noisy_evaluations c.
Proof.
  intros Hn. unfold take_eval. destruct (nth_error (pend (p_k P)) j) as [t|] eqn:Et; [|discriminate].
  fold (answer_of q (t_noisy t)).
  destruct (answer_of q (t_noisy t)) as [[v el] eu] eqn:Ea.
  cbv zeta. fold (popped j (t_noisy t) (el, eu) (p_k P)).
  destruct (node_pos (T (p_s P))) as [|n0 nr] eqn:En; [discriminate|]. rewrite <- En in *.
  destruct (near (min_dist c) (t_pos t) (node_pos (T (p_s P)))) eqn:Enr.
  { intros H _; injection H as <-. left. split; [reflexivity|]. eauto. }
  destruct (t_noisy t && existsb _ _) eqn:Etb.
  { intros H _; injection H as <-. left. split; [reflexivity|]. exists t. split; [reflexivity|]. right.
    apply andb_true_iff in Etb. destruct Etb as (_ & Etb).
    destruct (popped_pend j (t_noisy t) (el, eu) (p_k P)) as (_ & _ & X). rewrite X in Etb.
    intros Y. rewrite Y in Etb. discriminate. }
  destruct (t_noisy t && require_accurate c (p_s P) (v + el)%Q).
  - cbn [bind]. intros H M.
    match type of H with bind ?x _ = _ => destruct x as [s'|] eqn:Ee end; cbn [bind] in H; [|discriminate].
    injection H as <-. right. exact (end_limit _ _ _ Ee Hn M).
  - destruct (current_gap c _) as [g|] eqn:Eg; cbn [bind]; [|discriminate].
    match goal with |- bind (bind ?x _) _ = _ -> _ => destruct x as [[s3 k3]|] eqn:Ex end;
      cbn [bind fst snd]; [|discriminate].
    intros H M.
    match type of H with bind ?x _ = _ => destruct x as [s'|] eqn:Ee end; cbn [bind] in H; [|discriminate].
    injection H as <-. right. exact (end_limit _ _ _ Ee Hn M).
Qed.

Lemma use_point_phase c q p0 noisy id P P' : has_noisy c = true -> use_point c q p0 noisy id P = Ok P' ->
  mode P' = true -> T (p_s P') = T (p_s P) \/ nev P' < max_noisy_evaluations c.
Proof.
  intros Hn. unfold use_point. cbv zeta. set (p := clip p0 (l_lower c) (l_upper c)).
  destruct (node_pos (T (p_s P))) as [|n0 nr] eqn:En; [discriminate|]. rewrite <- En in *. clear En.
  destruct (near _ _ _ || near _ _ _).
  - intros H _; injection H as <-. left. unfold discard_search. destruct id; reflexivity.
  - destruct (lookup_old c (T (p_s P)) (to_orig c p)) as [jj|].
    + destruct (noisy || negb _); [|intros H _; injection H as <-; left; reflexivity].
      unfold reuse_old. cbv zeta.
      match goal with |- bind ?x _ = _ -> _ => destruct x as [s1|] eqn:E1 end; cbn [bind]; [|discriminate].
      destruct (current_gap c _) as [g|]; cbn [bind]; [|discriminate].
      destruct (negb (iid_set (p_k P))); [discriminate|].
      destruct (save_state_interval c =? 0); [discriminate|].
      intros H M; injection H as <-. right. apply phase_limit; [exact Hn|exact M].
    + intros H _; injection H as <-. left. reflexivity.
Qed.

Lemma take_search_phase c q j P P' : has_noisy c = true -> take_search c q j P = Ok P' ->
  Forall (fun e => s_noisy e = true) (srch (p_k P)) -> mode P' = true ->
  T (p_s P') = T (p_s P) \/ nev P' < max_noisy_evaluations c.
Proof.
  intros Hn. unfold take_search. destruct (nth_error (srch (p_k P)) j) as [e|] eqn:Ee; [|discriminate].
  intros H HF M. rewrite Forall_forall in HF. pose proof (HF e (nth_error_In _ _ Ee)) as He. cbn beta in He.
  revert H. cbv zeta. set (P1 := set_k _ P). assert (X1 : T (p_s P1) = T (p_s P)) by reflexivity.
  destruct (s_bad e); [discriminate|].
  destruct (q_ans q) as [[p|] adj|p ind].
  - intros H. apply (use_point_phase _ _ _ _ _ _ _ Hn) in H; [|exact M]. rewrite X1 in H. exact H.
  - intros H; injection H as <-. left. unfold discard_search. destruct (s_id e); reflexivity.
  - rewrite He. cbn [negb]. rewrite andb_false_r.
    destruct (s_id e); intros H; apply (use_point_phase _ _ _ _ _ _ _ Hn) in H; try exact M; rewrite X1 in H; exact H.
Qed.

(** ** Noisy evaluations submitted by a restart *)
Lemma begin_noisy c q kind P m P' S : samples_upto S q -> restart_begin c q kind P = Ok (m, P') ->
  nev P' <= Z.max (nev P) (max_noisy_evaluations c - Z.of_nat (n c) - 2 + Z.of_nat S) /\
  (mode P = false -> nev P' = nev P) /\ mode P' = mode P.
Proof.
  intros HS. unfold restart_begin. cbv zeta. fold (mark (T (p_s P))). fold (bump_restarts (C (p_s P))).
  destruct (_ || _) eqn:Eb.
  - destruct (i_samples (q_inp q)) as [pts|] eqn:Es; [|discriminate].
    match goal with |- context [let (_, _) := ?x in _] => destruct x as [new prev] eqn:Er end.
    assert (HL : (length new <= S)%nat).
    { specialize (HS pts Es). destruct (_ =? 0)%nat; [injection Er as <- <-; exact HS|].
      apply remove_existing_spec in Er.
      destruct Er as (_ & Er & _). lia. }
    unfold restart_accurate. destruct (negb _ || _ || _) eqn:Ea; intros H; injection H as <- <-; unfold nev, mode; cbn.
    + split; [lia|]. split; [lia|reflexivity].
    + apply orb_false_iff in Ea. destruct Ea as (Ea & E3). apply orb_false_iff in Ea. destruct Ea as (E1 & _).
      apply negb_false_iff in E1. cbn in E1, E3. apply Z.leb_gt in E3. rewrite E1. split; [lia|]. split; [discriminate|reflexivity].
  - intros H; injection H as <- <-. unfold nev, mode. cbn. split; [lia|]. auto.
Qed.

Lemma plan_noisy pc0 q m P kind w P' S : samples_upto S q -> (m = PcPlan \/ m = PcPlan2) ->
  pstep pc0 q m P = (PcWait kind w, P') ->
  nev P' <= Z.max (nev P) (max_noisy_evaluations (base pc0) - Z.of_nat (n (base pc0)) - 2 + Z.of_nat S) /\
  (mode P = false -> nev P' = nev P).
Proof.
  intros HS [->| ->]; cbn [pstep]; unfold finish_step.
  - unfold plan. cbv zeta. destruct (skip_step _ _); [discriminate|].
    destruct (must_restart_parallel _ _); [|discriminate]. destruct (idle _); [|discriminate].
    destruct (restart_begin _ _ _ _) as [[m1 P1]|e] eqn:E; [|discriminate].
    intros H. apply pair_equal_spec in H. destruct H as (_ & H). subst P1.
    pose proof (begin_noisy _ _ _ _ _ _ _ HS E) as (A & B & _). auto.
  - destruct (plan2 pc0 q P) as [[m1 P1]|e] eqn:E; [|discriminate].
    intros H. apply pair_equal_spec in H. destruct H as (H & H'). subst m1 P1. revert E. unfold plan2. cbv zeta.
    destruct (linear_phase _ _ _) as [P1|P1|e] eqn:El; [|discriminate|discriminate].
    assert (X : nev P1 = nev P /\ mode P1 = mode P).
    { revert El. unfold linear_phase, cross_validate. cbv zeta.
      destruct (rbf_auto pc0 && _ && _ && _); destruct (i_lin_ok _); try (intros H; injection H as <-; split; reflexivity);
        (destruct (_ && _); [discriminate|]); (destruct (_ =? 0)%nat; [discriminate|]);
        intros H; injection H as <-; split; reflexivity. }
    destruct (_ =? restoration_step _).
    + destruct (idle _); [|discriminate].
      intros H. apply (begin_noisy _ _ _ _ _ _ _ HS) in H. destruct H as (A & B & _).
      unfold nev, mode in *. cbn [p_s set_s C set_C set_underdet noisy_evalcount noisy_mode] in *.
      destruct X as (X1 & X2). rewrite X1, X2 in *. auto.
    + destruct (_ && _).
      * unfold plan_refinement. cbv zeta.
        match goal with |- bind ?x _ = _ -> _ => destruct x end; cbn [bind]; [|discriminate].
        destruct (_ && _); [discriminate|]. destruct (_ && _); [discriminate|].
        destruct (stale_all _ _); [discriminate|]. destruct (negb _); discriminate.
      * discriminate.
Qed.
Lemma start_noisy pc0 q pa P0 m P S : samples_upto S q -> pstart pc0 q pa P0 = (m, P) -> no_error m ->
  nev P <= Z.max (nev P0) (max_noisy_evaluations (base pc0) - Z.of_nat (n (base pc0)) - 2 + Z.of_nat S) /\
  (mode P0 = false -> nev P = nev P0) /\ mode P = mode P0.
Proof.
  intros HS H N. unfold pstart in H. cbv zeta in H.
  destruct (refinement_frequency (base pc0) =? 0); [injection H as <- <-; exfalso; now apply (N EZeroDiv)|].
  destruct (itercount (C (p_s P0)) =? 0).
  - apply finish_ok in H; [|exact N]. exact (begin_noisy _ _ _ _ _ _ _ HS H).
  - destruct (current_gap (base pc0) (p_s P0)) as [g|e]; injection H as <- <-; [|exfalso; now apply (N e)].
    unfold nev, mode. cbn. split; [lia|]. auto.
Qed.

(** ** The invariant *)
Definition fresh (c : cfg) (P : pst) : Z :=
  Z.of_nat (length (filter (fun t => t_noisy t && negb (near (min_dist c) (t_pos t) (node_pos (T (p_s P))))) (pend (p_k P)))).
Definition noisy_inv (c : cfg) (K B : Z) (m : pc) (P : pst) : Prop :=
  (mode P = true ->
     Forall (fun e => s_noisy e = true) (srch (p_k P)) /\ tabu (p_k P) = [] /\
     match m with
     | PcFinal | PcDone => nev P - noisy_pend (p_k P) <= K
     | PcWait _ _ => nev P <= K
     | _ => nev P - fresh c P <= K
     end) /\
  (mode P = false -> nev P + noisy_srch (p_k P) <= B).

Lemma fresh_pend c P : 0 <= fresh c P <= noisy_pend (p_k P).
Proof.
  unfold fresh, noisy_pend. split; [lia|]. apply inj_le. induction (pend (p_k P)) as [|t r IH]; cbn [filter length]; [lia|].
  destruct (t_noisy t); cbn [andb]; [|exact IH]. destruct (negb _); cbn [length]; lia.
Qed.
Lemma noisy_load k : noisy_pend k + noisy_srch k <= load k.
Proof.
  unfold noisy_pend, noisy_srch, load. pose proof (filter_le t_noisy (pend k)). pose proof (filter_le s_noisy (srch k)). lia.
Qed.
Lemma fresh_same c P P' : T (p_s P') = T (p_s P) -> pend (p_k P') = pend (p_k P) -> fresh c P' = fresh c P.
Proof. intros H1 H2. unfold fresh. now rewrite H1, H2. Qed.
Lemma nsrch_same k k' : srch k' = srch k -> noisy_srch k' = noisy_srch k.
Proof. intros H. unfold noisy_srch. now rewrite H. Qed.

Lemma preach_inv3 pc0 (ok : pin -> Prop) (Inv : pc -> pst -> Prop) :
  (forall q pa m P, ok q -> pstart pc0 q pa (pinit (base pc0)) = (m, P) -> no_error m ->
     start_eff pc0 q pa (pinit (base pc0)) m P -> Inv m P) ->
  (forall q pa P0 m P, ok q -> Inv PcDone P0 -> pend (p_k P0) = [] -> pstart pc0 q pa P0 = (m, P) -> no_error m ->
     start_eff pc0 q pa P0 m P -> Inv m P) ->
  (forall q m P m' P', ok q -> Inv m P -> preach pc0 ok m P -> no_error m -> no_error m' -> wait_idle m P ->
     pstep pc0 q m P = (m', P') -> step_eff pc0 q m P m' P' -> Inv m' P') ->
  forall m P, preach pc0 ok m P -> no_error m -> Inv m P.
Proof.
  intros H1 H2 H3 m P HR. induction HR as [q pa m P Hok H|q pa P0 m P Hok HR IH H|q m0 P0 m P Hok HR IH H]; intros N.
  - eapply H1; [eassumption|exact H|exact N|]. eapply pstart_effect; eassumption.
  - eapply H2; [eassumption|apply IH; intros e; discriminate| |exact H|exact N|eapply pstart_effect; eassumption].
    eapply idle_reach; [exact HR|intros e; discriminate|reflexivity].
  - assert (N0 : no_error m0).
    { intros e ->. cbn in H. injection H as <- <-. now apply (N e). }
    eapply H3; [eassumption|apply IH; assumption|exact HR|assumption|exact N| |exact H|eapply pstep_effect; eassumption].
    eapply idle_reach; eauto.
Qed.

Lemma eval_ok pc0 q b P m' P' : pstep pc0 q (PcEvals b) P = (m', P') -> no_error m' -> m' = PcEvals b ->
  P' = P \/ exists j, take_eval (base pc0) q j P = Ok P'.
Proof.
  cbn [pstep]. destruct (ready _ _) as [j|].
  - intros H N _. apply finish_ok in H; [|exact N]. destruct (take_eval (base pc0) q j P) as [P1|e] eqn:E; cbn [bind] in H; [|discriminate].
    injection H as _ <-. right. eauto.
  - destruct (_ <? _); intros H; injection H as _ <-; auto.
Qed.
Lemma search_ok pc0 q P m' P' : pstep pc0 q PcSearches P = (m', P') -> no_error m' -> m' = PcSearches ->
  P' = P \/ exists j, take_search (base pc0) q j P = Ok P'.
Proof.
  cbn [pstep]. destruct (ready _ _) as [j|].
  - intros H N _. apply finish_ok in H; [|exact N]. destruct (take_search (base pc0) q j P) as [P1|e] eqn:E; cbn [bind] in H; [|discriminate].
    injection H as _ <-. right. eauto.
  - destruct (_ <=? _); intros H; injection H as _ <-; auto.
Qed.

Definition noisy_slack (c : cfg) (S : nat) : Z :=
  Z.max 0 (Z.max (max_noisy_evaluations c - 1) (max_noisy_evaluations c - Z.of_nat (n c) - 2 + Z.of_nat S)).

Lemma noisy_eval c q j P P' K B b : has_noisy c = true -> max_noisy_evaluations c - 1 <= K -> take_eval c q j P = Ok P' ->
  K + load (p_k P) <= B -> noisy_inv c K B (PcEvals b) P -> noisy_inv c K B (PcEvals b) P'.
Proof.
  intros Hn HK H HL (H1 & H2).
  pose proof (take_eval_phase _ _ _ _ _ Hn H) as PH. pose proof (take_eval_eff _ _ _ _ _ H) as E.
  assert (X : nev P' = nev P /\ srch (p_k P') = srch (p_k P) /\ (mode P' = true -> mode P = true) /\
              (tabu (p_k P) = [] -> tabu (p_k P') = [])).
  { unfold nev, mode. destruct E as [t v el eu Ht Ea Nr Es Ecv En El Ek|t v el eu Ht Ea Hnn Nr Hx Es Ecv En El Ek|t v el eu t' Ht Ea Hnn Ht' Nr Hr Q It Ecv En El Ek|t v el eu Ht Ea Nr Hne Hr Q It Ecv En El SL Eb Elc].
    - destruct (popped_pend j (t_noisy t) (el, eu) (p_k P)) as (X1 & X2 & X3). rewrite Es, Ek, X2, X3. auto.
    - destruct (popped_pend j true (el, eu) (p_k P)) as (X1 & X2 & X3). rewrite Es, Ek. cbn [srch tabu k_tabu]. rewrite X2.
      split; [reflexivity|]. split; [reflexivity|]. split; [auto|]. intros Y. rewrite Y in Hx. discriminate.
    - destruct (popped_pend j true (el, eu) (p_k P)) as (X1 & X2 & X3). rewrite Ek. cbn [srch tabu k_push]. rewrite X2, X3.
      split; [rewrite (q_nev _ _ Q); cbn; lia|]. split; [reflexivity|]. split; [exact (q_mode _ _ Q)|auto].
    - destruct (popped_pend j (t_noisy t) (el, eu) (p_k P)) as (X1 & X2 & X3).
      rewrite (sl_srch _ _ SL), (sl_tabu _ _ SL), X2, X3.
      split; [exact (q_nev _ _ Q)|]. split; [reflexivity|]. split; [exact (q_mode _ _ Q)|auto]. }
  destruct X as (X1 & X2 & X3 & X4). pose proof (noisy_load (p_k P)) as NL. pose proof (fresh_pend c P) as FP.
  pose proof (fresh_pend c P') as FP'.
  split; intros M.
  - destruct (H1 (X3 M)) as (A1 & A2 & A3). rewrite X2. split; [exact A1|]. split; [exact (X4 A2)|].
    destruct (PH M) as [(Y1 & t & Y2 & [Y3|Y3])|Y]; [|contradiction|lia].
    rewrite X1. assert (F : fresh c P' = fresh c P); [|lia].
    unfold fresh. rewrite Y1.
    assert (EP : pend (p_k P') = delete_at j (pend (p_k P))).
    { destruct E as [t1 v el eu Ht Ea Nr Es Ecv En El Ek|t1 v el eu Ht Ea Hnn Nr Hx Es Ecv En El Ek|t1 v el eu t' Ht Ea Hnn Ht' Nr Hr Q It Ecv En El Ek|t1 v el eu Ht Ea Nr Hne Hr Q It Ecv En El SL Eb Elc];
        try congruence.
      destruct (popped_pend j (t_noisy t1) (el, eu) (p_k P)) as (Z1 & _). now rewrite Ek, Z1. }
    rewrite EP. f_equal.
    pose proof (filter_delete_eq (fun t => t_noisy t && negb (near (min_dist c) (t_pos t) (node_pos (T (p_s P))))) _ _ _ Y2) as FD.
    cbn beta in FD. rewrite Y3, andb_false_r in FD. lia.
  - rewrite X1, (nsrch_same _ _ X2). destruct (mode P) eqn:M0; [|exact (H2 eq_refl)].
    destruct (H1 eq_refl) as (_ & _ & A3). lia.
Qed.

Lemma noisy_search c q j P P' K B : has_noisy c = true -> max_noisy_evaluations c - 1 <= K -> take_search c q j P = Ok P' ->
  K + load (p_k P) <= B -> noisy_inv c K B PcSearches P -> noisy_inv c K B PcSearches P'.
Proof.
  intros Hn HK H HL (H1 & H2).
  pose proof (take_search_phase _ _ _ _ _ Hn H) as PH. pose proof (take_search_eff _ _ _ _ _ H) as E.
  (* either nothing is submitted, or one evaluation of the kind of the search *)
  assert (X : exists e, nth_error (srch (p_k P)) j = Some e /\ srch (p_k P') = delete_at j (srch (p_k P)) /\
     (mode P' = true -> mode P = true) /\ (s_noisy e = true -> tabu (p_k P') = tabu (p_k P)) /\
     ((nev P' = nev P /\ pend (p_k P') = pend (p_k P)) \/
      (exists t, pend (p_k P') = pend (p_k P) ++ [t] /\ t_noisy t = s_noisy e /\
         nev P' = nev P + (if s_noisy e then 1 else 0) /\
         (s_noisy e = true -> T (p_s P') = T (p_s P) /\ near (min_dist c) (t_pos t) (node_pos (T (p_s P))) = false)))).
  { unfold nev, mode. destruct E as [e P1 He E1 ->|e p id P1 P2 He Hp E1 R U Hid Hz].
    - exists e. split; [exact He|]. pose proof (discard_lists c (s_id e) P1) as SL.
      rewrite (sl_pend _ _ SL), (sl_srch _ _ SL), (sl_tabu _ _ SL). subst P1.
      split; [reflexivity|]. split; [destruct (s_id e); auto|]. split; [reflexivity|]. left. destruct (s_id e); auto.
    - exists e. split; [exact He|].
      assert (X : pend (p_k P2) = pend (p_k P) /\ srch (p_k P2) = delete_at j (srch (p_k P)) /\
        C (p_s P2) = C (p_s P) /\ (s_noisy e = true -> tabu (p_k P2) = tabu (p_k P) /\ T (p_s P2) = T (p_s P))).
      { assert (Z : s_noisy e = true -> tabu (p_k P2) = tabu (p_k P) /\ T (p_s P2) = T (p_s P)).
        { intros Y. destruct Hz as [->|Hz]; [|congruence]. subst P1. auto. }
        subst P1. destruct R as [->|_ ->|jj s' _ Hr Es _ _ _ Ek]; [auto|auto|].
        apply remove_fields in Hr. destruct Hr as (_ & _ & _ & HC & _).
        split; [destruct Ek as [->| ->]; reflexivity|]. split; [destruct Ek as [->| ->]; reflexivity|].
        split; [now rewrite Es, HC|exact Z]. }
      destruct X as (X1 & X2 & X3 & X4).
      destruct U as [Q1 It Ecv En El SL Eb Elc|pp po jj v nz ee Ep Epo Hne N1 N2 Hl Hv Hzz Hee Q1 It Ecv En El SL Eb Elc|pp po Ep Epo Hne N1 N2 ->].
      + rewrite (sl_pend _ _ SL), (sl_srch _ _ SL), (sl_tabu _ _ SL), X1, X2, <- X3.
        split; [reflexivity|]. split; [exact (q_mode _ _ Q1)|]. split; [intros Y; apply X4; exact Y|].
        left. split; [exact (q_nev _ _ Q1)|reflexivity].
      + rewrite (sl_pend _ _ SL), (sl_srch _ _ SL), (sl_tabu _ _ SL), X1, X2, <- X3.
        split; [reflexivity|]. split; [exact (q_mode _ _ Q1)|]. split; [intros Y; apply X4; exact Y|].
        left. split; [exact (q_nev _ _ Q1)|reflexivity].
      + unfold submit_point. cbn [p_k p_s note set_next set_k set_s pend srch tabu k_push C set_C]. rewrite X1, X2.
        split; [reflexivity|]. split; [rewrite <- X3; destruct (s_noisy e); auto|].
        split; [intros Y; apply X4; exact Y|]. right. eexists. split; [reflexivity|]. split; [reflexivity|].
        rewrite <- X3. split; [destruct (s_noisy e); cbn; lia|].
        intros Y. destruct (X4 Y) as (_ & X5). rewrite <- X5. split; [reflexivity|]. exact N1. }
  destruct X as (e & He & X2 & X3 & X4 & X5).
  pose proof (noisy_load (p_k P)) as NL. pose proof (fresh_pend c P) as FP. pose proof (fresh_pend c P') as FP'.
  pose proof (filter_delete_eq s_noisy _ _ _ He) as FD.
  assert (NS : noisy_srch (p_k P') = noisy_srch (p_k P) - (if s_noisy e then 1 else 0)).
  { unfold noisy_srch. rewrite X2. destruct (s_noisy e); lia. }
  split; intros M.
  - destruct (H1 (X3 M)) as (A1 & A2 & A3).
    assert (Hs : s_noisy e = true) by (rewrite Forall_forall in A1; exact (A1 e (nth_error_In _ _ He))).
    rewrite X2, (X4 Hs). split; [now apply Forall_delete|]. split; [exact A2|].
    destruct (PH A1 M) as [Y|Y]; [|lia].
    destruct X5 as [(Y1 & Y2)|(t & Y1 & Y2 & Y3 & Y4)].
    + rewrite Y1, (fresh_same _ _ _ Y Y2). exact A3.
    + destruct (Y4 Hs) as (_ & Y5). rewrite Y3, Hs.
      assert (F : fresh c P' = fresh c P + 1); [|lia].
      unfold fresh. rewrite Y, Y1, filter_app, app_length. cbn [filter]. rewrite Y2, Hs, Y5. cbn [andb negb length]. lia.
  - rewrite NS. destruct X5 as [(Y1 & _)|(t & _ & _ & Y3 & _)].
    + rewrite Y1. destruct (mode P) eqn:M0; [destruct (H1 eq_refl) as (_ & _ & A3)|specialize (H2 eq_refl)]; destruct (s_noisy e); lia.
    + rewrite Y3. destruct (mode P) eqn:M0; [destruct (H1 eq_refl) as (_ & _ & A3)|specialize (H2 eq_refl)]; destruct (s_noisy e); lia.
Qed.

Lemma noisy_reach pc0 (ok : pin -> Prop) S m P : has_noisy (base pc0) = true ->
  (forall q, ok q -> samples_upto S q) -> preach pc0 ok m P -> no_error m ->
  let K := noisy_slack (base pc0) S in
  noisy_inv (base pc0) K (K + Z.max (num_cpus (base pc0)) (Z.of_nat S + 1)) m P.
Proof.
  intros Hn HS HR N K. set (c := base pc0) in *. set (L := Z.max (num_cpus c) (Z.of_nat S + 1)).
  assert (HK1 : max_noisy_evaluations c - 1 <= K) by (unfold K, noisy_slack; lia).
  assert (HK2 : max_noisy_evaluations c - Z.of_nat (n c) - 2 + Z.of_nat S <= K) by (unfold K, noisy_slack; lia).
  assert (HK3 : 0 <= K) by (unfold K, noisy_slack; lia).
  assert (HL0 : 1 <= L) by (unfold L; lia).
  revert m P HR N. apply (preach_inv3 pc0 ok (noisy_inv c K (K + L))).
  - intros q pa m P Hq H N E.
    destruct (start_noisy _ _ _ _ _ _ _ (HS q Hq) H N) as (A & B & D). fold c in A. change (nev (pinit c)) with 0 in *.
    assert (Z0 : nev (pinit c) = 0) by reflexivity. fold c in B. rewrite Z0 in B.
    assert (ZN : nev P <= K) by lia.
    assert (SK : srch (p_k P) = [] /\ tabu (p_k P) = [] /\ pend (p_k P) = []).
    { destruct E as [w It -> Bg|It -> Es El En SL Eb Ei Ep Eg].
      - rewrite (be_k _ _ _ _ _ _ Bg). cbn. auto.
      - rewrite (sl_srch _ _ SL), (sl_tabu _ _ SL), (sl_pend _ _ SL). auto. }
    destruct SK as (S1 & S2 & S3). split; intros M.
    + rewrite S1, S2. split; [constructor|]. split; [reflexivity|].
      assert (F0 : fresh c P = 0) by (unfold fresh; now rewrite S3).
      destruct E as [w It -> Bg|It -> Es El En SL Eb Ei Ep Eg]; lia.
    + unfold noisy_srch. rewrite S1. cbn. lia.
  - intros q pa P0 m P Hq (I1 & I2) Hp H N E.
    destruct (start_noisy _ _ _ _ _ _ _ (HS q Hq) H N) as (A & B & D). fold c in A.
    assert (NP : noisy_pend (p_k P0) = 0) by (unfold noisy_pend; now rewrite Hp).
    pose proof (noisy_srch_nonneg (p_k P0)).
    assert (SK : srch (p_k P) = [] /\ tabu (p_k P) = [] /\ pend (p_k P) = []).
    { destruct E as [w It -> Bg|It -> Es El En SL Eb Ei Ep Eg].
      - rewrite (be_k _ _ _ _ _ _ Bg). cbn. auto.
      - rewrite (sl_srch _ _ SL), (sl_tabu _ _ SL), (sl_pend _ _ SL). auto. }
    destruct SK as (S1 & S2 & S3). split; intros M.
    + rewrite S1, S2. split; [constructor|]. split; [reflexivity|].
      destruct (I1 (eq_trans (eq_sym D) M)) as (_ & _ & I3).
      assert (F0 : fresh c P = 0) by (unfold fresh; now rewrite S3).
      destruct E as [w It -> Bg|It -> Es El En SL Eb Ei Ep Eg]; lia.
    + unfold noisy_srch. rewrite S1. cbn. assert (M0 : mode P0 = false) by congruence.
      specialize (I2 M0). specialize (B M0). lia.
  - intros q m P m' P' Hq (I1 & I2) HR N N' (WI & WD) H E0.
    pose proof (load_reach pc0 ok S m P HS HR N) as (_ & HLd). fold c in HLd. fold L in HLd.
    pose proof (fresh_pend c P) as FP.
    assert (HB : K + load (p_k P) <= K + L) by (destruct m; unfold L in *; lia).
    destruct E0 as [-> -> -> Hc| -> -> -> _|b -> -> Hm| -> -> Hm| -> -> ->|kind w w' -> -> -> Ew Hw|b j -> -> E|j -> -> E|Hm E|j kind w w' -> -> E|kind w -> E|t r -> -> Ep E| -> -> Ep ->].
    + split; assumption.
    + split; [|assumption]. intros M. destruct (I1 M) as (A & B & D). split; [exact A|]. split; [exact B|]. lia.
    + destruct Hm as [(-> & _)|(-> & _)]; split; assumption.
    + destruct Hm as [(-> & _)|(-> & _)]; split; assumption.
    + split; assumption.
    + split; assumption.
    + destruct (eval_ok _ _ _ _ _ _ H N' eq_refl) as [->|(jj & H')]; [split; assumption|].
      eapply noisy_eval; try eassumption. split; assumption.
    + destruct (search_ok _ _ _ _ _ H N' eq_refl) as [->|(jj & H')]; [split; assumption|].
      eapply noisy_search; try eassumption. split; assumption.
    + destruct E as [k' Hm' Q1 It En El Ek SL Eb Elc|id bad k' -> Q1 It En El Ek I3 I4 SL Eb Eb2 Elc|kind w P0' Hk -> Hi Q1 It En El Ek Bg].
      * assert (A3 : mode P = true -> nev P - fresh c P <= K).
        { intros M. destruct (I1 M) as (_ & _ & D). destruct Hm as [->| ->]; exact D. }
        pose proof (q_nev _ _ Q1) as Y1. pose proof (q_T _ _ Q1) as Y2.
        split; intros M.
        -- pose proof (q_mode _ _ Q1 M) as M0. destruct (I1 M0) as (A & B & _).
           rewrite Ek, (sl_srch _ _ SL), (sl_tabu _ _ SL). split; [exact A|]. split; [exact B|].
           assert (F : fresh c P' = fresh c P) by (apply fresh_same; [exact Y2|rewrite Ek; exact (sl_pend _ _ SL)]).
           specialize (A3 M0). unfold nev in *. destruct Hm' as [->| ->]; lia.
        -- rewrite Ek, (nsrch_same _ _ (sl_srch _ _ SL)). unfold nev in *. rewrite Y1. pose proof (noisy_load (p_k P)).
           destruct (mode P) eqn:M0; [specialize (A3 eq_refl)|specialize (I2 eq_refl)]; lia.
      * assert (A3 : mode P = true -> nev P - fresh c P <= K).
        { intros M. destruct (I1 M) as (_ & _ & D). destruct Hm as [->| ->]; exact D. }
        assert (F : fresh c P' = fresh c P) by (apply fresh_same; [exact (q_T _ _ Q1)|rewrite Ek; exact (sl_pend _ _ SL)]).
        pose proof (q_nev _ _ Q1) as Y1. pose proof (noisy_load (p_k P)) as NL.
        split; intros M.
        -- pose proof (q_mode _ _ Q1 M) as M0. destruct (I1 M0) as (A & B & _).
           rewrite Ek, (sl_srch _ _ SL), (sl_tabu _ _ SL). cbn [srch tabu k_srch].
           split; [apply Forall_app; split; [exact A|constructor; [exact M0|constructor]]|]. split; [exact B|].
           specialize (A3 M0). unfold nev in *. lia.
        -- assert (NS : noisy_srch (p_k P') = noisy_srch (p_k P) + (if mode P then 1 else 0)).
           { unfold noisy_srch. rewrite Ek, (sl_srch _ _ SL). cbn [srch k_srch]. rewrite filter_app, app_length. cbn [filter].
             unfold mode. cbn [s_noisy]. destruct (noisy_mode (C (p_s P))); cbn [length]; lia. }
           rewrite NS. unfold nev in *. rewrite Y1.
           destruct (mode P) eqn:M0; [|specialize (I2 eq_refl); lia].
           pose proof (load_reach pc0 ok S PcHead P' HS) as LR.
           assert (R' : preach pc0 ok PcHead P') by (eapply pr_step; eauto).
           specialize (LR R' N'). destruct LR as (_ & LR). cbv beta iota zeta in LR. fold c in LR. fold L in LR.
           pose proof (noisy_load (p_k P')) as NL'. specialize (A3 eq_refl). rewrite NS in NL'.
           assert (PP : noisy_pend (p_k P') = noisy_pend (p_k P)).
           { unfold noisy_pend. rewrite Ek, (sl_pend _ _ SL). reflexivity. }
           lia.
      * destruct (plan_noisy _ _ _ _ _ _ _ _ (HS q Hq) Hm H) as (A & B). fold c in A.
        apply idle_iff in Hi. destruct Hi as [Hi1 Hi2].
        assert (F0 : fresh c P = 0) by (unfold fresh; now rewrite Hi1).
        assert (MM : mode P' = true -> mode P = true).
        { intros M. apply (q_mode _ _ Q1). destruct Bg as [(new & prev & nb & _ & _ & _ & _ & _ & _ & _ & _ & _ & _ & _ & HC & _) _ _].
          unfold mode in M. rewrite HC in M. exact M. }
        split; intros M.
        -- destruct (I1 (MM M)) as (A1 & A2 & A3). rewrite (be_k _ _ _ _ _ _ Bg), Ek. split; [exact A1|]. split; [exact A2|].
           assert (A4 : nev P - fresh c P <= K) by (destruct Hm as [->| ->]; exact A3). lia.
        -- rewrite (be_k _ _ _ _ _ _ Bg), Ek. unfold noisy_srch. rewrite Hi2. cbn [filter length].
           destruct (mode P) eqn:M0.
           ++ destruct (I1 eq_refl) as (A1 & A2 & A3).
              assert (A4 : nev P - fresh c P <= K) by (destruct Hm as [->| ->]; exact A3). lia.
           ++ specialize (I2 eq_refl). specialize (B eq_refl). pose proof (noisy_srch_nonneg (p_k P)). lia.
    + destruct E as [_ Es _ _ Ek]. unfold noisy_inv, nev, mode, fresh in *. rewrite Es, Ek. split; assumption.
    + destruct (WI _ _ eq_refl) as [Hi1 Hi2].
      destruct (fe_ex _ _ _ _ _ _ _ E) as (usr & uevs & nu & rows & _ & _ & _ & _ & _ & _ & EC & _).
      assert (XM : mode P' = mode P /\ nev P' = nev P).
      { unfold mode, nev. rewrite EC. cbn. split; [reflexivity|lia]. }
      destruct XM as (XM & XN). pose proof (fresh_pend c P') as FP'.
      split; intros M.
      * rewrite XM in M. destruct (I1 M) as (A1 & A2 & A3). rewrite (fe_srch _ _ _ _ _ _ _ E), (fe_tabu _ _ _ _ _ _ _ E).
        split; [exact A1|]. split; [reflexivity|].
        pose proof (fe_m _ _ _ _ _ _ _ E) as Em. destruct kind; subst m'; lia.
      * rewrite XM in M. rewrite XN, (nsrch_same _ _ (fe_srch _ _ _ _ _ _ _ E)). exact (I2 M).
    + pose proof (fi_s _ _ _ _ _ _ E) as Q1. pose proof (q_nev _ _ Q1) as Y1. cbn in Y1.
      split; intros M.
      * pose proof (q_mode _ _ Q1 M) as M0. cbn in M0. destruct (I1 M0) as (A1 & A2 & A3).
        rewrite (fi_srch _ _ _ _ _ _ E). split; [exact A1|].
        assert (TB : tabu (p_k P') = tabu (p_k P)).
        { revert H. cbn [pstep]. intros H. apply finish_ok in H; [|exact N']. revert H. unfold final_step. rewrite Ep. cbv zeta.
          destruct (node_pos (T (p_s P))); [discriminate|]. rewrite (fi_acc _ _ _ _ _ _ E).
          destruct (current_gap _ _) as [g|]; cbn [bind]; [|discriminate]. intros H. injection H as <-. reflexivity. }
        rewrite TB. split; [exact A2|].
        assert (PP : noisy_pend (p_k P') = noisy_pend (p_k P)).
        { unfold noisy_pend. rewrite (fi_pend _ _ _ _ _ _ E), Ep. cbn [filter]. now rewrite (fi_acc _ _ _ _ _ _ E). }
        unfold nev in *. rewrite PP, Y1. exact A3.
      * rewrite (nsrch_same _ _ (fi_srch _ _ _ _ _ _ E)).
        assert (NY : nev P' = nev P) by exact Y1. rewrite NY. pose proof (noisy_load (p_k P)) as NL.
        destruct (mode P) eqn:M0; [|exact (I2 eq_refl)]. destruct (I1 eq_refl) as (_ & _ & A3). lia.
    + split; assumption.
Qed.

Lemma noisy_total pc0 (ok : pin -> Prop) S m P : has_noisy (base pc0) = true ->
  (forall q, ok q -> samples_upto S q) -> preach pc0 ok m P -> no_error m ->
  nev P <= noisy_slack (base pc0) S + Z.max (num_cpus (base pc0)) (Z.of_nat S + 1).
Proof.
  intros Hn HS HR N. destruct (noisy_reach pc0 ok S m P Hn HS HR N) as (I1 & I2).
  destruct (load_reach pc0 ok S m P HS HR N) as (_ & HL).
  pose proof (noisy_load (p_k P)). pose proof (fresh_pend (base pc0) P). pose proof (noisy_srch_nonneg (p_k P)).
  destruct (mode P) eqn:M; [|specialize (I2 eq_refl); lia].
  destruct (I1 eq_refl) as (_ & _ & A). destruct m; lia.
Qed.

(** ** End of the phase *)
Lemma take_eval_mode c q j P P' : has_noisy c = true -> take_eval c q j P = Ok P' ->
  (itercount (C (p_s P')) = itercount (C (p_s P)) /\ noisy_mode (C (p_s P')) = noisy_mode (C (p_s P))) \/
  (itercount (C (p_s P')) = itercount (C (p_s P)) + 1 /\
   (noisy_mode (C (p_s P')) = true <-> noisy_mode (C (p_s P)) = true /\ ~ noisy_phase_over c (p_s P'))).
Proof.
  intros Hn. unfold take_eval. destruct (nth_error (pend (p_k P)) j) as [t|] eqn:Et; [|discriminate].
  fold (answer_of q (t_noisy t)). destruct (answer_of q (t_noisy t)) as [[v el] eu] eqn:Ea.
  cbv zeta. fold (popped j (t_noisy t) (el, eu) (p_k P)).
  destruct (node_pos (T (p_s P))) as [|n0 nr] eqn:En; [discriminate|]. rewrite <- En in *.
  destruct (near (min_dist c) (t_pos t) (node_pos (T (p_s P)))) eqn:Enr.
  { intros H; injection H as <-. left. auto. }
  destruct (t_noisy t && existsb _ _) eqn:Etb.
  { intros H; injection H as <-. left. auto. }
  destruct (t_noisy t && require_accurate c (p_s P) (v + el)%Q).
  - cbn [bind]. intros H.
    match type of H with bind ?x _ = _ => destruct x as [s'|] eqn:Ee end; cbn [bind] in H; [|discriminate].
    injection H as <-. right. split; [exact (end_iter _ _ _ Ee)|exact (end_phase _ _ _ Ee Hn)].
  - set (s1 := insert_node _ _ _ _ _ _).
    destruct (current_gap c s1) as [g|] eqn:Eg; cbn [bind]; [|discriminate].
    match goal with |- bind (bind ?x _) _ = _ -> _ => destruct x as [[s3 k3]|] eqn:Ex end;
      cbn [bind fst snd]; [|discriminate].
    assert (HX : noisy_mode (C s3) = noisy_mode (C (p_s P)) /\ itercount (C s3) = itercount (C (p_s P))).
    { destruct (t_id t); try (injection Ex as <- <-; split; reflexivity).
      match type of Ex with bind ?x _ = _ => destruct x as [s4|] eqn:E4 end;
        cbn [bind] in Ex; [|discriminate]. injection Ex as <- <-.
      revert E4. unfold refinement_update_parallel. cbv zeta.
      destruct (ref_radius (Rf (log_value v g s1))) as [rad|]; [|discriminate].
      destruct (ref_iterate_index (Rf (log_value v g s1))) as [it0|]; [|discriminate].
      match goal with |- match ?x with _ => _ end = _ -> _ => destruct x end; [|discriminate].
      repeat match goal with |- (if ?x then Fail _ else _) = _ -> _ => destruct x; [discriminate|] end.
      intros H; injection H as <-. split; reflexivity. }
    destruct HX as (X1 & X2). intros H.
    match type of H with bind ?x _ = _ => destruct x as [s'|] eqn:Ee end; cbn [bind] in H; [|discriminate].
    injection H as <-. cbn [p_s set_s set_k note] in *. right.
    pose proof (end_iter _ _ _ Ee) as Y1. pose proof (end_phase _ _ _ Ee Hn) as Y2. rewrite X1 in Y2.
    split; [lia|exact Y2].
Qed.

(** ** After the phase *)
Lemma later_reach pc0 ok m P m' P' : preach pc0 ok m P -> later pc0 ok m P m' P' -> preach pc0 ok m' P'.
Proof.
  intros HR HL. induction HL as [|q m1 P1 m2 P2 Hq _ IH H|q pa P1 m2 P2 Hq _ IH H]; [exact HR| |].
  - eapply pr_step; eauto.
  - eapply pr_again; eauto.
Qed.
Lemma eval_off c q j P P' : eval_eff_par c q j P P' -> mode P = false ->
  mode P' = false /\ nev P' + noisy_srch (p_k P') = nev P + noisy_srch (p_k P).
Proof.
  intros E M. unfold nev, mode in *.
  destruct E as [t v el eu Ht Ea Nr Es Ecv En El Ek|t v el eu Ht Ea Hnn Nr Hx Es Ecv En El Ek|t v el eu t' Ht Ea Hnn Ht' Nr Hr Q It Ecv En El Ek|t v el eu Ht Ea Nr Hne Hr Q It Ecv En El SL Eb Elc].
  - destruct (popped_pend j (t_noisy t) (el, eu) (p_k P)) as (X1 & X2 & X3). rewrite Es, Ek, (nsrch_same _ _ X2). auto.
  - destruct (popped_pend j true (el, eu) (p_k P)) as (X1 & X2 & X3). rewrite Es, Ek.
    change (noisy_srch (k_tabu ?t ?k)) with (noisy_srch k). rewrite (nsrch_same _ _ X2). auto.
  - destruct (popped_pend j true (el, eu) (p_k P)) as (X1 & X2 & X3). rewrite Ek.
    change (noisy_srch (k_push ?t ?v ?k)) with (noisy_srch k). rewrite (nsrch_same _ _ X2), (q_nev _ _ Q).
    split; [exact (mode_false _ _ Q M)|cbn; lia].
  - destruct (popped_pend j (t_noisy t) (el, eu) (p_k P)) as (X1 & X2 & X3).
    rewrite (nsrch_same _ _ (sl_srch _ _ SL)), (nsrch_same _ _ X2), (q_nev _ _ Q).
    split; [exact (mode_false _ _ Q M)|reflexivity].
Qed.
Lemma search_off c q j P P' : search_eff_par c q j P P' -> mode P = false ->
  mode P' = false /\ nev P' + noisy_srch (p_k P') <= nev P + noisy_srch (p_k P).
Proof.
  intros E M. unfold nev, mode in *. destruct E as [e P1 He E1 ->|e p id P1 P2 He Hp E1 R U Hid Hz].
  - pose proof (discard_lists c (s_id e) P1) as SL. rewrite (nsrch_same _ _ (sl_srch _ _ SL)).
    pose proof (filter_delete_eq s_noisy _ _ _ He) as FD. subst P1. unfold noisy_srch. cbn [srch p_k set_k k_srch].
    split; [destruct (s_id e); exact M|]. destruct (s_id e); cbn; destruct (s_noisy e); lia.
  - pose proof (filter_delete_eq s_noisy _ _ _ He) as FD.
    assert (X : srch (p_k P2) = delete_at j (srch (p_k P)) /\ C (p_s P2) = C (p_s P)).
    { subst P1. destruct R as [->|_ ->|jj s' _ Hr Es _ _ _ Ek]; [auto|auto|].
      apply remove_fields in Hr. destruct Hr as (_ & _ & _ & HC & _).
      split; [destruct Ek as [->| ->]; reflexivity|now rewrite Es, HC]. }
    destruct X as (X2 & X3). rewrite <- X3 in M |- *.
    destruct U as [Q1 It Ecv En El SL Eb Elc|pp po jj v nz ee Ep Epo Hne N1 N2 Hl Hv Hzz Hee Q1 It Ecv En El SL Eb Elc|pp po Ep Epo Hne N1 N2 ->].
    + split; [exact (mode_false _ _ Q1 M)|]. rewrite (q_nev _ _ Q1), (nsrch_same _ _ (sl_srch _ _ SL)). unfold noisy_srch. rewrite X2.
      destruct (s_noisy e); lia.
    + split; [exact (mode_false _ _ Q1 M)|]. rewrite (q_nev _ _ Q1), (nsrch_same _ _ (sl_srch _ _ SL)). unfold noisy_srch. rewrite X2. change (noisy_evalcount (C (insert_node ?a ?b ?c ?d ?e (p_s P2)))) with (noisy_evalcount (C (p_s P2))).
      destruct (s_noisy e); lia.
    + unfold submit_point, noisy_srch. cbn [p_k p_s note set_next set_k set_s pend srch tabu k_push C set_C]. rewrite X2.
      split; [destruct (s_noisy e); exact M|]. destruct (s_noisy e); cbn; lia.
Qed.
Lemma begin_off c q kind P w P' : begin_eff c q kind P w P' -> mode P = false -> mode P' = false /\ nev P' = nev P.
Proof.
  intros [(new & prev & nb & _ & _ & _ & _ & Hnb & _ & _ & _ & _ & _ & _ & HC & _) _ _] M. unfold mode, nev in *.
  destruct nb; [rewrite Hnb in M by reflexivity; discriminate|]. rewrite HC. cbn. split; [exact M|lia].
Qed.
Lemma step_off pc0 q m P m' P' : step_eff pc0 q m P m' P' -> mode P = false ->
  mode P' = false /\ nev P' + noisy_srch (p_k P') <= nev P + noisy_srch (p_k P).
Proof.
  intros E0 M.
  destruct E0 as [-> -> -> Hc| -> -> -> _|b -> -> Hm| -> -> Hm| -> -> ->|kind w w' -> -> -> Ew Hw|b j -> -> E|j -> -> E|Hm E|j kind w w' -> -> E|kind w -> E|t r -> -> Ep E| -> -> Ep ->]; try (split; [exact M|lia]).
  - destruct (eval_off _ _ _ _ _ E M) as (A & B). split; [exact A|lia].
  - exact (search_off _ _ _ _ _ E M).
  - destruct E as [k' Hm' Q1 It En El Ek SL Eb Elc|id bad k' -> Q1 It En El Ek I3 I4 SL Eb Eb2 Elc|kind w P0' Hk -> Hi Q1 It En El Ek Bg].
    + split; [exact (mode_false _ _ Q1 M)|]. unfold nev. rewrite (q_nev _ _ Q1), Ek, (nsrch_same _ _ (sl_srch _ _ SL)). lia.
    + split; [exact (mode_false _ _ Q1 M)|]. unfold nev. rewrite (q_nev _ _ Q1), Ek, (nsrch_same _ _ (sl_srch _ _ SL)).
      unfold noisy_srch. cbn [srch k_srch]. unfold mode in M. rewrite M, filter_app, app_length. cbn. lia.
    + destruct (begin_off _ _ _ _ _ _ Bg (mode_false _ _ Q1 M)) as (A & B). split; [exact A|].
      rewrite B, (be_k _ _ _ _ _ _ Bg), Ek. unfold nev. rewrite (q_nev _ _ Q1). lia.
  - destruct E as [_ Es _ _ Ek]. unfold mode, nev in *. rewrite Es, Ek. split; [exact M|lia].
  - destruct (fe_ex _ _ _ _ _ _ _ E) as (usr & uevs & nu & rows & _ & _ & _ & _ & _ & _ & EC & _).
    unfold mode, nev in *. rewrite EC, (nsrch_same _ _ (fe_srch _ _ _ _ _ _ _ E)). cbn. split; [exact M|lia].
  - pose proof (fi_s _ _ _ _ _ _ E) as Q1. split; [exact (mode_false _ _ Q1 M)|]. unfold nev.
    rewrite (q_nev _ _ Q1), (nsrch_same _ _ (fi_srch _ _ _ _ _ _ E)). cbn. lia.
Qed.
Lemma later_off pc0 ok m P m' P' : preach pc0 ok m P -> later pc0 ok m P m' P' -> no_error m' -> mode P = false ->
  mode P' = false /\ nev P' + noisy_srch (p_k P') <= nev P + noisy_srch (p_k P).
Proof.
  intros HR HL N M. induction HL as [|q m1 P1 m2 P2 Hq HL IH H|q pa P1 m2 P2 Hq HL IH H]; [split; [exact M|lia]| |].
  - assert (N0 : no_error m1).
    { intros e ->. cbn in H. injection H as <- <-. now apply (N e). }
    destruct (IH N0) as (A & B). pose proof (pstep_effect _ _ _ _ _ _ H N) as E.
    destruct (step_off _ _ _ _ _ _ E A) as (A' & B'). split; [exact A'|lia].
  - destruct (IH ltac:(intros e; discriminate)) as (A & B).
    pose proof (pstart_effect _ _ _ _ _ _ H N) as E. pose proof (noisy_srch_nonneg (p_k P1)).
    destruct E as [w It -> Bg|It -> Es El En SL Eb Ei Ep Eg].
    + destruct (begin_off _ _ _ _ _ _ Bg A) as (A' & B'). split; [exact A'|].
      rewrite B', (be_k _ _ _ _ _ _ Bg). change (nev (set_k ?k P1)) with (nev P1). cbn. lia.
    + unfold mode, nev in *. rewrite Es. rewrite (nsrch_same _ _ (sl_srch _ _ SL)). split; [exact A|]. cbn. lia.
Qed.
