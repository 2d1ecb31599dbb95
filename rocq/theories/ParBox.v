(** * Where the black box is called in parallel mode. *)
From Verif Require Export ParTabs.
Open Scope Z_scope.

Lemma preach_inv3 pc0 (ok : pin -> Prop) (Inv : pc -> pst -> Prop) :
  (forall q pa m P, ok q -> start_eff pc0 q pa (pinit (base pc0)) m P -> Inv m P) ->
  (forall q pa P0 m P, ok q -> preach pc0 ok PcDone P0 -> Inv PcDone P0 -> pend (p_k P0) = [] ->
     start_eff pc0 q pa P0 m P -> Inv m P) ->
  (forall q m P m' P', ok q -> Inv m P -> preach pc0 ok m P -> no_error m -> wait_idle m P -> wait_tasks m ->
     step_eff pc0 q m P m' P' -> Inv m' P') ->
  forall m P, preach pc0 ok m P -> no_error m -> Inv m P.
Proof.
  intros H1 H2 H3 m P HR. induction HR as [q pa m P Hok H|q pa P0 m P Hok HR IH H|q m0 P0 m P Hok HR IH H]; intros N.
  - eapply H1; [eassumption|]. eapply pstart_effect; eassumption.
  - assert (ND : no_error PcDone) by (intros e; discriminate).
    eapply H2; [eassumption|exact HR|apply IH; exact ND| |eapply pstart_effect; eassumption].
    eapply idle_reach; [exact HR|exact ND|reflexivity].
  - assert (N0 : no_error m0).
    { intros e ->. cbn in H. injection H as <- <-. now apply (N e). }
    eapply H3; [eassumption|apply IH; exact N0|exact HR|exact N0|eapply idle_reach; eassumption|
                eapply wait_tasks_reach; eassumption|eapply pstep_effect; eassumption].
Qed.

(** [G]: the region of allowed points (the box, points with integral components, ...). *)
Section Region.
  Variables (pc0 : pcfg) (ok : pin -> Prop) (G : point -> Prop).
  Let c := base pc0.
  Hypothesis Gsample : forall q pts p, ok q -> i_samples (q_inp q) = Some pts -> In p pts -> G p.
  Hypothesis Guser : forall p, In p (init_node_pos c) -> G p.
  Hypothesis Gprop : forall q p, ok q -> proposes q p -> G (to_orig c (clip p (l_lower c) (l_upper c))).
  Hypothesis Gnoisy : has_noisy c = true -> forall p, G p -> G (to_orig c p).

  (** Left-over initial points are unscaled a second time when they are recorded. *)
  Definition same_coords : Prop := forall p, G p -> G (to_orig c p).

  Definition task_in (t : task) : Prop :=
    G (t_at t) /\ (t_noisy t = true \/ same_coords -> G (to_orig c (t_pos t))).
  Definition ev_in (e : pev) : Prop :=
    match e with
    | PSubmit _ p _ _ => G p
    | PRow _ p _ => same_coords -> G p
    | _ => True
    end.
  Definition region_inv (m : pc) (P : pst) : Prop :=
    Forall task_in (pend (p_k P)) /\ Forall ev_in (p_log P) /\
    (same_coords -> Forall G (all_pos (T (p_s P)))) /\
    match m with
    | PcWait _ w => Forall (fun t => t_at t = t_pos t /\ G (t_pos t) /\ (t_noisy t = true -> has_noisy c = true)) (w_pend w) /\
        Forall (fun te => G (e_pos (snd te))) (w_got w) /\
        (same_coords -> Forall (fun e => G (e_pos e)) (w_prev w))
    | _ => True
    end.
  Lemma region_plain m P : not_wait m -> Forall task_in (pend (p_k P)) -> Forall ev_in (p_log P) ->
    (same_coords -> Forall G (all_pos (T (p_s P)))) -> region_inv m P.
  Proof. intros H H1 H2 H3. repeat split; auto. destruct m; auto. exfalso. eapply H; reflexivity. Qed.

  Lemma in_del {A} (R : A -> Prop) l j : Forall R l -> Forall R (delete_at j l).
  Proof.
    intros H. apply Forall_forall. intros x Hx. apply in_delete in Hx. rewrite Forall_forall in H. auto.
  Qed.
  Lemma all_quiet_add p po v b e s s' : quiet (insert_node p po v b e s) s' ->
    all_pos (T s') = all_pos (T s) ++ [po].
  Proof. intros Q. now destruct (all_add _ _ _ _ _ _ _ Q) as (A & _). Qed.

  Lemma region_eval q j P P' b : eval_eff_par c q j P P' -> region_inv (PcEvals b) P -> region_inv (PcEvals b) P'.
  Proof.
    intros E (H1 & H2 & H3 & _).
    assert (HT : forall t, nth_error (pend (p_k P)) j = Some t -> task_in t).
    { intros t Ht. apply nth_error_In in Ht. rewrite Forall_forall in H1. auto. }
    assert (HD : forall e bb, Forall task_in (pend (popped j bb e (p_k P)))).
    { intros e bb. destruct (popped_pend j bb e (p_k P)) as (-> & _). now apply in_del. }
    destruct E as [t v el eu Ht Ea Nr Es Ecv En El Ek|t v el eu Ht Ea Hn Nr Hx Es Ecv En El Ek|t v el eu t' Ht Ea Hn Ht' Nr Hr Q It Ecv En El Ek|t v el eu Ht Ea Nr Hne Hr Q It Ecv En El SL Eb Elc];
      apply region_plain; try discriminate.
    - rewrite Ek. apply HD.
    - rewrite El. apply Forall_app. split; [exact H2|repeat constructor].
    - now rewrite Es.
    - rewrite Ek. apply HD.
    - rewrite El. apply Forall_app. split; [exact H2|repeat constructor].
    - now rewrite Es.
    - rewrite Ek. cbn [pend k_push]. apply Forall_app. split; [apply HD|]. constructor; auto.
      destruct (HT t Ht) as (A & B). subst t'. split; cbn; auto.
    - rewrite El. apply Forall_app. split; [exact H2|]. repeat constructor. cbn. apply HT; auto.
    - rewrite (q_T _ _ Q). exact H3.
    - rewrite (sl_pend _ _ SL). apply HD.
    - rewrite El. apply Forall_app. split; [exact H2|]. repeat constructor. cbn. intros HS. apply (HT t Ht); auto.
    - rewrite (all_quiet_add _ _ _ _ _ _ _ Q). intros HS. apply Forall_app. split; auto.
      constructor; auto. apply (HT t Ht); auto.
  Qed.

  Lemma region_search q j P P' : ok q -> search_eff_par c q j P P' -> region_inv PcSearches P -> region_inv PcSearches P'.
  Proof.
    intros Hq E (H1 & H2 & H3 & _).
    destruct E as [e P1 He E1 ->|e p id P1 P2 He Hp E1 R U Hid Hz].
    - pose proof (discard_lists c (s_id e) P1) as SL. subst P1. apply region_plain; try discriminate.
      + rewrite (sl_pend _ _ SL). exact H1.
      + destruct (s_id e); exact H2.
      + destruct (s_id e); exact H3.
    - assert (X : region_inv PcSearches P2).
      { subst P1. destruct R as [->|_ ->|jj s' _ Hr Es _ _ El Ek]; apply region_plain; try discriminate; auto.
        - replace (pend (p_k P2)) with (pend (p_k P)) by (destruct Ek as [->| ->]; reflexivity). exact H1.
        - rewrite El. apply Forall_app. split; [exact H2|repeat constructor].
        - rewrite Es. apply remove_fields in Hr. destruct Hr as (_ & HT & _). rewrite HT. cbn.
          intros HS. apply in_del. auto. }
      destruct X as (X1 & X2 & X3 & _). pose proof (Gprop q p Hq Hp) as HG.
      destruct U as [Q1 It Ecv En El SL Eb Elc|pp po jj v nz ee Ep Epo Hne N1 N2 Hl Hv Hzz Hee Q1 It Ecv En El SL Eb Elc|pp po Ep Epo Hne N1 N2 ->];
        apply region_plain; try discriminate.
      + now rewrite (sl_pend _ _ SL).
      + now rewrite El.
      + now rewrite (q_T _ _ Q1).
      + now rewrite (sl_pend _ _ SL).
      + rewrite El. apply Forall_app. split; [exact X2|]. repeat constructor. cbn. intros _. subst. exact HG.
      + rewrite (all_quiet_add _ _ _ _ _ _ _ Q1). intros HS. apply Forall_app. split; auto.
        constructor; auto. subst; exact HG.
      + cbn. apply Forall_app. split; [exact X1|]. subst. repeat constructor; cbn; auto.
      + cbn. apply Forall_app. split; [exact X2|]. subst. repeat constructor; cbn; auto.
      + cbn. exact X3.
  Qed.

  Lemma region_begin q kind P w P' : ok q -> begin_eff c q kind P w P' -> pend (p_k P) = [] ->
    (noisy_mode (C (p_s P)) = true -> has_noisy c = true) ->
    Forall ev_in (p_log P) -> (same_coords -> Forall G (all_pos (T (p_s P)))) ->
    region_inv (PcWait kind w) P'.
  Proof.
    intros Hq [(new & prev & nb & W1 & W2 & W3 & _ & Hnb & Hnew & Hprev & _ & ET & _ & _ & _ & _ & EL & _) _ Ek] Hp HM H2 H3.
    assert (F : Forall (fun t => t_at t = t_pos t /\ G (t_pos t) /\ (t_noisy t = true -> has_noisy c = true)) (w_pend w)).
    { rewrite W1. destruct (submit_from_spec nb new (p_next P)) as (Sp & _ & F).
      apply Forall_forall. intros t Ht. rewrite Forall_forall in F. destruct (F t Ht) as (A & _ & B).
      split; [exact B|]. split.
      - apply (in_map t_pos) in Ht. rewrite Sp in Ht. destruct (Hnew _ Ht) as (pts & E & Hin). eapply Gsample; eauto.
      - rewrite A. auto. }
    repeat split.
    - rewrite Ek, Hp. constructor.
    - rewrite EL. apply Forall_app. split; [exact H2|]. apply Forall_forall. intros e He.
      apply in_sub_log in He. destruct He as (t & Ht & ->). cbn. rewrite Forall_forall in F.
      destruct (F t Ht) as (-> & A & _). exact A.
    - rewrite ET. exact H3.
    - exact F.
    - rewrite W2. constructor.
    - intros HS. rewrite W3. apply Forall_forall. intros e He. destruct (Hprev e He) as (jj & Hj & -> & _).
      specialize (H3 HS). rewrite Forall_forall in H3. apply H3. apply nth_In. exact Hj.
  Qed.

  Lemma mode_reach m P : preach pc0 ok m P -> no_error m -> noisy_mode (C (p_s P)) = true -> has_noisy c = true.
  Proof.
    intros HR N. destruct (has_noisy c) eqn:Hn; auto.
    destruct (quiet_reach pc0 ok m P Hn HR N) as (M & _). congruence.
  Qed.

  Lemma region_reach m P : preach pc0 ok m P -> no_error m -> region_inv m P.
  Proof.
    assert (HI : noisy_mode (C (init_st c)) = true -> has_noisy c = true) by (cbn; auto).
    apply (preach_inv3 pc0 ok region_inv).
    - intros q pa m1 P1 Hq [w It -> B|It -> Es El En SL Eb Ei Ep Eg].
      + eapply region_begin; [exact Hq|exact B|reflexivity|exact HI|constructor|constructor].
      + cbn in It. congruence.
    - intros q pa P0 m1 P1 Hq HR0 (H1 & H2 & H3 & _) HE [w It -> B|It -> Es El En SL Eb Ei Ep Eg].
      + eapply region_begin; [exact Hq|exact B|reflexivity| |exact H2|exact H3].
        cbn [p_s set_k]. eapply mode_reach; [exact HR0|intros e; discriminate].
      + apply region_plain; [discriminate|rewrite (sl_pend _ _ SL); constructor|now rewrite El|now rewrite Es].
    - intros q m1 P1 m2 P2 Hq HI1 HR N (WI & WD) WT E0. pose proof HI1 as (H1 & H2 & H3 & H4).
      destruct E0 as [-> -> -> _| -> -> -> _|b -> -> Hm| -> -> Hm| -> -> ->|kind w w' -> -> -> Ew Hw|b j -> -> E|j -> -> E|Hm E|j kind w w' -> -> E|kind w -> E|t r -> -> Ep E| -> -> Ep ->];
        try (apply region_plain; auto; discriminate).
      + apply region_plain; auto. destruct Hm as [(-> & _)|(-> & _)]; discriminate.
      + apply region_plain; auto. destruct Hm as [(-> & _)|(-> & _)]; discriminate.
      + split; [exact H1|]. split; [exact H2|]. split; [exact H3|]. subst w'. exact H4.
      + eapply region_eval; eauto.
      + eapply region_search; eauto.
      + destruct E as [k' Hm' Q1 It En El Ek SL Eb Elc|id bad k' -> Q1 It En El Ek I1 I2 SL Eb Eb2 Elc|kind w P0 Hk -> Hi Q1 It En El Ek B].
        * apply region_plain; [destruct Hm' as [->| ->]; discriminate|rewrite Ek, (sl_pend _ _ SL); auto|rewrite El; auto|rewrite (q_T _ _ Q1); auto].
        * apply region_plain; [discriminate|rewrite Ek, (sl_pend _ _ SL); auto|rewrite El; auto|rewrite (q_T _ _ Q1); auto].
        * apply idle_iff in Hi. destruct Hi as [Hi1 _].
          eapply region_begin; [exact Hq|exact B|rewrite Ek; exact Hi1| |rewrite El; exact H2|rewrite (q_T _ _ Q1); exact H3].
          intros HM. destruct (has_noisy c) eqn:Hn; auto.
          destruct (quiet_reach pc0 ok m1 P1 Hn HR N) as (M & _).
          pose proof (mode_false _ _ Q1 M). congruence.
      + destruct H4 as (G1 & G2 & G3).
        destruct E as [(t & v & el & eu & Ht & Ea & W1 & W2 & W3 & W4 & EL) Es Ecv En Ek].
        repeat split; rewrite ?Ek, ?Es, ?EL, ?W1, ?W2, ?W4; auto.
        * apply Forall_app. split; [exact H2|repeat constructor].
        * now apply in_del.
        * apply Forall_app. split; [exact G2|]. repeat constructor. cbn.
          apply nth_error_In in Ht. rewrite Forall_forall in G1. apply (G1 t Ht).
      + destruct H4 as (G1 & G2 & G3). pose proof (fe_m _ _ _ _ _ _ _ E) as Em.
        destruct (fe_ex _ _ _ _ _ _ _ E) as (usr & uevs & nu & rows & _ & US & Erows & _ & ET & _ & _ & _ & EL & _).
        assert (HU : Forall (fun e => G (e_pos e)) usr).
        { apply Forall_forall. intros e He. apply Guser. eapply (us_pos _ _ _ _ _ _ US); eauto. }
        apply region_plain; [destruct kind; subst m2; discriminate|..].
        * rewrite (fe_pend _ _ _ _ _ _ _ E). eapply Forall_impl; [|exact G1].
          intros t (A & B & D). split; [congruence|]. intros [Hz|Hz]; [|auto]. apply Gnoisy; auto.
        * rewrite EL. apply Forall_app. split; [exact H2|]. apply Forall_app. split; [|apply Forall_app; split].
          -- apply Forall_map. eapply Forall_impl; [|exact G2]. cbn. auto.
          -- apply Forall_map. apply Forall_forall. intros e He. cbn. intros HS.
             specialize (G3 HS). rewrite Forall_forall in G3. auto.
          -- unfold user_log. destruct (0 <? nu).
             ++ apply Forall_flat_map. apply Forall_forall. intros [i e] He. apply in_indexed in He.
                rewrite Forall_forall in HU. repeat constructor; cbn; auto.
             ++ apply Forall_map. eapply Forall_impl; [|exact HU]. cbn. auto.
        * rewrite ET. cbn. intros HS. apply Forall_app. split; [auto|]. rewrite Erows, !map_app.
          apply Forall_app. split; [apply Forall_app; split|]; apply Forall_map; auto.
          apply Forall_map. exact G2.
      + destruct E as [Ft Fne Fs Fit Fn Fl Fp Fsr Fb]. rewrite Ep in H1. inversion H1 as [|tt rr Ht Hr0 E1]; clear H1.
        apply region_plain; [discriminate|now rewrite Fp|..].
        * rewrite Fl. apply Forall_app. split; [exact H2|]. repeat constructor. cbn. intros HS. apply (Ht); auto.
        * rewrite (all_quiet_add _ _ _ _ _ _ _ Fs). intros HS. apply Forall_app. split; auto.
          constructor; auto. apply (Ht); auto.
  Qed.
End Region.
