(** * No double evaluation (C11), two-phase discipline (C12), noise flags (C13),
      restart keeps history (C20). *)
From Verif Require Export AlgSep.
Open Scope Z_scope.

(** ** C12 *)
Definition mode_inv (c : cfg) (s : st) : Prop :=
  (noisy_mode (C s) = true -> has_noisy c = true) /\
  (forall p v el eu, In (EvNoisy p v el eu) (trace s) -> has_noisy c = true).

Lemma restart_mode c i s s' : restart c i s = Ok s' -> noisy_mode (C s') = noisy_mode (C s).
Proof.
  intros H. apply restart_effect in H.
  destruct H as [(gen & evs & na & nn & usr & uevs & nu & _ & _ & _ & _ & _ & _ & _ & HC & _)].
  now rewrite HC.
Qed.
Lemma in_noisy_count p v el eu es : In (EvNoisy p v el eu) es -> 0 < count_ev is_noisy es.
Proof.
  intros H. apply in_split in H. destruct H as (a & b & ->).
  rewrite count_ev_app, count_ev_cons. cbn [is_noisy].
  pose proof (count_ev_nonneg is_noisy a). pose proof (count_ev_nonneg is_noisy b). lia.
Qed.
Lemma restart_no_noisy c i s s' : restart c i s = Ok s' -> noisy_mode (C s) = false ->
  noisy_evalcount (C s') = noisy_evalcount (C s) /\
  exists es, trace s' = trace s ++ es /\ count_ev is_noisy es = 0.
Proof.
  intros H Hm. apply restart_effect in H.
  destruct H as [(gen & evs & na & nn & usr & uevs & nu & G & _ & U & _ & _ & _ & _ & HC & _ & Ht)].
  pose proof (gs_noisy _ _ _ _ _ _ _ _ G Hm) as E. rewrite HC. cbn. split; [lia|].
  eexists; split; [exact Ht|]. rewrite count_ev_cons, count_ev_app. cbn [is_noisy].
  rewrite (gs_nn _ _ _ _ _ _ _ _ G), (us_nn _ _ _ _ _ _ U). lia.
Qed.
Lemma eval_events_noisy c i po s l v noisy e es : eval_events c i po s l v noisy e es ->
  noisy_mode (C s) = false -> count_ev is_noisy es = 0.
Proof. destruct 1; intros Hm; try congruence; reflexivity. Qed.

Lemma mode_reach c ok s l : reach c ok s l -> mode_inv c s.
Proof.
  apply (reach_preserves c ok (mode_inv c)).
  - intros s0 s1 Hq (H1 & H2). split.
    + intros H. apply H1, (q_mode _ _ Hq H).
    + intros p v el eu Hin. destruct (q_trace _ _ Hq) as (es & E & Hs). rewrite E in Hin.
      apply in_app_or in Hin. destruct Hin as [Hin|Hin]; [eauto|].
      rewrite Forall_forall in Hs. destruct (Hs _ Hin).
  - intros i s0 s1 _ H (H1 & H2). split; [now rewrite (restart_mode _ _ _ _ H)|].
    intros p v el eu Hin. destruct (noisy_mode (C s0)) eqn:Em; [auto|].
    destruct (restart_no_noisy _ _ _ _ H Em) as (_ & es & E & Hc). rewrite E in Hin.
    apply in_app_or in Hin. destruct Hin as [Hin|Hin]; [eauto|].
    apply in_noisy_count in Hin. lia.
  - intros j s0 s1 _ H (H1 & H2). apply remove_fields in H.
    destruct H as (_ & _ & _ & HC & _ & Ht). unfold mode_inv. now rewrite HC, Ht.
  - intros i q s0 l0 s1 l1 _ _ _ H (H1 & H2). apply evaluate_sum in H.
    destruct H as (v & noisy & e & es & [He HT _ HC _ Ht _ _ _]).
    split; [now rewrite HC|]. intros p w el eu Hin. rewrite Ht in Hin.
    apply in_app_or in Hin. destruct Hin as [Hin|Hin]; [eauto|].
    destruct (noisy_mode (C s0)) eqn:Em; [auto|].
    apply eval_events_noisy in He; [|assumption]. apply in_noisy_count in Hin. lia.
  - split; [cbn; auto|]. intros p v el eu [].
Qed.

(** Once the mode is accurate it stays accurate and no noisy evaluation is made. *)
Definition frozen (k : Z) (s : st) : Prop :=
  noisy_mode (C s) = false /\ noisy_evalcount (C s) = k /\ count_ev is_noisy (trace s) = k.

Lemma frozen_pres c k :
  (forall s s', quiet s s' -> frozen k s -> frozen k s') /\
  (forall i s s', any_inp i -> restart c i s = Ok s' -> frozen k s -> frozen k s') /\
  (forall j s s', (has_noisy c = true /\ noisy_mode (C s) = false \/ (min_dist c < 0)%Q) ->
    remove_node j s = Ok s' -> frozen k s -> frozen k s') /\
  (forall i q s l s' l', any_inp i ->
    (i_prop i = Some q \/
     has_noisy c = true /\ (exists s0 j, frozen k s0 /\ nth_error (node_pos (T s0)) j = Some q) \/
     (min_dist c < 0)%Q) ->
    accepted c s (clip q (l_lower c) (l_upper c)) ->
    evaluate c i (clip q (l_lower c) (l_upper c))
             (to_orig c (clip q (l_lower c) (l_upper c))) s l = Ok (s', l') ->
    frozen k s -> frozen k s').
Proof.
  split; [|split; [|split]].
  - intros s s' Hq (H1 & H2 & H3). destruct (q_trace _ _ Hq) as (es & E & Hs).
    split; [|split].
    + destruct (noisy_mode (C s')) eqn:Em; [|reflexivity].
      rewrite (q_mode _ _ Hq Em) in H1. congruence.
    + now rewrite (q_nev _ _ Hq).
    + rewrite E, count_ev_app, (count_ev_silent is_noisy es silent_not_noisy Hs). lia.
  - intros i s s' _ H (H1 & H2 & H3). pose proof (restart_mode _ _ _ _ H) as Hm.
    destruct (restart_no_noisy _ _ _ _ H H1) as (E1 & es & E2 & E3).
    split; [congruence|]. split; [congruence|]. rewrite E2, count_ev_app. lia.
  - intros j s s' _ H (H1 & H2 & H3). apply remove_fields in H.
    destruct H as (_ & _ & _ & HC & _ & Ht). unfold frozen. now rewrite HC, Ht.
  - intros i q s l s' l' _ _ _ H (H1 & H2 & H3). apply evaluate_sum in H.
    destruct H as (v & noisy & e & es & [He HT _ HC _ Ht _ _ _]).
    pose proof (eval_events_noisy _ _ _ _ _ _ _ _ _ He H1) as E.
    unfold frozen. rewrite HC, Ht, count_ev_app, E. cbn. split; [assumption|]. split; lia.
Qed.
Lemma frozen_pass c i s l s' l' k : pass c i s l = Cont s' l' -> frozen k s -> frozen k s'.
Proof.
  destruct (frozen_pres c k) as (P1 & P2 & P3 & P4).
  apply (pass_preserves c any_inp (frozen k) P1 P2 P3 P4). exact Logic.I.
Qed.
Lemma frozen_start c i0 pa s s' l' k : start_call c i0 pa s = Ok (s', l') -> frozen k s -> frozen k s'.
Proof.
  destruct (frozen_pres c k) as (P1 & P2 & P3 & P4).
  apply (start_preserves c any_inp (frozen k)); [|exact Logic.I]. exact P2.
Qed.

(** ** C13 *)
Definition flag_err (f : bool) (e : Q * Q) : Prop := f = false -> e = (0, 0)%Q.
Definition flags_ok (s : st) : Prop := Forall2 flag_err (all_is_noisy (T s)) (all_err (T s)).

Lemma row_flag c t mode es e : length (all_is_noisy t) = length (all_pos t) ->
  Forall2 flag_err (all_is_noisy t) (all_err t) ->
  row_origin c t mode es e -> flag_err (e_noisy e) (e_err e).
Proof.
  intros HL HF [H1 H2 H3|el eu H1 H2 H3 H4|H1 H2 H3 H4|j Hj ->]; try (intros _; assumption).
  - intros E. congruence.
  - cbn. apply (Forall2_nth _ _ _ false (0, 0)%Q HF). lia.
Qed.

Lemma flags_reach c ok s l : reach c ok s l -> flags_ok s.
Proof.
  intros HR. enough (HH : aligned c (T s) /\ flags_ok s) by apply HH. revert HR.
  apply (reach_preserves c ok (fun s => aligned c (T s) /\ flags_ok s)).
  - intros s0 s1 Hq H. unfold flags_ok. now rewrite (q_T _ _ Hq).
  - intros i s0 s1 _ H (HA & HF). split; [eapply aligned_restart; eauto|].
    apply restart_effect in H.
    destruct H as [(gen & evs & na & nn & usr & uevs & nu & G & _ & U & _ & _ & HT & _)].
    unfold flags_ok. rewrite HT. cbn. apply Forall2_app; [assumption|].
    destruct (aligned_lengths _ _ HA) as (_ & L2 & _).
    assert (R : Forall (fun e => flag_err (e_noisy e) (e_err e)) (gen ++ usr)).
    { apply Forall_app; split.
      - eapply Forall_impl; [|apply (gs_origin _ _ _ _ _ _ _ _ G)].
        intros e. now apply row_flag.
      - eapply Forall_impl; [|apply (us_origin _ _ _ _ _ _ U)].
        intros e. now apply row_flag. }
    clear - R. induction R; cbn; constructor; auto.
  - intros j s0 s1 _ H (HA & HF). split; [eapply aligned_remove; eauto|].
    apply remove_fields in H. destruct H as (_ & HT & _). unfold flags_ok. rewrite HT. cbn.
    now apply Forall2_delete.
  - intros i q s0 l0 s1 l1 _ _ _ H (HA & HF). apply evaluate_sum in H.
    destruct H as (v & noisy & e & es & [He HT _ HC _ Ht _ _ _]).
    split; [rewrite HT; now apply aligned_add|].
    unfold flags_ok. rewrite HT. cbn. apply Forall2_app; [assumption|].
    constructor; [|constructor]. intros E. destruct He; congruence.
  - split; [apply aligned_init|constructor].
Qed.

(** In a single-phase run every node is recorded as accurate. *)
Lemma single_phase_flags c ok s l : no_removal c -> reach c ok s l ->
  Forall (fun b => b = false) (all_is_noisy (T s)).
Proof.
  intros Hn HR.
  enough (HH : aligned c (T s) /\ noisy_mode (C s) = false /\
               Forall (fun b => b = false) (all_is_noisy (T s))) by apply HH. revert HR.
  apply (reach_preserves c ok (fun s => aligned c (T s) /\ noisy_mode (C s) = false /\
               Forall (fun b => b = false) (all_is_noisy (T s)))).
  - intros s0 s1 Hq (H1 & H2 & H3). rewrite (q_T _ _ Hq). split; [assumption|]. split; [|assumption].
    destruct (noisy_mode (C s1)) eqn:Em; [|reflexivity].
    rewrite (q_mode _ _ Hq Em) in H2. congruence.
  - intros i s0 s1 _ H (HA & Hm & HF). split; [eapply aligned_restart; eauto|].
    split; [rewrite (restart_mode _ _ _ _ H); assumption|]. apply restart_effect in H.
    destruct H as [(gen & evs & na & nn & usr & uevs & nu & G & _ & U & _ & _ & HT & _)].
    destruct (aligned_lengths _ _ HA) as (_ & L2 & _).
    rewrite HT. cbn. apply Forall_app; split; [assumption|].
    apply Forall_forall. intros b Hb. apply in_map_iff in Hb. destruct Hb as (e & <- & He).
    assert (R : row_origin c (mark (T s0)) false (evs ++ uevs) e).
    { rewrite <- Hm. apply in_app_or in He. destruct He as [He|He].
      - pose proof (gs_origin _ _ _ _ _ _ _ _ G) as F. rewrite Forall_forall in F.
        eapply row_origin_mono; [|apply F; assumption]. apply incl_appl, incl_refl.
      - pose proof (us_origin _ _ _ _ _ _ U) as F. rewrite Forall_forall in F.
        eapply row_origin_mono; [|apply F; assumption]. apply incl_appr, incl_refl. }
    destruct R as [H1 H2 H3|el eu H1 H2 H3 H4|H1 H2 H3 H4|j Hj ->].
    + destruct H3; assumption.
    + discriminate.
    + assumption.
    + cbn. rewrite Forall_forall in HF. apply HF. apply nth_In. cbn in Hj. lia.
  - destruct Hn. intros j s0 s1 [(? & _)|?]; [congruence|lra].
  - intros i q s0 l0 s1 l1 _ _ _ H (HA & Hm & HF). apply evaluate_sum in H.
    destruct H as (v & noisy & e & es & [He HT _ HC _ Ht _ _ _]).
    split; [rewrite HT; now apply aligned_add|]. split; [rewrite HC; exact Hm|].
    rewrite HT. cbn. apply Forall_app; split; [assumption|]. constructor; [|constructor].
    destruct He; congruence.
  - split; [apply aligned_init|]. split; [apply Hn|constructor].
Qed.

(** ** C11 *)
Definition no_repeat (eps : Q) (tr : list event) : Prop :=
  forall t1 z p v t2, tr = t1 ++ EvStep z :: EvAcc p v :: t2 ->
  forall q w, In (EvAcc q w) t1 -> dist_lt p q eps = false.

Lemma split_pair {A} (a b : A) tr : forall es t1 t2, ~ In a es ->
  tr ++ es = t1 ++ a :: b :: t2 ->
  (exists t2', tr = t1 ++ a :: b :: t2') \/ (tr = t1 ++ [a] /\ es = b :: t2).
Proof.
  induction tr as [|x tr IH]; intros es t1 t2 Hn H; cbn in H.
  - exfalso. apply Hn. rewrite H. apply in_or_app; simpl; auto.
  - destruct t1 as [|y t1]; cbn in H.
    + injection H as -> H. destruct tr as [|x' tr]; cbn in H.
      * right. split; [reflexivity|exact H].
      * injection H as -> _. left. eexists; reflexivity.
    + injection H as -> H. destruct (IH es t1 t2 Hn H) as [(t2' & ->)|(-> & ->)].
      * left. eexists; reflexivity.
      * right. split; reflexivity.
Qed.

Lemma no_repeat_app eps tr es : (forall z, ~ In (EvStep z) es) -> no_repeat eps tr ->
  (forall p v r, es = EvAcc p v :: r -> forall q w, In (EvAcc q w) tr -> dist_lt p q eps = false) ->
  no_repeat eps (tr ++ es).
Proof.
  intros Hn HR H t1 z p v t2 E q w Hin.
  destruct (split_pair _ _ _ _ _ _ (Hn z) E) as [(t2' & E')|(E1 & E2)].
  - exact (HR _ _ _ _ _ E' q w Hin).
  - apply (H p v t2 E2 q w). rewrite E1. apply in_or_app; auto.
Qed.
Lemma no_repeat_silent eps tr es : Forall silent es -> no_repeat eps tr -> no_repeat eps (tr ++ es).
Proof.
  intros HF. revert tr. induction HF as [|e es He HF IH]; intros tr HR.
  - now rewrite app_nil_r.
  - change (e :: es) with ([e] ++ es). rewrite app_assoc. apply IH.
    intros t1 z p v t2 E q w Hin.
    destruct e; cbn in He; try tauto.
    + eapply (no_repeat_app eps tr [EvSave it]); eauto; [intros z' [H|[]]; discriminate|].
      intros p0 v0 r H; discriminate.
    + (* EvStep last: the pair must lie inside tr *)
      destruct t2 as [|x t2] using rev_ind.
      * change (t1 ++ [EvStep z; EvAcc p v]) with (t1 ++ [EvStep z] ++ [EvAcc p v]) in E.
        rewrite app_assoc in E. apply app_inj_tail in E. destruct E; discriminate.
      * clear IHt2. change (EvStep z :: EvAcc p v :: t2 ++ [x]) with
          ((EvStep z :: EvAcc p v :: t2) ++ [x]) in E. rewrite app_assoc in E.
        apply app_inj_tail in E. destruct E as [E _]. eapply HR; eauto.
Qed.

Definition rep_inv (c : cfg) (s : st) : Prop :=
  all_recorded c s /\ Forall (fun b => b = false) (all_is_noisy (T s)) /\
  no_repeat (eps_zero c) (trace s).

Lemma recorded_quiet c s0 s1 : quiet s0 s1 -> all_recorded c s0 -> all_recorded c s1.
Proof.
  intros Hq (A1 & A2 & A3). split; [now rewrite (q_T _ _ Hq)|]. split.
  - destruct (noisy_mode (C s1)) eqn:E; [|reflexivity]. rewrite (q_mode _ _ Hq E) in A2. congruence.
  - destruct (q_trace _ _ Hq) as (es & -> & Hs). apply Forall_app; split.
    + eapply Forall_impl; [|exact A3]. intros e. unfold recorded_pos. now rewrite (q_T _ _ Hq).
    + eapply Forall_impl; [|exact Hs]. intros e. destruct e; cbn; tauto.
Qed.
Lemma recorded_eval c i p s0 l0 s1 l1 :
  evaluate c i p (to_orig c p) s0 l0 = Ok (s1, l1) -> all_recorded c s0 -> all_recorded c s1.
Proof.
  intros H (H1 & H2 & H3). apply evaluate_sum in H.
  destruct H as (v & noisy & e & es & [He HT _ HC _ Ht _ _ _]).
  destruct (aligned_lengths _ _ H1) as (L1 & L2 & L3 & L4).
  split; [rewrite HT; now apply aligned_add|]. split; [rewrite HC; exact H2|].
  rewrite Ht. apply Forall_app; split.
  - eapply Forall_impl; [|exact H3]. intros e'.
    eapply recorded_ext; [rewrite HT; reflexivity|rewrite HT; reflexivity|assumption].
  - destruct He as [j Hj Hn|j e Hj Hn Hm Hl|Hlk Hm|v el eu Hv Hm Hlk|v el eu Hv Hm Hlk Hreq];
      try congruence; constructor; auto.
    exists (length (all_pos (T s0))). rewrite HT. cbn.
    rewrite app_length, !app_nth2 by lia. rewrite Nat.sub_diag, L1, Nat.sub_diag. cbn.
    repeat split; lia.
Qed.
Lemma flags_restart c i s0 s1 : restart c i s0 = Ok s1 -> aligned c (T s0) ->
  noisy_mode (C s0) = false -> Forall (fun b => b = false) (all_is_noisy (T s0)) ->
  Forall (fun b => b = false) (all_is_noisy (T s1)).
Proof.
  intros H HA Hm HF. apply restart_effect in H.
  destruct H as [(gen & evs & na & nn & usr & uevs & nu & G & _ & U & _ & _ & HT & _)].
  destruct (aligned_lengths _ _ HA) as (_ & L2 & _).
  rewrite HT. cbn. apply Forall_app; split; [assumption|].
  apply Forall_forall. intros b Hb. apply in_map_iff in Hb. destruct Hb as (e & <- & He).
  assert (R : row_origin c (mark (T s0)) false (evs ++ uevs) e).
  { rewrite <- Hm. apply in_app_or in He. destruct He as [He|He].
    - pose proof (gs_origin _ _ _ _ _ _ _ _ G) as F. rewrite Forall_forall in F.
      eapply row_origin_mono; [|apply F; assumption]. apply incl_appl, incl_refl.
    - pose proof (us_origin _ _ _ _ _ _ U) as F. rewrite Forall_forall in F.
      eapply row_origin_mono; [|apply F; assumption]. apply incl_appr, incl_refl. }
  destruct R as [H1 H2 H3|el eu H1 H2 H3 H4|H1 H2 H3 H4|j Hj ->].
  + destruct H3; assumption.
  + discriminate.
  + assumption.
  + cbn. rewrite Forall_forall in HF. apply HF. apply nth_In. cbn in Hj. lia.
Qed.
Lemma scaling_off_orig c p : scaling_on (affine c) (integer_vars c) = false -> to_orig c p = p.
Proof. intros H. unfold to_orig, transform_domain. now rewrite H. Qed.
Lemma scaling_off_scaled c p : scaling_on (affine c) (integer_vars c) = false -> to_scaled c p = p.
Proof. intros H. unfold to_scaled, transform_domain. now rewrite H. Qed.

Lemma no_repeat_reach c ok s l : no_removal c ->
  scaling_on (affine c) (integer_vars c) = false -> (eps_zero c <= min_dist c)%Q ->
  reach c ok s l -> no_repeat (eps_zero c) (trace s).
Proof.
  intros Hn Hsc Hle HR.
  enough (HH : rep_inv c s) by apply HH. revert HR.
  apply (reach_preserves c ok (rep_inv c)).
  - intros s0 s1 Hq (H1 & H2 & H3). split; [eapply recorded_quiet; eauto|].
    split; [now rewrite (q_T _ _ Hq)|].
    destruct (q_trace _ _ Hq) as (es & -> & Hs). now apply no_repeat_silent.
  - intros i s0 s1 _ H (H1 & H2 & H3). split; [eapply recorded_restart; eauto|].
    split; [eapply flags_restart; eauto; apply H1|]. apply restart_effect in H.
    destruct H as [(gen & evs & na & nn & usr & uevs & nu & G & _ & U & _ & _ & _ & _ & _ & _ & Ht)].
    rewrite Ht. apply no_repeat_app; [|assumption|intros; discriminate].
    intros z [Hin|Hin]; [discriminate|]. apply in_app_or in Hin. destruct Hin as [Hin|Hin].
    + destruct (gs_events _ _ _ _ _ _ _ _ G _ Hin); discriminate.
    + pose proof (us_rec _ _ _ _ _ _ U) as F. rewrite Forall_forall in F. exact (F _ Hin).
  - destruct Hn. intros j s0 s1 [(? & _)|?]; [congruence|lra].
  - intros i q s0 l0 s1 l1 _ _ Hacc H (H1 & H2 & H3).
    split; [eapply recorded_eval; eauto|].
    pose proof H1 as (HA & Hm & HF).
    destruct (aligned_lengths _ _ HA) as (L1 & L2 & L3 & L4).
    apply evaluate_sum in H.
    destruct H as (v & noisy & e & es & [He HT _ HC _ Ht _ _ _]).
    set (p := clip q (l_lower c) (l_upper c)) in *.
    split.
    { rewrite HT. cbn. apply Forall_app; split; [assumption|]. constructor; [|constructor].
      destruct He; congruence. }
    rewrite Ht. apply no_repeat_app; [|assumption|].
    { intros z Hin. destruct He; cbn in Hin; try tauto; try (destruct Hin as [?|[]]; discriminate).
      destruct Hin as [?|[?|[]]]; discriminate. }
    rewrite (scaling_off_orig c p Hsc) in He.
    destruct He as [j Hj Hf|j e Hj Hf Hm' Hl|Hlk Hm'|v el eu Hv Hm' Hlk|v el eu Hv Hm' Hlk Hreq];
      try congruence; intros p0 v0 r E q0 w Hin.
    injection E as <- _ _.
    assert (Hlk' : lookup_old c (T s0) p = None).
    { destruct Hlk as [?|(j & Hj & Hf)]; [assumption|]. exfalso.
      destruct (lookup_old_spec c (T s0) p j) as (_ & Hj2 & _); [lia|assumption|].
      rewrite Forall_forall in H2. rewrite (H2 (nth j (all_is_noisy (T s0)) false)) in Hf; [discriminate|].
      apply nth_In. lia. }
    rewrite Forall_forall in HF. specialize (HF _ Hin). cbn in HF.
    destruct HF as (j & Hj & Ej & _).
    destruct HA as [(opos & oval & onoisy & oerr & npos & Q1 & _ & _ & _ & Q5 & _ & _ & _ & Q9) _ _ _].
    assert (Hq0 : In q0 opos \/ In q0 npos).
    { apply in_app_or. rewrite <- Q5, <- Ej. now apply nth_In. }
    destruct Hq0 as [Hq0|Hq0].
    + apply (lookup_old_none c (T s0) p); [lia|assumption|]. rewrite Q5, <- Q1, firstn_app, Nat.sub_diag, firstn_all.
      cbn. now rewrite app_nil_r.
    + destruct Hacc as (_ & Hnear).
      destruct (dist_lt p q0 (eps_zero c)) eqn:Ed; [|reflexivity]. exfalso.
      apply dist_lt_iff in Ed. destruct Ed as (E0 & E1).
      destruct (Forall2_In_r _ _ _ _ Q9 Hq0) as (x & Hx & Hrel).
      assert (x = q0).
      { destruct Hrel as [Hr|Hr]; [rewrite scaling_off_orig in Hr by assumption
                                  |rewrite scaling_off_scaled in Hr by assumption]; congruence. }
      subst x. rewrite near_false in Hnear by apply Hn. specialize (Hnear q0 Hx).
      assert (eps_zero c * eps_zero c <= min_dist c * min_dist c)%Q by nra. lra.
  - split; [split; [apply aligned_init|split; [apply Hn|constructor]]|].
    split; [constructor|]. intros t1 z p v t2 E. destruct t1; discriminate.
Qed.
