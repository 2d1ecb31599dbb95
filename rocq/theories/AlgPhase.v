(** * When the phase of noisy evaluations ends (C12). *)
From Verif Require Export AlgMode AlgSched AlgGlue.
Open Scope Z_scope.

Definition same_phase (s s' : st) : Prop :=
  noisy_mode (C s') = noisy_mode (C s) /\ itercount (C s') = itercount (C s).
Lemma restart_same c i s s' : restart c i s = Ok s' -> same_phase s s'.
Proof.
  intros H. split; [exact (restart_mode _ _ _ _ H)|]. apply restart_effect in H.
  destruct H as [(gen & evs & na & nn & usr & uevs & nu & _ & _ & _ & _ & _ & _ & _ & HC & _)]. now rewrite HC.
Qed.
Lemma remove_same j s s' : remove_node j s = Ok s' -> same_phase s s'.
Proof. intros H. apply remove_fields in H. destruct H as (_ & _ & _ & HC & _). unfold same_phase. now rewrite HC. Qed.
Lemma same_trans a b d : same_phase a b -> same_phase b d -> same_phase a d.
Proof. unfold same_phase. intros (A & B) (X & Y). split; congruence. Qed.
Lemma update_same c i s s' : refinement_update c i s = Ok s' -> same_phase s s'.
Proof.
  unfold refinement_update. cbv zeta. destruct (ref_radius _); [|discriminate]. destruct (ref_iterate_index _); [|discriminate].
  match goal with |- match ?x with None => _ | _ => _ end = _ -> _ => destruct x end; [|discriminate].
  destruct (_ && stale _ _); [discriminate|]. destruct (_ && stale _ _); [discriminate|]. intros H. injection H as <-.
  unfold same_phase. cbn [C set_C set_R]. destruct (_ || _); split; reflexivity.
Qed.
Lemma after_same c i s s' : after_eval c i s = Ok s' -> same_phase s s'.
Proof.
  unfold after_eval. cbv zeta. destruct (_ =? refinement_step c).
  - destruct (refinement_update c i s) as [s1|] eqn:E; cbn [bind]; [|discriminate]. apply update_same in E.
    intros H. injection H as <-. exact E.
  - destruct (_ && _); cbn [bind]; intros H; injection H as <-; split; try reflexivity; cbn; destruct (_ <? _); reflexivity.
Qed.
Lemma search_same c i s s' p : search c i s = FPoint s' p -> same_phase s s'.
Proof.
  unfold search. cbv zeta. destruct (_ =? restoration_step c).
  - destruct (restoration_search c i s) as [[[p0 r]|]|]; [| |discriminate].
    + destruct (remove_node r s) eqn:E; [|discriminate]. intros H. injection H as <- _. exact (remove_same _ _ _ E).
    + destruct (_ && _); [discriminate|]. destruct (restart c i s); discriminate.
  - destruct (_ =? local_search_step c); [|intros H; injection H as <- _; split; reflexivity].
    destruct (local_result c i s) as [j|]; [|intros H; injection H as <- _; split; reflexivity].
    destruct (nth_error _ j); [|discriminate]. destruct (remove_node j s) eqn:E; [|discriminate].
    intros H. injection H as <- _. exact (remove_same _ _ _ E).
Qed.
Lemma next_same c i s s' : search c i s = FNext s' -> same_phase s s'.
Proof.
  unfold search. cbv zeta. destruct (_ =? restoration_step c).
  - destruct (restoration_search c i s) as [[[p0 r]|]|]; [| |discriminate].
    + destruct (remove_node r s) eqn:E; discriminate.
    + destruct (_ && _).
      * intros H. injection H as <-. unfold same_phase. cbn. destruct (_ <? _); split; reflexivity.
      * destruct (restart c i s) eqn:E; [|discriminate]. intros H. injection H as <-. exact (restart_same _ _ _ _ E).
  - destruct (_ =? local_search_step c); [|discriminate].
    destruct (local_result c i s) as [j|]; [|discriminate].
    destruct (nth_error _ j); [|discriminate]. destruct (remove_node j s) eqn:E; discriminate.
Qed.
Lemma prepare_same c i s : match prepare c i s with PGo s' | PNext s' => same_phase s s' | PFail _ => True end.
Proof.
  unfold prepare. cbv zeta. destruct (_ <=? _); [destruct (i_lin_ok i); split; reflexivity|].
  destruct (_ =? _); [|split; reflexivity]. destruct (_ && stale _ _); [exact Logic.I|]. destruct (_ && (_ <? _)%nat); [exact Logic.I|].
  set (s1 := if _ =? 0 then _ else s). assert (E : same_phase s s1) by (unfold s1; destruct (_ =? 0); split; reflexivity).
  clearbody s1. destruct (stale _ _); [exact Logic.I|]. destruct (negb _).
  - destruct E as (E1 & E2). split; reflexivity.
  - destruct (ref_iterate_index _); [|exact Logic.I]. destruct (stale _ _); [exact Logic.I|exact E].
Qed.
Lemma conclude_phase c i s p l s' l' : conclude c i s p l = Cont s' l' ->
  exists s2, same_phase s s2 /\ end_of_pass c s2 = Ok s'.
Proof.
  unfold conclude. cbv zeta. intros H.
  assert (D : forall s3 l3, match end_of_pass c (set_R (set_cons 0 (Rf (set_C (set_discarded (push_window (window c) (discarded (C (advance_st c s))) true)
    (C (advance_st c s))) (advance_st c s)))) (set_C (set_discarded (push_window (window c) (discarded (C (advance_st c s))) true)
    (C (advance_st c s))) (advance_st c s))) with Ok s4 => Cont s4 l | Fail e => Crash e end = Cont s3 l3 ->
    exists s2, same_phase s s2 /\ end_of_pass c s2 = Ok s3).
  { intros s3 l3 X. destruct (end_of_pass c _) as [s4|] eqn:E; [|discriminate]. injection X as <- _. eexists. split; [|exact E].
    unfold same_phase. cbn. destruct (_ <? _); split; reflexivity. }
  destruct (option_map _ p) as [q|]; [|eauto].
  destruct (node_pos (T s)); [discriminate|]. destruct (near _ _ _); [eauto|].
  destruct (evaluate _ _ _ _ _ _) as [[s1 l1]|] eqn:E1; cbn [bind fst snd] in H; [|discriminate].
  destruct (after_eval c i s1) as [s2|] eqn:E2; cbn [bind] in H; [|discriminate].
  destruct (end_of_pass c s2) as [s3|] eqn:E3; cbn [bind] in H; [|discriminate]. injection H as <- _.
  exists s2. split; [|exact E3]. apply after_same in E2. apply same_trans with s1; [|exact E2].
  apply evaluate_sum in E1. destruct E1 as (v & noisy & e & es & [He HT _ HC _ Ht _ _ _]). unfold same_phase. now rewrite HC.
Qed.
Lemma pass_phase c i s l s' l' : pass c i s l = Cont s' l' ->
  same_phase s s' \/ exists s2, same_phase s s2 /\ end_of_pass c s2 = Ok s'.
Proof.
  unfold pass. destruct (negb _); [discriminate|]. destruct (skip_step _ _).
  - intros H. injection H as <- _. left. unfold same_phase. cbn. destruct (_ <? _); split; reflexivity.
  - destruct (if must_restart _ _ then _ else _) as [s1|] eqn:E1; [|discriminate].
    assert (S1 : same_phase s s1).
    { destruct (must_restart _ _); [exact (restart_same _ _ _ _ E1)|]. injection E1 as <-. split; reflexivity. }
    pose proof (prepare_same c i s1) as PS. destruct (prepare c i s1) as [s2|s2|]; [| |discriminate].
    + pose proof (same_trans _ _ _ S1 PS) as S2. cbv zeta. destruct (negb _); [discriminate|].
      set (s3 := emit _ s2). assert (S3 : same_phase s s3) by exact S2. clearbody s3.
      destruct (search c i s3) as [s4 pr|s4|] eqn:Es; [| |discriminate].
      * intros H. apply search_same in Es. apply conclude_phase in H. destruct H as (s5 & A & B). right. exists s5.
        split; [|exact B]. eapply same_trans; [exact S3|]. eapply same_trans; eassumption.
      * intros H. injection H as <- _. left. apply next_same in Es. eapply same_trans; eassumption.
    + intros H. injection H as <- _. left. eapply same_trans; eassumption.
Qed.
(** A limit of the noisy phase has been reached. *)
Definition noisy_phase_over (c : cfg) (s : st) : Prop :=
  max_noisy_restarts c < num_noisy_restarts (C s) \/ max_noisy_iterations c <= itercount (C s) \/
  max_noisy_evaluations c <= noisy_evalcount (C s).
Lemma stall_noisy c s : let s' := stalling_update c s in noisy_mode (C s') = noisy_mode (C s) /\
  num_noisy_restarts (C s') = num_noisy_restarts (C s) /\ noisy_evalcount (C s') = noisy_evalcount (C s) /\ itercount (C s') = itercount (C s).
Proof.
  cbv zeta. unfold stalling_update. destruct (fmin (I s)), (fmin_stall_check (C s)); try destruct (improves _ _ _); repeat split; reflexivity.
Qed.
Lemma end_phase c s s' : end_of_pass c s = Ok s' -> has_noisy c = true ->
  (noisy_mode (C s') = true <-> noisy_mode (C s) = true /\ ~ noisy_phase_over c s').
Proof.
  intros H Hn. unfold end_of_pass in H. cbv zeta in H. destruct (_ =? 0); [discriminate|].
  set (s1 := set_C _ s) in *. assert (M : noisy_mode (C s1) = noisy_mode (C s)) by reflexivity. clearbody s1.
  destruct (stall_noisy c s1) as (A1 & A2 & A3 & A4). cbv zeta in *. set (s2 := stalling_update c s1) in *. clearbody s2.
  assert (X : C s' = C (phase_update c s2)) by (destruct (_ =? 0); injection H as <-; reflexivity).
  unfold noisy_phase_over. rewrite X. clear X H. rewrite <- M, <- A1. unfold phase_update. rewrite Hn. cbn [andb].
  destruct (noisy_mode (C s2)) eqn:Em; cbn [andb]; [|rewrite Em; split; [discriminate|intros (Y & _); discriminate]].
  destruct (Z.ltb_spec (max_noisy_restarts c) (num_noisy_restarts (C s2))); cbn [orb].
  - cbn. split; [discriminate|]. intros (_ & Y). exfalso. apply Y. left. assumption.
  - destruct (Z.leb_spec (max_noisy_iterations c) (itercount (C s2))); cbn [orb].
    + cbn. split; [discriminate|]. intros (_ & Y). exfalso. apply Y. right. left. assumption.
    + destruct (Z.leb_spec (max_noisy_evaluations c) (noisy_evalcount (C s2))); cbn [orb].
      * cbn. split; [discriminate|]. intros (_ & Y). exfalso. apply Y. right. right. assumption.
      * rewrite Em. split; [intros _; split; [reflexivity|]|reflexivity]. lia.
Qed.

(** ** Number of noisy evaluations *)
Lemma restart_noisy_budget c i s s' S : 0 <= S -> sample_bound c S i -> restart c i s = Ok s' ->
  noisy_evalcount (C s) <= noisy_evalcount (C s') <= noisy_evalcount (C s) + S.
Proof.
  intros HS Hb H. apply restart_effect in H.
  destruct H as [(gen & evs & na & nn & usr & uevs & nu & G & _ & U & _ & _ & _ & _ & HC & _)].
  rewrite HC. cbn.
  pose proof (gs_bound _ _ _ _ _ _ _ _ G) as B1.
  pose proof (gs_na _ _ _ _ _ _ _ _ G) as B2. pose proof (gs_nn _ _ _ _ _ _ _ _ G) as B3.
  pose proof (count_ev_nonneg is_acc evs). pose proof (count_ev_nonneg is_noisy evs).
  assert (B6 : Z.of_nat (length gen) <= S).
  { destruct (gs_len _ _ _ _ _ _ _ _ G) as [->|(pts & E & ->)]; [cbn; lia|].
    unfold sample_bound in Hb. now rewrite E in Hb. }
  lia.
Qed.
Lemma restart_noisy_none c i s s' : restart c i s = Ok s' -> restart_accurate c (bump_restarts (C s)) = true ->
  noisy_evalcount (C s') = noisy_evalcount (C s).
Proof.
  intros H Hacc. unfold restart in H. cbv zeta in H. fold (mark (T s)) in H. fold (bump_restarts (C s)) in H.
  destruct (restart_gen c (bump_restarts (C s)) (mark (T s)) i) as [[[[gen evs] na] nn]|] eqn:Eg; cbn [bind] in H; [|discriminate].
  assert (N : nn = 0).
  { unfold restart_gen in Eg. rewrite Hacc in Eg. destruct (_ || _); [|congruence]. destruct (i_samples i); [|discriminate].
    cbv zeta in Eg. destruct (if (_ =? 0)%nat then _ else _) as [new prev]. cbn [negb andb] in Eg.
    destruct (eval_samples _ _ _ _). congruence. }
  subst nn. destruct (restart_user c (bump_restarts (C s)) gen i) as [[usr uevs] nu] eqn:Eu.
  destruct (gen ++ usr) as [|e0 rest] eqn:Er; [discriminate|].
  match type of H with context [current_gap c ?x] => destruct (current_gap c x) as [g|] eqn:Ec end; cbn [bind] in H; [|discriminate].
  destruct (_ =? 1)%nat; [discriminate|]. injection H as <-.
  match goal with |- context [log_all ?v ?gg ?x] => destruct (log_all_fields v gg x) as (F1 & F2 & F3 & F4 & F5) end.
  rewrite F2. cbn. lia.
Qed.
Lemma eval_noisy_count c i po s l v noisy e es : eval_events c i po s l v noisy e es -> 0 <= count_ev is_noisy es <= 1.
Proof. destruct 1; cbn; lia. Qed.
Lemma conclude_noisy c i s prop l s' l' : conclude c i s prop l = Cont s' l' ->
  noisy_evalcount (C s) <= noisy_evalcount (C s') <= noisy_evalcount (C s) + 1 /\
  (noisy_mode (C s) = false -> noisy_evalcount (C s') = noisy_evalcount (C s)).
Proof.
  intros H. apply conclude_effect in H. destruct H as [s' Hq Hi|q p s1 l1 s' Hp Hc Ha He Hq Hi].
  - rewrite (q_nev _ _ Hq). lia.
  - rewrite (q_nev _ _ Hq). apply evaluate_sum in He.
    destruct He as (v & noisy & e & es & [Hev _ _ HC _ _ _ _ _]). rewrite HC. cbn.
    pose proof (eval_noisy_count _ _ _ _ _ _ _ _ _ Hev). split; [lia|]. intros Hm. rewrite (eval_events_noisy _ _ _ _ _ _ _ _ _ Hev Hm). lia.
Qed.
(** The invariant: [M] is the limit on noisy evaluations, [S] bounds the size of a sample. *)
Definition noisy_ok (c : cfg) (S : Z) (s : st) : Prop :=
  let M := max_noisy_evaluations c in
  noisy_evalcount (C s) <= Z.max 1 (Z.max M (M + S - Z.of_nat (n c) - 1)) /\
  (noisy_mode (C s) = true -> noisy_evalcount (C s) <= Z.max 0 (Z.max (M - 1) (M + S - Z.of_nat (n c) - 2))).
Lemma noisy_ok_ctrs c S s s' : noisy_mode (C s') = noisy_mode (C s) -> noisy_evalcount (C s') = noisy_evalcount (C s) -> noisy_ok c S s -> noisy_ok c S s'.
Proof. unfold noisy_ok. intros -> ->. auto. Qed.
Lemma noisy_ok_restart c S i s s' : 0 <= S -> sample_bound c S i -> restart c i s = Ok s' -> noisy_ok c S s -> noisy_ok c S s'.
Proof.
  intros HS Hb H HN. destruct (restart_accurate c (bump_restarts (C s))) eqn:Ea.
  - apply (noisy_ok_ctrs c S s); [exact (restart_mode _ _ _ _ H)|exact (restart_noisy_none _ _ _ _ H Ea)|exact HN].
  - pose proof (restart_noisy_budget _ _ _ _ _ HS Hb H) as B. unfold restart_accurate in Ea. apply orb_false_iff in Ea. destruct Ea as (_ & Ea).
    apply Z.leb_gt in Ea. cbn in Ea. unfold noisy_ok in *. cbv zeta in *. split; [lia|intros _; lia].
Qed.
Lemma noisy_ok_conclude c S i s p l s' l' : has_noisy c = true -> conclude c i s p l = Cont s' l' -> noisy_ok c S s -> noisy_ok c S s'.
Proof.
  intros Hn H (A & B). destruct (conclude_noisy _ _ _ _ _ _ _ H) as (D1 & D2). apply conclude_phase in H. destruct H as (s2 & (E1 & _) & E2).
  pose proof (end_phase _ _ _ E2 Hn) as EP. unfold noisy_ok. cbv zeta. destruct (noisy_mode (C s)) eqn:Em.
  - specialize (B eq_refl). split; [lia|]. intros M. apply EP in M. destruct M as (_ & M). unfold noisy_phase_over in M. lia.
  - rewrite (D2 eq_refl). split; [exact A|]. intros M. apply EP in M. destruct M as (M & _). congruence.
Qed.
Lemma noisy_ok_pass c S i s l s' l' : has_noisy c = true -> 0 <= S -> sample_bound c S i -> pass c i s l = Cont s' l' -> noisy_ok c S s -> noisy_ok c S s'.
Proof.
  intros Hn HS Hb H HN. unfold pass in H. destruct (negb _); [discriminate|]. destruct (skip_step _ _).
  - injection H as <- _. apply (noisy_ok_ctrs c S s); auto; cbn; destruct (_ <? _); reflexivity.
  - destruct (if must_restart _ _ then _ else _) as [s1|] eqn:E1; [|discriminate].
    assert (N1 : noisy_ok c S s1).
    { destruct (must_restart _ _); [exact (noisy_ok_restart _ _ _ _ _ HS Hb E1 HN)|]. injection E1 as <-. exact HN. }
    pose proof (quiet_prepare c i s1) as Qp. pose proof (prepare_same c i s1) as PS. destruct (prepare c i s1) as [s2|s2|] eqn:Ep; [| |discriminate].
    + assert (N2 : noisy_ok c S s2) by (apply (noisy_ok_ctrs c S s1); [apply PS|apply (q_nev _ _ (Qp _ eq_refl))|exact N1]).
      cbv zeta in H. destruct (negb _); [discriminate|]. set (s3 := emit _ s2) in *. assert (N3 : noisy_ok c S s3) by exact N2. clearbody s3.
      pose proof (search_effect c i s3) as Hs. destruct (search c i s3) as [s4 pr|s4|] eqn:Es; [| |discriminate].
      * apply (noisy_ok_conclude _ _ _ _ _ _ _ _ Hn H). assert (E4 : C s4 = C s3).
        { inversion Hs; subst; auto.
          - now match goal with H : remove_node _ _ = Ok _ |- _ => apply remove_fields in H end.
          - now match goal with H : remove_node _ _ = Ok _ |- _ => apply remove_fields in H end. }
        unfold noisy_ok. rewrite E4. exact N3.
      * injection H as <- _. inversion Hs as [s5 Hq|s5 Hr| | | |]; subst.
        -- apply (noisy_ok_ctrs c S s3); [|exact (q_nev _ _ Hq)|exact N3]. apply next_same in Es. apply Es.
        -- exact (noisy_ok_restart _ _ _ _ _ HS Hb Hr N3).
    + injection H as <- _. apply (noisy_ok_ctrs c S s1); [apply PS|apply (q_nev _ _ (Qp _ eq_refl))|exact N1].
Qed.
Lemma noisy_ok_reach c (ok : inp -> Prop) S s l : has_noisy c = true -> 0 <= S -> (forall i, ok i -> sample_bound c S i) -> reach c ok s l -> noisy_ok c S s.
Proof.
  intros Hn HS HB HR.
  assert (X : forall i0 pa s0 s1 l1, ok i0 -> start_call c i0 pa s0 = Ok (s1, l1) -> noisy_ok c S s0 -> noisy_ok c S s1).
  { intros i0 pa s0 s1 l1 Hok H HN. unfold start_call in H. destruct (if _ =? 0 then _ else _) as [s2|] eqn:E; cbn [bind] in H; [|discriminate].
    destruct (current_gap c s2); cbn [bind] in H; [|discriminate]. injection H as <- _. destruct (_ =? 0).
    - exact (noisy_ok_restart _ _ _ _ _ HS (HB _ Hok) E HN).
    - injection E as <-. exact HN. }
  induction HR as [i0 pa s l Hok H|i0 pa s0 l0 s l Hok HR IH H|i s0 l0 s l Hok HR IH H].
  - apply (X i0 pa _ _ _ Hok H). unfold noisy_ok. cbn. split; [lia|]. intros _. lia.
  - apply (X i0 pa _ _ _ Hok H IH).
  - exact (noisy_ok_pass _ _ _ _ _ _ _ Hn HS (HB _ Hok) H IH).
Qed.
