(** * Fine-grained preservation: one hypothesis per update of the main loop. *)
From Verif Require Export AlgMode.
From Coq Require Import Lia Lqa.
Open Scope Z_scope.

Definition discard_st (c : cfg) (s : st) : st :=
  let s1 := advance_st c s in
  let s2 := set_C (set_discarded (push_window (window c) (discarded (C s1)) true)
                                 (C s1)) s1 in
  set_R (set_cons 0 (Rf s2)) s2.

(** At least one search step can be executed. *)
Definition some_step (c : cfg) : Prop := 0 <= num_global_searches c /\
  (num_global_searches c <> 0 \/ do_infstep c = true \/ do_local_search c = true).

Section Fine.
  Variable c : cfg.
  Variable ok : inp -> Prop.
  Variable P : st -> Prop.
  Hypothesis F_skip : forall s, skip_step c (C s) = true -> P s -> P (advance_st c s).
  Hypothesis F_restart : forall i s s', ok i -> restart c i s = Ok s' -> P s -> P s'.
  Hypothesis F_restore_step : forall s, current_step (C s) <= local_search_step c ->
    P s -> P (set_C (set_step (restoration_step c) (C s)) s).
  Hypothesis F_refs : forall s r, P s -> P (set_R r s).
  Hypothesis F_abandon : forall s, current_step (C s) = refinement_step c -> P s ->
    P (set_C (set_cycle (cyclecount (C s) + 1) (set_step (first_step c) (C s))) s).
  Hypothesis F_step : forall s, (some_step c -> skip_step c (C s) = false) -> P s ->
    P (emit [EvStep (current_step (C s))] s).
  Hypothesis F_underdet : forall s, current_step (C s) = restoration_step c -> P s ->
    P (set_C (set_underdet true (advance c (C s))) s).
  Hypothesis F_remove : forall j s s', remove_node j s = Ok s' -> P s -> P s'.
  Hypothesis F_eval : forall i p s l s' l', ok i -> accepted c s p ->
    evaluate c i p (to_orig c p) s l = Ok (s', l') -> P s -> P s'.
  Hypothesis F_after : forall i s s', after_eval c i s = Ok s' -> P s -> P s'.
  Hypothesis F_discard : forall s, P s -> P (discard_st c s).

  Definition ends (s' : st) : Prop := P s' \/ exists sm, P sm /\ end_of_pass c sm = Ok s'.

  Lemma fine_conclude i s prop l s' l' : ok i -> conclude c i s prop l = Cont s' l' -> P s -> ends s'.
  Proof.
    unfold conclude. cbv zeta. intros Hok H HP.
    assert (D : match end_of_pass c (discard_st c s) with Ok s4 => Cont s4 l | Fail e => Crash e end
                = Cont s' l' -> ends s').
    { destruct (end_of_pass c (discard_st c s)) as [s4|] eqn:E; [|discriminate].
      intros HH; inversion HH; subst. right. eexists; split; [|exact E]. now apply F_discard. }
    destruct prop as [q|]; cbn [option_map] in H; [|apply D; exact H].
    destruct (node_pos (T s)) as [|x xs] eqn:En; [discriminate|].
    destruct (near (min_dist c) (clip q (l_lower c) (l_upper c)) (x :: xs)) eqn:Enear;
      [apply D; exact H|].
    destruct (evaluate c i _ _ s l) as [[s1 l1]|] eqn:Ee; cbn [bind fst snd] in H; [|discriminate].
    destruct (after_eval c i s1) as [s2|] eqn:Ea; cbn [bind] in H; [|discriminate].
    destruct (end_of_pass c s2) as [s3|] eqn:Eend; cbn [bind] in H; [|discriminate].
    inversion H; subst.
    right. eexists; split; [|exact Eend]. eapply F_after; [exact Ea|]. eapply F_eval; [exact Hok| |exact Ee|exact HP].
    unfold accepted. rewrite En. split; [congruence|exact Enear].
  Qed.

  Lemma fine_prepare i s s' : prep_state (prepare c i s) = Some s' -> P s -> P s'.
  Proof.
    unfold prepare. cbv zeta. intros H HP.
    destruct (current_step (C s) <=? local_search_step c) eqn:El.
    { destruct (i_lin_ok i); cbn in H; inversion H; subst; [assumption|].
      apply F_restore_step; [now apply Z.leb_le|assumption]. }
    destruct (current_step (C s) =? refinement_step c) eqn:Er.
    2: { cbn in H; inversion H; subst; assumption. }
    apply Z.eqb_eq in Er.
    destruct (num_cons_refinement (Rf s) =? 0); cbn [andb] in H; cbv iota in H.
    - destruct (stale (T s) [fmin_index (I s)]); [discriminate H|].
      destruct (length (node_pos (T s)) <? 2)%nat; [discriminate H|].
      destruct (stale _ _); [discriminate H|].
      set (r1 := mkRefs _ _ _ _ _ _) in *.
      destruct (i_ref_ok i); cbn [negb] in H; cbv iota in H.
      + destruct (ref_iterate_index _); [|discriminate H]. destruct (stale _ _); [discriminate H|].
        inversion H; subst. now apply F_refs.
      + inversion H; subst. apply (F_abandon (set_R r1 s)); [exact Er|]. now apply F_refs.
    - destruct (stale _ _); [discriminate H|].
      destruct (i_ref_ok i); cbn [negb] in H; cbv iota in H.
      + destruct (ref_iterate_index _); [|discriminate H]. destruct (stale _ _); [discriminate H|].
        inversion H; subst. assumption.
      + inversion H; subst. now apply F_abandon.
  Qed.

  (** The step executed in a pass is never one to be skipped. *)
  Lemma prepare_no_skip i s s' : skip_step c (C s) = false -> prepare c i s = PGo s' ->
    0 <= num_global_searches c -> skip_step c (C s') = false.
  Proof.
    unfold prepare. cbv zeta. intros Hs H Hg.
    destruct (current_step (C s) <=? local_search_step c) eqn:El.
    { destruct (i_lin_ok i); cbn in H; inversion H; subst; [assumption|].
      unfold skip_step. cbn. unfold restoration_step, inf_step, local_search_step in *.
      replace (num_global_searches c + 3 =? 0) with false by (symmetry; apply Z.eqb_neq; lia).
      replace (num_global_searches c + 3 =? num_global_searches c + 1) with false
        by (symmetry; apply Z.eqb_neq; lia). reflexivity. }
    destruct (current_step (C s) =? refinement_step c) eqn:Er.
    2: { inversion H; subst; assumption. }
    repeat match type of H with
    | (if ?b then _ else _) = _ => destruct b; try discriminate
    | match ?b with Some _ => _ | None => _ end = _ => destruct b; try discriminate
    end; inversion H; subst; cbn; try assumption;
      destruct (num_cons_refinement (Rf s) =? 0); assumption.
  Qed.
  Lemma first_step_no_skip k : 0 <= num_global_searches c ->
    current_step k = first_step c -> num_global_searches c <> 0 \/ do_infstep c = true \/ do_local_search c = true ->
    skip_step c k = false.
  Proof.
    intros Hg Hk Hor. unfold skip_step. rewrite Hk. unfold first_step, inf_step, local_search_step.
    destruct (do_infstep c); cbn [negb]; rewrite ?andb_false_r.
    - replace (0 =? num_global_searches c + 1) with false by (symmetry; apply Z.eqb_neq; lia). reflexivity.
    - change (0 + 1 =? 0) with false. cbn [andb orb].
      destruct (0 + 1 =? num_global_searches c + 1) eqn:E; [|reflexivity].
      apply Z.eqb_eq in E. assert (num_global_searches c = 0) by lia.
      destruct Hor as [?|[?|Hl]]; [contradiction|discriminate|]. rewrite Hl. reflexivity.
  Qed.

  Lemma fine_pass_end i s l s' l' : ok i -> pass c i s l = Cont s' l' -> P s -> ends s'.
  Proof.
    unfold pass. intros Hok H HP.
    destruct (negb (loop_cond c s l (i_clock_ok i))); [discriminate|].
    destruct (skip_step c (C s)) eqn:Esk.
    { inversion H; subst. left. now apply F_skip. }
    destruct (if must_restart c (C s) then restart c i s else Ok s) as [s1|] eqn:E1;
      [|discriminate].
    assert (H1 : P s1 /\ (some_step c -> skip_step c (C s1) = false)).
    { destruct (must_restart c (C s)).
      - split; [eapply F_restart; eauto|]. intros (Hg & Hsome). apply first_step_no_skip; auto.
        apply restart_effect in E1.
        destruct E1 as [(gen & evs & na & nn & usr & uevs & nu & _ & _ & _ & _ & _ & _ & _ & HC & _)].
        rewrite HC. reflexivity.
      - inversion E1; subst; auto. }
    destruct H1 as (H1 & Esk1).
    pose proof (fine_prepare i s1) as Qp.
    destruct (prepare c i s1) as [s2|s2|e] eqn:E2; [| |discriminate].
    2: { inversion H; subst. left. eapply Qp; [reflexivity|assumption]. }
    assert (Esk2 : some_step c -> skip_step c (C s2) = false).
    { intros Hsm. eapply prepare_no_skip; [exact (Esk1 Hsm)|exact E2|apply Hsm]. }
    assert (H2 : P (emit [EvStep (current_step (C s2))] s2)).
    { apply F_step; [exact Esk2|]. eapply Qp; [reflexivity|assumption]. }
    destruct (negb (search_guard c _)); [discriminate|].
    remember (emit [EvStep (current_step (C s2))] s2) as s3 eqn:E3. clear E3 Qp.
    unfold search in H. cbv zeta in H.
    destruct (current_step (C s3) =? restoration_step c) eqn:Er.
    { apply Z.eqb_eq in Er.
      destruct (restoration_search c i s3) as [[[p r]|]|e] eqn:E; [| |discriminate].
      - destruct (remove_node r s3) eqn:Erm; [|discriminate]. eapply fine_conclude; eauto.
      - destruct (_ && _).
        + inversion H; subst. left. now apply F_underdet.
        + destruct (restart c i s3) eqn:Ers; [|discriminate]. inversion H; subst. left. eapply F_restart; eauto. }
    destruct (current_step (C s3) =? local_search_step c).
    { destruct (local_result c i s3) as [j|].
      - destruct (nth_error (node_pos (T s3)) j); [|discriminate].
        destruct (remove_node j s3) eqn:Erm; [|discriminate]. eapply fine_conclude; eauto.
      - eapply fine_conclude; eauto. }
    eapply fine_conclude; eauto.
  Qed.

  Hypothesis F_end : forall s s', end_of_pass c s = Ok s' -> P s -> P s'.

  Lemma fine_pass i s l s' l' : ok i -> pass c i s l = Cont s' l' -> P s -> P s'.
  Proof.
    intros Hok H HP. destruct (fine_pass_end _ _ _ _ _ Hok H HP) as [?|(sm & Hm & He)]; eauto.
  Qed.

  Lemma fine_start i0 pa s s' l' : ok i0 -> start_call c i0 pa s = Ok (s', l') -> P s -> P s'.
  Proof.
    unfold start_call. intros Hok. destruct (itercount (C s) =? 0).
    - destruct (restart c i0 s) as [s1|] eqn:E; simpl; [|discriminate].
      destruct (current_gap c s1); simpl; [|discriminate].
      intros H HP; inversion H; subst. eapply F_restart; eauto.
    - simpl. destruct (current_gap c s); simpl; [|discriminate].
      intros H HP; inversion H; subst. assumption.
  Qed.

  Lemma fine_reach s l : P (init_st c) -> reach c ok s l -> P s.
  Proof.
    intros H0 H. induction H.
    - eapply fine_start; eauto.
    - eapply fine_start; eauto.
    - eapply fine_pass; eauto.
  Qed.
End Fine.
