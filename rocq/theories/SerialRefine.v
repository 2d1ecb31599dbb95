(** * When refinement phases of a serial run begin, go on and end (C154). *)
From Verif Require Export RefineAlg SpecSerialRefine.
From Coq Require Import Lia Lqa.
Open Scope Z_scope.

Lemma lifted_iff c s tu : unlimited_refinement c s tu = true <->
  lifted c (itercount (C s)) (evalcount (C s)) tu (num_stalled_iter (C s)).
Proof.
  unfold unlimited_refinement, lifted. cbv zeta. rewrite !orb_true_iff, !Qle_bool_iff. tauto.
Qed.
Lemma push_last {A} m (l : list A) x : (1 <= m)%nat -> exists w, push_window m l x = w ++ [x].
Proof.
  intros Hm. unfold push_window. cbv zeta. rewrite app_length. cbn [length].
  replace (length l + 1 - m)%nat with (length l - (m - 1))%nat by lia.
  rewrite skipn_app. replace (length l - (m - 1) - length l)%nat with 0%nat by lia. cbn. eauto.
Qed.

Lemma conclude_cases c i s prop l s' l' : conclude c i s prop l = Cont s' l' ->
  end_of_pass c (discard_st c s) = Ok s' \/
  exists p po s1 l1 s2, evaluate c i p po s l = Ok (s1, l1) /\ after_eval c i s1 = Ok s2 /\ end_of_pass c s2 = Ok s'.
Proof.
  unfold conclude. cbv zeta. intros H.
  assert (D : match end_of_pass c (discard_st c s) with Ok s4 => Cont s4 l | Fail e => Crash e end
                = Cont s' l' -> end_of_pass c (discard_st c s) = Ok s').
  { destruct (end_of_pass c (discard_st c s)) as [s4|] eqn:E; [|discriminate].
    intros HH; inversion HH; subst. reflexivity. }
  destruct prop as [q|]; cbn [option_map] in H; [|left; apply D; exact H].
  destruct (node_pos (T s)) as [|x xs] eqn:En; [discriminate|].
  destruct (near (min_dist c) (clip q (l_lower c) (l_upper c)) (x :: xs)) eqn:Enear; [left; apply D; exact H|].
  destruct (evaluate c i _ _ s l) as [[s1 l1]|] eqn:Ee; cbn [bind fst snd] in H; [|discriminate].
  destruct (after_eval c i s1) as [s2|] eqn:Ea; cbn [bind] in H; [|discriminate].
  destruct (end_of_pass c s2) as [s3|] eqn:Eend; cbn [bind] in H; [|discriminate].
  inversion H; subst. right. do 5 eexists. eauto.
Qed.

Lemma after_counts c i s s' : after_eval c i s = Ok s' ->
  itercount (C s') = itercount (C s) /\ evalcount (C s') = evalcount (C s).
Proof.
  unfold after_eval. cbv zeta.
  destruct (current_step (C s) =? refinement_step c).
  - destruct (refinement_update c i s) as [s1|] eqn:E; cbn [bind]; [|discriminate].
    intros H; injection H as <-. unfold refinement_update in E. cbv zeta in E.
    destruct (ref_radius (Rf s)); [|discriminate]. destruct (ref_iterate_index (Rf s)); [|discriminate].
    match type of E with match ?x with _ => _ end = _ => destruct x end; [|discriminate].
    destruct (_ && stale _ _) in E; [discriminate|]. destruct (_ && stale _ _) in E; [discriminate|].
    injection E as <-. cbn. destruct (_ || _); cbn; auto.
  - destruct (_ && _); cbn [bind]; intros H; injection H as <-; cbn -[advance]; [auto|].
    destruct (advance_ctrs c (C s)) as (A & B & _). auto.
Qed.
Lemma end_evals c s s' : end_of_pass c s = Ok s' -> evalcount (C s') = evalcount (C s).
Proof.
  unfold end_of_pass. cbv zeta. destruct (_ =? 0); [discriminate|].
  assert (E : forall x, evalcount (C (phase_update c (stalling_update c x))) = evalcount (C x)).
  { intros x. unfold phase_update. destruct (_ && _); cbn; unfold stalling_update;
      destruct (fmin (I x)), (fmin_stall_check (C x)); cbn; auto; destruct (improves _ _ _); reflexivity. }
  destruct (_ =? 0); intros H; injection H as <-; cbn; rewrite E; reflexivity.
Qed.

(** What an accepted or a discarded proposal does to the schedule. *)
Lemma conclude_begin c i s prop l s' l' : 0 <= num_global_searches c -> (1 <= window c)%nat ->
  conclude c i s prop l = Cont s' l' -> current_step (C s) <> refinement_step c ->
  (current_step (C s') = refinement_step c <->
   (current_step (C s) = local_search_step c \/ current_step (C s) = local_search_step c - 1 /\ do_local_search c = false) /\
   accepted s s' /\
   (due c s \/ lifted c (itercount (C s)) (evalcount (C s')) (i_time_unl i) (num_stalled_iter (C s)))).
Proof.
  intros Hg Hw H N.
  assert (Hnx : next_step c (current_step (C s)) <> refinement_step c).
  { pose proof (next_step_range c (current_step (C s)) Hg). unfold local_search_step, refinement_step in *. lia. }
  destruct (conclude_cases _ _ _ _ _ _ _ H) as [E|(p & po & s1 & l1 & s2 & Ee & Ea & Een)].
  - apply end_fields in E as (_ & _ & _ & E1 & E2 & _ & E3 & _).
    assert (D : current_step (C s') = next_step c (current_step (C s))).
    { rewrite E2. change (current_step (C (discard_st c s))) with (current_step (advance c (C s))).
      now destruct (advance_ctrs c (C s)) as (_ & _ & _ & -> & _). }
    split; [intros X; congruence|]. intros (_ & (_ & w & A) & _). exfalso.
    rewrite E3 in A. change (discarded (C (discard_st c s))) with (push_window (window c) (discarded (advance c (C s))) true) in A.
    destruct (push_last (window c) (discarded (advance c (C s))) true Hw) as (w' & B). rewrite B in A.
    apply app_inj_tail in A as (_ & A). discriminate.
  - pose proof (end_evals _ _ _ Een) as V1. pose proof (after_counts _ _ _ _ Ea) as (V2 & V3).
    pose proof (after_fields _ _ _ _ Ea) as (_ & _ & _ & V4 & _ & V5).
    apply end_fields in Een as (_ & _ & _ & E1 & E2 & _ & E3 & _).
    pose proof Ee as Ee'. apply evaluate_sum in Ee' as (v & noisy & e & es & Sm). destruct Sm.
    assert (Cs : current_step (C s1) = current_step (C s)) by (rewrite ev_C; reflexivity).
    assert (Ci : itercount (C s1) = itercount (C s)) by (rewrite ev_C; reflexivity).
    assert (Ck : num_stalled_iter (C s1) = num_stalled_iter (C s)) by (rewrite ev_C; reflexivity).
    assert (Acc : accepted s s').
    { split; [lia|]. rewrite E3, V5. apply push_last. exact Hw. }
    rewrite E2, V1, V3. unfold after_eval in Ea. cbv zeta in Ea.
    replace (current_step (C s1) =? refinement_step c) with false in Ea by (symmetry; apply Z.eqb_neq; lia).
    match type of Ea with bind (if ?b then _ else _) _ = _ => destruct b eqn:Eb end; cbn [bind] in Ea; injection Ea as <-.
    + change (current_step (C _)) with (refinement_step c) at 1. split; [intros _|auto].
      apply andb_true_iff in Eb as (Ez & Eu). split.
      * rewrite Cs in Ez. apply orb_true_iff in Ez as [Ez|Ez]; [left; now apply Z.eqb_eq|].
        apply andb_true_iff in Ez as (Ez & Ed). right. split; [now apply Z.eqb_eq|]. now destruct (do_local_search c).
      * split; [exact Acc|]. apply orb_true_iff in Eu as [Eu|Eu].
        -- left. unfold due. apply Z.leb_le in Eu. rewrite ev_R, Ci in Eu. unfold cycle_length in Eu.
           destruct (do_infstep c);
             [replace (num_global_searches c + 2 - 1) with (num_global_searches c + 1) in Eu by lia
             |replace (num_global_searches c + 2 - 2) with (num_global_searches c + 0) in Eu by lia]; lia.
        -- right. apply lifted_iff in Eu. rewrite Ci, Ck in Eu. exact Eu.
    + split.
      * intros X. exfalso. cbn -[advance] in X. destruct (advance_ctrs c (C s1)) as (_ & _ & _ & A & _).
        rewrite A, Cs in X. contradiction.
      * intros (Z1 & _ & Z2). exfalso. apply andb_false_iff in Eb as [Eb|Eb].
        -- rewrite Cs in Eb. apply orb_false_iff in Eb as (B1 & B2). apply Z.eqb_neq in B1.
           destruct Z1 as [Z1|(Z1 & Z3)]; [contradiction|]. rewrite Z1, Z.eqb_refl, Z3 in B2. discriminate.
        -- apply orb_false_iff in Eb as (B1 & B2). destruct Z2 as [Z2|Z2].
           ++ unfold due in Z2. apply Z.leb_gt in B1. rewrite ev_R, Ci in B1. unfold cycle_length in B1.
              destruct (do_infstep c);
                [replace (num_global_searches c + 2 - 1) with (num_global_searches c + 1) in B1 by lia
                |replace (num_global_searches c + 2 - 2) with (num_global_searches c + 0) in B1 by lia]; lia.
           ++ assert (Y : unlimited_refinement c s1 (i_time_unl i) = true).
              { apply lifted_iff. rewrite Ci, Ck. exact Z2. }
              congruence.
Qed.

Lemma search_next c i s s4 : 0 <= num_global_searches c -> search c i s = FNext s4 -> current_step (C s4) <> refinement_step c /\
  current_step (C s) = restoration_step c.
Proof.
  intros Hg. unfold search. cbv zeta.
  destruct (Z.eqb_spec (current_step (C s)) (restoration_step c)) as [E|E].
  { destruct (restoration_search c i s) as [[[p r]|]|e]; [| |discriminate].
    - destruct (remove_node r s) eqn:Er; discriminate.
    - intros H. split; [|exact E]. destruct (_ && _) in H.
      + injection H as <-. change (current_step (C _)) with (current_step (advance c (C s))).
        destruct (advance_ctrs c (C s)) as (_ & _ & _ & -> & _).
        pose proof (next_step_range c (current_step (C s)) Hg). unfold local_search_step, refinement_step in *. lia.
      + destruct (restart c i s) eqn:Er; [|discriminate]. injection H as <-. destruct (restart_step _ _ _ _ Er) as (Hs & _).
        rewrite Hs. pose proof (first_step_range c Hg). unfold local_search_step, refinement_step in *. lia. }
  destruct (_ =? local_search_step c); [|discriminate].
  destruct (local_result c i s) as [j|]; [|discriminate].
  destruct (nth_error _ j); [|discriminate]. destruct (remove_node j s); discriminate.
Qed.
Lemma search_R c i s s4 prop : search c i s = FPoint s4 prop -> C s4 = C s /\ Rf s4 = Rf s /\ trace s4 = trace s.
Proof.
  unfold search. cbv zeta.
  destruct (_ =? restoration_step c).
  { destruct (restoration_search c i s) as [[[p r]|]|e]; [| |discriminate].
    - destruct (remove_node r s) eqn:E; [|discriminate]. intros H; inversion H; subst.
      apply remove_fields in E. tauto.
    - destruct (_ && _); [discriminate|]. destruct (restart c i s); discriminate. }
  destruct (_ =? local_search_step c); [|intros H; inversion H; auto].
  destruct (local_result c i s) as [j|]; [|intros H; inversion H; auto].
  destruct (nth_error _ j); [|discriminate]. destruct (remove_node j s) eqn:E; [|discriminate].
  intros H; inversion H; subst. apply remove_fields in E. tauto.
Qed.

Lemma begins_spec c i s l s' l' : 0 <= num_global_searches c -> (1 <= window c)%nat ->
  pass c i s l = Cont s' l' -> must_restart c (C s) = false -> current_step (C s) <> refinement_step c ->
  (current_step (C s') = refinement_step c <->
   last_of_cycle c (current_step (C s)) /\ i_lin_ok i = true /\ accepted s s' /\
   (due c s \/ lifted c (itercount (C s)) (evalcount (C s')) (i_time_unl i) (num_stalled_iter (C s)))).
Proof.
  intros Hg Hw H Hm N. unfold pass in H.
  destruct (negb (loop_cond c s l (i_clock_ok i))); [discriminate|].
  assert (LC : skip_step c (C s) = false -> last_of_cycle c (current_step (C s)) <->
     (current_step (C s) = local_search_step c \/ current_step (C s) = local_search_step c - 1 /\ do_local_search c = false)).
  { intros Sk. unfold last_of_cycle, local_search_step, skip_step, local_search_step in *. destruct (do_local_search c).
    - split; [auto|]. intros [X|(_ & X)]; [exact X|discriminate X].
    - apply orb_false_iff in Sk as (_ & Sk). cbn [negb] in Sk. rewrite andb_true_r in Sk. apply Z.eqb_neq in Sk.
      split; [intros; right; split; [lia|reflexivity]|intros [X|(X & _)]; lia]. }
  destruct (skip_step c (C s)) eqn:Sk.
  { inversion H; subst. split.
    - intros X. exfalso. change (C (advance_st c s)) with (advance c (C s)) in X.
      destruct (advance_ctrs c (C s)) as (_ & _ & _ & A & _). rewrite A in X.
      pose proof (next_step_range c (current_step (C s)) Hg). unfold local_search_step, refinement_step in *. lia.
    - intros (_ & _ & (X & _) & _). change (C (advance_st c s)) with (advance c (C s)) in X.
      destruct (advance_ctrs c (C s)) as (A & _). lia. }
  specialize (LC eq_refl). rewrite Hm in H. unfold prepare in H. cbv zeta in H.
  assert (G : forall s2, (s2 = s -> i_lin_ok i = true \/ local_search_step c < current_step (C s)) ->
     (s2 = s \/ s2 = set_C (set_step (restoration_step c) (C s)) s /\ i_lin_ok i = false) ->
     (if negb (search_guard c (emit [EvStep (current_step (C s2))] s2)) then Crash EAssert
      else match search c i (emit [EvStep (current_step (C s2))] s2) with
           | FFail e => Crash e | FNext s4 => Cont s4 l | FPoint s4 prop => conclude c i s4 prop l end) = Cont s' l' ->
     current_step (C s') = refinement_step c <->
       last_of_cycle c (current_step (C s)) /\ i_lin_ok i = true /\ accepted s s' /\
       (due c s \/ lifted c (itercount (C s)) (evalcount (C s')) (i_time_unl i) (num_stalled_iter (C s)))).
  { intros s2 Hlin Hs2 HH. destruct (negb (search_guard c _)); [discriminate|].
    destruct (search c i _) as [s4 prop|s4|e] eqn:Es; [| |discriminate].
    - destruct (search_R _ _ _ _ _ Es) as (HC & HR & _). cbn [emit C Rf] in HC, HR.
      destruct Hs2 as [->|(-> & Hl)].
      + assert (Nr : current_step (C s4) <> refinement_step c) by (rewrite HC; exact N).
        pose proof (conclude_begin _ _ _ _ _ _ _ Hg Hw HH Nr) as B.
        unfold accepted, due in B. rewrite HC, HR in B. unfold accepted, due. rewrite B, LC.
        destruct (Hlin eq_refl) as [Hl|Hl]; [tauto|]. split; [|tauto]. intros (X & _). exfalso.
        unfold local_search_step in *. destruct X as [X|(X & _)]; lia.
      + cbn [set_C C Rf] in HC, HR.
        assert (Cz : current_step (C s4) = restoration_step c) by (rewrite HC; reflexivity).
        assert (Nr : current_step (C s4) <> refinement_step c) by (rewrite Cz; unfold restoration_step, refinement_step; lia).
        pose proof (conclude_begin _ _ _ _ _ _ _ Hg Hw HH Nr) as B.
        split; [|intros (_ & X & _); congruence]. intros X. exfalso. apply B in X as (X & _). rewrite Cz in X.
        unfold restoration_step, local_search_step in X. destruct X as [X|(X & _)]; lia.
    - inversion HH; subst. destruct (search_next _ _ _ _ Hg Es) as (Nx & Nz). cbn [emit C] in Nz.
      split; [contradiction|]. intros (X & Y & _). exfalso. destruct Hs2 as [->|(-> & Hl)]; [|congruence].
      apply LC in X. rewrite Nz in X. unfold restoration_step, local_search_step in X. destruct X as [X|(X & _)]; lia. }
  destruct (Z.leb_spec (current_step (C s)) (local_search_step c)) as [Hz|Hz].
  - destruct (i_lin_ok i) eqn:El.
    + apply (G s); [auto|auto|exact H].
    + apply (G (set_C (set_step (restoration_step c) (C s)) s)); [|auto|exact H].
      intros X. exfalso. apply (f_equal (fun x => current_step (C x))) in X. cbn in X.
      unfold restoration_step, local_search_step in *. lia.
  - destruct (Z.eqb_spec (current_step (C s)) (refinement_step c)); [contradiction|].
    apply (G s); [auto|auto|exact H].
Qed.
