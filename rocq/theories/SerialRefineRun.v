(** * Length of the refinement phases of a serial run (C154). *)
From Verif Require Export SerialRefine.
From Coq Require Import Lia Lqa.
Open Scope Z_scope.

Definition goes_on (c : cfg) (s' : st) (steps : Z) (unl : Prop) : Prop :=
  (exists r, ref_radius (Rf s') = Some r /\ (ref_min_radius c <= r)%Q) /\
  (steps < max_consecutive_refinement c \/ unl).

Lemma update_iff c i s s' : refinement_update c i s = Ok s' ->
  let go := goes_on c s' (num_cons_refinement (Rf s) + 1) (unlimited_refinement c s (i_time_unl i) = true) in
  go /\ C s' = C s /\ num_cons_refinement (Rf s') = num_cons_refinement (Rf s) + 1 \/
  ~ go /\ current_step (C s') = first_step c /\ num_cons_refinement (Rf s') = 0.
Proof.
  cbv zeta. unfold refinement_update, goes_on. cbv zeta.
  destruct (ref_radius (Rf s)) as [rad|]; [|discriminate].
  destruct (ref_iterate_index (Rf s)) as [it0|]; [|discriminate].
  match goal with |- context [match ?x with None => Fail EIndex | _ => _ end] => destruct x as [mv|] eqn:Em end; [|discriminate].
  destruct (mv && _); [discriminate|]. destruct (_ && stale _ _); [discriminate|].
  set (rad' := new_radius c rad (i_model_impr i) (i_real_impr i)).
  intros H. injection H as <-. change (Rf (set_C _ (set_R ?r s))) with r. cbn [num_cons_refinement ref_radius].
  change (C (set_C ?k (set_R _ s))) with k.
  destruct (Qltb rad' (ref_min_radius c)) eqn:Er; cbn [orb].
  { right. split; [|split; reflexivity]. intros ((r & X & Y) & _). injection X as <-.
    apply Qltb_lt in Er. lra. }
  assert (Hr : (ref_min_radius c <= rad')%Q).
  { apply Qltb_ge. exact Er. }
  destruct (Z.leb_spec (max_consecutive_refinement c) (num_cons_refinement (Rf s) + 1)) as [L|L]; cbn [andb].
  - destruct (unlimited_refinement c s (i_time_unl i)); cbn [negb].
    + left. split; [|split; reflexivity]. split; [eauto|auto].
    + right. split; [|split; reflexivity]. intros (_ & [X|X]); [lia|discriminate X].
  - left. split; [|split; reflexivity]. split; [eauto|]. left. exact L.
Qed.

(** ** Streaks *)
Lemma streak_quiet c a es : (forall z, ~ In (EvStep z) es) -> streak c (a ++ es) = streak c a.
Proof.
  intros H. unfold streak. rewrite fold_left_app. generalize (fold_left
    (fun k e => match e with EvStep z => if z =? num_global_searches c + 2 then k + 1 else 0 | _ => k end) a 0).
  induction es as [|e r IH]; intros k; [reflexivity|]. cbn [fold_left].
  destruct e; try (apply IH; intros z Hz; apply (H z); right; exact Hz).
  exfalso. apply (H s). left. reflexivity.
Qed.
Lemma streak_step c a z : streak c (a ++ [EvStep z]) = if z =? refinement_step c then streak c a + 1 else 0.
Proof. unfold streak. rewrite fold_left_app. reflexivity. Qed.
Lemma streak_nonneg c es : 0 <= streak c es.
Proof.
  unfold streak. assert (G : forall l k, 0 <= k -> 0 <= fold_left
    (fun k e => match e with EvStep z => if z =? num_global_searches c + 2 then k + 1 else 0 | _ => k end) l k).
  { induction l as [|e r IH]; intros k Hk; cbn [fold_left]; [exact Hk|]. apply IH. destruct e; try exact Hk.
    destruct (_ =? _); lia. }
  apply G. lia.
Qed.

(** ** One pass *)
Lemma conclude_streak c i s prop l s' l' : 0 <= num_global_searches c ->
  conclude c i s prop l = Cont s' l' -> streak c (trace s') = streak c (trace s) /\
  (current_step (C s) <> refinement_step c -> num_cons_refinement (Rf s') = num_cons_refinement (Rf s) \/ num_cons_refinement (Rf s') = 0) /\
  (current_step (C s) = refinement_step c ->
     let go := goes_on c s' (num_cons_refinement (Rf s) + 1)
       (lifted c (itercount (C s)) (evalcount (C s')) (i_time_unl i) (num_stalled_iter (C s))) in
     go /\ ((1 <= window c)%nat -> accepted s s') /\ current_step (C s') = refinement_step c /\ num_cons_refinement (Rf s') = num_cons_refinement (Rf s) + 1 \/
     (accepted s s' -> (1 <= window c)%nat -> ~ go) /\ current_step (C s') <> refinement_step c /\ num_cons_refinement (Rf s') = 0) .
Proof.
  intros Hg H.
  assert (EN : forall x y, end_of_pass c x = Ok y -> streak c (trace y) = streak c (trace x)).
  { intros x y E. apply end_fields in E as (_ & _ & _ & _ & _ & _ & _ & _ & ->). apply streak_quiet.
    intros z Hz. destruct (_ =? 0); [destruct Hz as [?|[]]; discriminate|destruct Hz]. }
  destruct (conclude_cases _ _ _ _ _ _ _ H) as [E|(p & po & s1 & l1 & s2 & Ee & Ea & Een)].
  - split; [rewrite (EN _ _ E); reflexivity|].
    pose proof E as E'. apply end_fields in E' as (_ & _ & E0 & E1 & E2 & _ & E3 & _).
    assert (Hc : num_cons_refinement (Rf s') = 0) by (rewrite E0; reflexivity).
    split; [auto|]. intros Er. cbv zeta. right. split; [|split; [|exact Hc]].
    + intros (_ & w & A) Hw _. rewrite E3 in A.
      change (discarded (C (discard_st c s))) with (push_window (window c) (discarded (advance c (C s))) true) in A.
      destruct (push_last (window c) (discarded (advance c (C s))) true Hw) as (w' & B). rewrite B in A.
      apply app_inj_tail in A as (_ & A). discriminate.
    + rewrite E2. change (current_step (C (discard_st c s))) with (current_step (advance c (C s))).
      destruct (advance_ctrs c (C s)) as (_ & _ & _ & -> & _).
      pose proof (next_step_range c (current_step (C s)) Hg). unfold local_search_step, refinement_step in *. lia.
  - pose proof (end_evals _ _ _ Een) as V1. pose proof (after_counts _ _ _ _ Ea) as (V2 & V3).
    pose proof (after_fields _ _ _ _ Ea) as (_ & _ & V0 & V4 & _ & V5).
    pose proof (EN _ _ Een) as ES.
    apply end_fields in Een as (_ & _ & E0 & E1 & E2 & _ & E3 & _).
    destruct (eval_trace _ _ _ _ _ _ _ _ Ee) as (es & Ht & He).
    assert (Q : forall z, ~ In (EvStep z) es) by (intros z Hz; destruct (He _ Hz); discriminate).
    pose proof Ee as Ee'. apply evaluate_sum in Ee' as (v & noisy & e & es' & Sm). destruct Sm.
    assert (Cs : current_step (C s1) = current_step (C s)) by (rewrite ev_C; reflexivity).
    assert (Ci : itercount (C s1) = itercount (C s)) by (rewrite ev_C; reflexivity).
    assert (Ck : num_stalled_iter (C s1) = num_stalled_iter (C s)) by (rewrite ev_C; reflexivity).
    split; [rewrite ES, V0, Ht; apply streak_quiet; exact Q|].
    unfold after_eval in Ea. cbv zeta in Ea. destruct (Z.eqb_spec (current_step (C s1)) (refinement_step c)) as [Er|Er].
    + split; [intros; congruence|]. intros _. cbv zeta.
      destruct (refinement_update c i s1) as [s3|] eqn:U; cbn [bind] in Ea; [|discriminate].
      injection Ea as <-. apply update_iff in U. cbv zeta in U.
      assert (GG : goes_on c s3 (num_cons_refinement (Rf s1) + 1) (unlimited_refinement c s1 (i_time_unl i) = true) <->
        goes_on c s' (num_cons_refinement (Rf s) + 1)
          (lifted c (itercount (C s)) (evalcount (C s')) (i_time_unl i) (num_stalled_iter (C s)))).
      { unfold goes_on. rewrite E0. cbn [set_R set_C Rf set_last_refine ref_radius]. rewrite lifted_iff, Ci, Ck, V1, V3, ev_R. reflexivity. }
      destruct U as [(U1 & U2 & U3)|(U1 & U2 & U3)].
      * left. split; [apply GG; exact U1|]. rewrite E2, E0. cbn. rewrite U2, U3, ev_R. split; [|split; [congruence|reflexivity]].
        intros Hw. split; [lia|]. rewrite E3, V5. apply push_last. exact Hw.
      * right. split; [intros _ _ X; apply U1, GG, X|]. rewrite E2, E0. cbn. rewrite U2, U3. split; [|reflexivity].
        pose proof (first_step_range c Hg). unfold local_search_step, refinement_step in *. lia.
    + split; [|intros; congruence]. intros _. rewrite E0. left.
      destruct (_ && _) in Ea; cbn [bind] in Ea; injection Ea as <-; cbn; rewrite ev_R; reflexivity.
Qed.

Lemma prepare_cases c i s : 0 <= num_global_searches c ->
  match prepare c i s with
  | PGo s2 => trace s2 = trace s /\ num_cons_refinement (Rf s2) = num_cons_refinement (Rf s) /\
      (C s2 = C s \/ current_step (C s) <> refinement_step c /\ current_step (C s2) = restoration_step c)
  | PNext s2 => trace s2 = trace s /\ num_cons_refinement (Rf s2) = num_cons_refinement (Rf s) /\
      current_step (C s) = refinement_step c /\ i_ref_ok i = false /\ current_step (C s2) = first_step c /\
      itercount (C s2) = itercount (C s)
  | PFail _ => True
  end.
Proof.
  intros Hg. unfold prepare. cbv zeta.
  destruct (Z.leb_spec (current_step (C s)) (local_search_step c)) as [Hl|Hl].
  - destruct (i_lin_ok i); cbn; [auto|]. split; auto. split; auto. right. split; [|reflexivity].
    unfold refinement_step, local_search_step in *. lia.
  - destruct (Z.eqb_spec (current_step (C s)) (refinement_step c)) as [Er|Er]; [|auto].
    destruct (Z.eqb_spec (num_cons_refinement (Rf s)) 0) as [Ez|Ez]; cbn [andb].
    + destruct (stale _ _); [exact Logic.I|]. destruct (_ <? 2)%nat; [exact Logic.I|].
      destruct (stale _ _); [exact Logic.I|].
      destruct (i_ref_ok i); cbn [negb].
      * cbn [set_R Rf ref_iterate_index]. destruct (stale _ _); [exact Logic.I|]. cbn. auto.
      * cbn. auto 7.
    + destruct (stale _ _); [exact Logic.I|]. destruct (i_ref_ok i); cbn [negb].
      * destruct (ref_iterate_index (Rf s)); [|exact Logic.I]. destruct (stale _ _); [exact Logic.I|]. auto.
      * cbn. auto 7.
Qed.

(** At the refinement step: the linear model fails, or a refinement step is executed. *)
Lemma pass_at_refinement c i s l s' l' : 0 <= num_global_searches c ->
  pass c i s l = Cont s' l' -> current_step (C s) = refinement_step c ->
  (i_ref_ok i = false /\ trace s' = trace s /\ current_step (C s') = first_step c /\
     num_cons_refinement (Rf s') = num_cons_refinement (Rf s) /\ itercount (C s') = itercount (C s)) \/
  (streak c (trace s') = streak c (trace s) + 1 /\
     let go := goes_on c s' (num_cons_refinement (Rf s) + 1)
       (lifted c (itercount (C s)) (evalcount (C s')) (i_time_unl i) (num_stalled_iter (C s))) in
     (go /\ ((1 <= window c)%nat -> accepted s s') /\ current_step (C s') = refinement_step c /\
        num_cons_refinement (Rf s') = num_cons_refinement (Rf s) + 1 \/
      (accepted s s' -> (1 <= window c)%nat -> ~ go) /\ current_step (C s') <> refinement_step c /\ num_cons_refinement (Rf s') = 0)).
Proof.
  unfold pass. intros Hg H Hz.
  destruct (negb (loop_cond c s l (i_clock_ok i))); [discriminate|].
  assert (Esk : skip_step c (C s) = false).
  { unfold skip_step. rewrite Hz. unfold refinement_step, inf_step, local_search_step.
    replace (num_global_searches c + 2 =? 0) with false by (symmetry; apply Z.eqb_neq; lia).
    replace (num_global_searches c + 2 =? num_global_searches c + 1) with false
      by (symmetry; apply Z.eqb_neq; lia). reflexivity. }
  rewrite Esk in H.
  assert (Hm : must_restart c (C s) = false).
  { unfold must_restart. rewrite Hz.
    replace (refinement_step c <=? first_step c) with false; [reflexivity|].
    symmetry. apply Z.leb_gt. unfold refinement_step, first_step, inf_step.
    destruct (do_infstep c); lia. }
  rewrite Hm in H. pose proof (prepare_cases c i s Hg) as P.
  destruct (prepare c i s) as [s2|s2|e]; [| |discriminate].
  2: { left. inversion H; subst. tauto. }
  right. destruct P as (P1 & P2 & [P3|(P3 & _)]); [|contradiction].
  destruct (negb (search_guard c _)); [discriminate|].
  destruct (search c i _) as [s4 prop|s4|e] eqn:Es; [| |discriminate].
  2: { exfalso. destruct (search_next _ _ _ _ Hg Es) as (_ & X). cbn [emit C] in X. rewrite P3, Hz in X.
       unfold refinement_step, restoration_step in X. lia. }
  destruct (search_R _ _ _ _ _ Es) as (HC & HR & HT). cbn [emit C Rf trace] in HC, HR, HT.
  destruct (conclude_streak _ _ _ _ _ _ _ Hg H) as (A & _ & B). rewrite HT in A.
  rewrite P3, P1, Hz, streak_step, Z.eqb_refl in A. split; [exact A|].
  unfold accepted in *. rewrite HC, HR, P2, P3 in B. exact (B Hz).
Qed.

(** Elsewhere: the phase counter stays or is reset, and a phase begins with an empty streak. *)
Lemma pass_elsewhere c i s l s' l' : 0 <= num_global_searches c ->
  pass c i s l = Cont s' l' -> current_step (C s) <> refinement_step c ->
  (num_cons_refinement (Rf s') = num_cons_refinement (Rf s) \/ num_cons_refinement (Rf s') = 0) /\
  (current_step (C s') = refinement_step c -> streak c (trace s') = 0).
Proof.
  unfold pass. intros Hg H N.
  assert (Fs : first_step c <> refinement_step c).
  { pose proof (first_step_range c Hg). unfold local_search_step, refinement_step in *. lia. }
  destruct (negb (loop_cond c s l (i_clock_ok i))); [discriminate|].
  destruct (skip_step c (C s)).
  { inversion H; subst. split; [left; reflexivity|]. intros X. exfalso.
    change (C (advance_st c s)) with (advance c (C s)) in X.
    destruct (advance_ctrs c (C s)) as (_ & _ & _ & A & _). rewrite A in X.
    pose proof (next_step_range c (current_step (C s)) Hg). unfold local_search_step, refinement_step in *. lia. }
  destruct (if must_restart c (C s) then restart c i s else Ok s) as [s1|] eqn:Er; [|discriminate].
  assert (S1 : (num_cons_refinement (Rf s1) = num_cons_refinement (Rf s) \/ num_cons_refinement (Rf s1) = 0) /\
               current_step (C s1) <> refinement_step c).
  { destruct (must_restart c (C s)); [|injection Er as <-; auto].
    destruct (restart_step _ _ _ _ Er) as (A & _ & _ & _ & _ & _ & B). rewrite A. auto. }
  destruct S1 as (S1 & S2). pose proof (prepare_cases c i s1 Hg) as P.
  destruct (prepare c i s1) as [s2|s2|e]; [| |discriminate].
  2: { destruct P as (_ & _ & X & _). contradiction. }
  destruct P as (P1 & P2 & P3).
  assert (N2 : current_step (C s2) <> refinement_step c).
  { destruct P3 as [->|(_ & ->)]; [exact S2|]. unfold restoration_step, refinement_step. lia. }
  destruct (negb (search_guard c _)); [discriminate|].
  destruct (search c i _) as [s4 prop|s4|e] eqn:Es; [| |discriminate].
  - destruct (search_R _ _ _ _ _ Es) as (HC & HR & HT). cbn [emit C Rf trace] in HC, HR, HT.
    destruct (conclude_streak _ _ _ _ _ _ _ Hg H) as (A & B & _). rewrite HC in B. specialize (B N2).
    rewrite HR, P2 in B. split; [destruct B as [B|B]; [rewrite B; exact S1|auto]|].
    intros _. rewrite A, HT, streak_step. apply Z.eqb_neq in N2. now rewrite N2.
  - inversion H; subst. destruct (search_next _ _ _ _ Hg Es) as (X & Y). split; [|intros; contradiction].
    unfold search in Es. cbv zeta in Es. rewrite Y, Z.eqb_refl in Es.
    destruct (restoration_search c i _) as [[[p r]|]|]; [| |discriminate].
    + destruct (remove_node r _); discriminate.
    + destruct (_ && _) in Es.
      * injection Es as <-. cbn [set_C Rf emit]. rewrite P2. exact S1.
      * match type of Es with match ?x with _ => _ end = _ => destruct x as [s5|] eqn:Er2 end; [|discriminate]. injection Es as <-. right.
        eapply restart_cons; exact Er2.
Qed.

Definition phase_inv (b : Prop) (c : cfg) (s : st) : Prop :=
  0 <= num_cons_refinement (Rf s) /\
  (current_step (C s) = refinement_step c -> streak c (trace s) <= num_cons_refinement (Rf s) /\
     (b -> streak c (trace s) = num_cons_refinement (Rf s))) /\
  (b -> current_step (C s) <> refinement_step c -> num_cons_refinement (Rf s) = 0).
Lemma phase_reach c (ok : inp -> Prop) s l : 0 <= num_global_searches c -> reach c ok s l ->
  phase_inv (forall i, ok i -> i_ref_ok i = true) c s.
Proof.
  intros Hg.
  assert (Fs : first_step c <> refinement_step c).
  { pose proof (first_step_range c Hg). unfold local_search_step, refinement_step in *. lia. }
  assert (RS : forall i s0 s1, restart c i s0 = Ok s1 -> phase_inv (forall i, ok i -> i_ref_ok i = true) c s1).
  { intros i s0 s1 E. destruct (restart_step _ _ _ _ E) as (A & _ & _ & _ & _ & _ & B).
    unfold phase_inv. rewrite A, B. split; [lia|]. split; [intros; contradiction|auto]. }
  assert (ST : forall i0 pa s0 s1 l1, start_call c i0 pa s0 = Ok (s1, l1) ->
     s1 = s0 \/ phase_inv (forall i, ok i -> i_ref_ok i = true) c s1).
  { intros i0 pa s0 s1 l1. unfold start_call. destruct (itercount (C s0) =? 0).
    - destruct (restart c i0 s0) as [s2|] eqn:E; cbn [bind]; [|discriminate].
      destruct (current_gap c s2); cbn [bind]; [|discriminate]. intros H; injection H as <- <-. right. eauto.
    - cbn [bind]. destruct (current_gap c s0); cbn [bind]; [|discriminate]. intros H; injection H as <- <-. auto. }
  induction 1 as [i0 pa s l Hi H|i0 pa s0 l0 s l Hi R IH H|i s0 l0 s l Hi R IH H].
  - destruct (ST _ _ _ _ _ H) as [->|X]; [|exact X]. split; [cbn; lia|]. split; [|reflexivity].
    intros _. cbn. split; [lia|reflexivity].
  - destruct (ST _ _ _ _ _ H) as [->|X]; auto.
  - destruct IH as (I1 & I2 & I3). destruct (Z.eq_dec (current_step (C s0)) (refinement_step c)) as [E|E].
    + destruct (I2 E) as (J1 & J2). pose proof (streak_nonneg c (trace s0)) as Sn.
      destruct (pass_at_refinement _ _ _ _ _ _ Hg H E) as [(A1 & A2 & A3 & A4 & A5)|(A & B)].
      * unfold phase_inv. rewrite A3, A4. split; [exact I1|]. split; [intros; contradiction|].
        intros Hb _. specialize (Hb i Hi). congruence.
      * cbv zeta in B. destruct B as [(_ & _ & B1 & B2)|(_ & B1 & B2)].
        -- unfold phase_inv. rewrite A, B2. split; [lia|]. split; [|intros; contradiction].
           intros _. split; [lia|]. intros Hb. rewrite (J2 Hb). reflexivity.
        -- unfold phase_inv. rewrite B2. split; [lia|]. split; [intros; contradiction|auto].
    + destruct (pass_elsewhere _ _ _ _ _ _ Hg H E) as (A & B). split; [destruct A as [-> | ->]; lia|]. split.
      * intros X. rewrite (B X). split; [destruct A as [-> | ->]; lia|]. intros Hb. specialize (I3 Hb E).
        destruct A as [-> | ->]; lia.
      * intros Hb _. specialize (I3 Hb E). destruct A as [-> | ->]; lia.
Qed.
