(** * Termination and evaluation budget of the serial loop. *)
From Verif Require Export AlgProv.
Open Scope Z_scope.

(** Progress made by one pass: an iteration, or a cycle, or the skip from the disabled
    inf-step to step 1. *)
Definition progress (c : cfg) (s s' : st) : Prop :=
  itercount (C s) <= itercount (C s') /\ cyclecount (C s) <= cyclecount (C s') /\
  (itercount (C s) + cyclecount (C s) < itercount (C s') + cyclecount (C s') \/
   current_step (C s) = 0 /\ current_step (C s') = 1 /\ do_infstep c = false /\
   itercount (C s') = itercount (C s) /\ cyclecount (C s') = cyclecount (C s)).

Lemma restart_counts c i s s' : restart c i s = Ok s' ->
  itercount (C s') = itercount (C s) /\ cyclecount (C s') = cyclecount (C s) + 1 /\
  current_step (C s') = first_step c.
Proof.
  intros H. apply restart_effect in H.
  destruct H as [(gen & evs & na & nn & usr & uevs & nu & _ & _ & _ & _ & _ & _ & _ & HC & _)].
  rewrite HC. cbn. auto.
Qed.

Lemma advance_wrap c s : 0 <= num_global_searches c ->
  local_search_step c <= current_step (C s) ->
  cyclecount (C (advance_st c s)) = cyclecount (C s) + 1.
Proof.
  intros Hg Hs. unfold advance_st, advance, next_step. cbv zeta. cbn [C set_C].
  assert (L : (current_step (C s) + 1) mod cycle_length c < current_step (C s)).
  { unfold local_search_step in *. unfold cycle_length.
    destruct (Z.eq_dec (current_step (C s)) (num_global_searches c + 1)) as [E|E].
    - rewrite E. replace (num_global_searches c + 1 + 1) with (num_global_searches c + 2) by lia.
      rewrite Z.mod_same by lia. lia.
    - pose proof (Z.mod_pos_bound (current_step (C s) + 1) (num_global_searches c + 2)). lia. }
  apply Z.ltb_lt in L. rewrite L. reflexivity.
Qed.
Lemma advance_first c s : 0 <= num_global_searches c -> current_step (C s) = 0 ->
  current_step (C (advance_st c s)) = 1.
Proof.
  intros Hg Hs. unfold advance_st, advance, next_step. cbv zeta. cbn [C set_C].
  rewrite Hs. unfold cycle_length. rewrite Z.mod_small by lia. reflexivity.
Qed.
Lemma advance_cyc_le c s : cyclecount (C s) <= cyclecount (C (advance_st c s)).
Proof. apply (q_cyc _ _ (quiet_advance c s)). Qed.

Definition prep_go (p : prep) : bool := match p with PNext _ => false | _ => true end.
Lemma prepare_next c i s s' : prepare c i s = PNext s' ->
  cyclecount (C s') = cyclecount (C s) + 1 /\ itercount (C s') = itercount (C s).
Proof.
  unfold prepare. cbv zeta.
  destruct (current_step (C s) <=? local_search_step c); [destruct (i_lin_ok i); discriminate|].
  destruct (current_step (C s) =? refinement_step c); [|discriminate].
  destruct (_ && _); [discriminate|]. destruct (_ && _); [discriminate|].
  destruct (stale _ _); [discriminate|].
  destruct (negb (i_ref_ok i)).
  - intros H; injection H as <-. cbn. auto.
  - destruct (ref_iterate_index _); [destruct (stale _ _)|]; discriminate.
Qed.

Lemma conclude_iter c i s prop l s' l' : conclude c i s prop l = Cont s' l' ->
  itercount (C s') = itercount (C s) + 1 /\ cyclecount (C s) <= cyclecount (C s').
Proof.
  intros H. apply conclude_effect in H. destruct H as [s' Hq Hi|q p s1 l1 s' Hp Hc Ha He Hq Hi].
  - split; [assumption|apply (q_cyc _ _ Hq)].
  - split; [assumption|]. pose proof (q_cyc _ _ Hq) as H1.
    apply evaluate_sum in He. destruct He as (v & noisy & e & es & [_ _ _ HC _ _ _ _ _]).
    rewrite HC in H1. exact H1.
Qed.

Lemma pass_progress c i s l s' l' : 0 <= num_global_searches c ->
  pass c i s l = Cont s' l' -> progress c s s'.
Proof.
  intros Hg H. unfold pass in H.
  destruct (negb (loop_cond c s l (i_clock_ok i))); [discriminate|].
  destruct (skip_step c (C s)) eqn:Esk.
  { injection H as <- <-. unfold progress. rewrite advance_iter.
    pose proof (advance_cyc_le c s). split; [lia|]. split; [assumption|].
    unfold skip_step in Esk. apply orb_true_iff in Esk. destruct Esk as [Esk|Esk];
      apply andb_true_iff in Esk; destruct Esk as [E1 E2]; apply Z.eqb_eq in E1.
    - unfold inf_step in E1.
      assert (En : current_step (C (advance_st c s)) = 1) by (apply advance_first; assumption).
      destruct (Z.eq_dec (cyclecount (C (advance_st c s))) (cyclecount (C s))) as [E|E].
      + right. apply negb_true_iff in E2. auto.
      + left. lia.
    - left. rewrite advance_wrap by lia. lia. }
  destruct (if must_restart c (C s) then restart c i s else Ok s) as [s1|] eqn:E1; [|discriminate].
  assert (H1 : itercount (C s1) = itercount (C s) /\ cyclecount (C s) <= cyclecount (C s1)).
  { destruct (must_restart c (C s)).
    - apply restart_counts in E1. lia.
    - injection E1 as <-. lia. }
  destruct (prepare c i s1) as [s2|s2|e] eqn:E2; [| |discriminate].
  2: { injection H as <- <-. apply prepare_next in E2. unfold progress. lia. }
  assert (H2 : itercount (C s1) <= itercount (C s2) /\ cyclecount (C s1) <= cyclecount (C s2)).
  { assert (Q : quiet s1 s2) by (apply (quiet_prepare c i); rewrite E2; reflexivity).
    split; [apply (q_it _ _ Q)|apply (q_cyc _ _ Q)]. }
  destruct (negb (search_guard c _)); [discriminate|].
  set (s3 := emit _ s2) in *.
  assert (H3 : itercount (C s3) = itercount (C s2) /\ cyclecount (C s3) = cyclecount (C s2))
    by (split; reflexivity).
  clearbody s3.
  destruct (search c i s3) as [s4 prop|s4|e] eqn:Es; [| |discriminate].
  - pose proof (search_effect c i s3) as Hs. rewrite Es in Hs.
    assert (H4 : C s4 = C s3).
    { inversion Hs; subst; auto.
      - now match goal with H : remove_node _ _ = Ok _ |- _ => apply remove_fields in H end.
      - now match goal with H : remove_node _ _ = Ok _ |- _ => apply remove_fields in H end. }
    apply conclude_iter in H. rewrite H4 in H. unfold progress. lia.
  - injection H as <- <-. unfold search in Es. cbv zeta in Es.
    destruct (current_step (C s3) =? restoration_step c) eqn:Er.
    + apply Z.eqb_eq in Er.
      destruct (restoration_search c i s3) as [[[p r]|]|]; [destruct (remove_node r s3)| |];
        try discriminate.
      destruct (_ && _).
      * injection Es as <-. cbn.
        pose proof (advance_wrap c s3 Hg) as W. unfold restoration_step, local_search_step in *.
        specialize (W ltac:(lia)). unfold advance_st in W. cbn in W.
        pose proof (advance_iter c s3) as W2. unfold advance_st in W2. cbn in W2.
        unfold progress. cbn. lia.
      * destruct (restart c i s3) as [s5|] eqn:E5; [|discriminate]. injection Es as <-.
        apply restart_counts in E5. unfold progress. lia.
    + destruct (current_step (C s3) =? local_search_step c); [|discriminate].
      destruct (local_result c i s3); [|discriminate].
      destruct (nth_error _ _); [|discriminate]. destruct (remove_node _ _); discriminate.
Qed.

(** Measure that decreases with every pass. *)
Definition left_over (c : cfg) (s : st) : Z :=
  2 * (Z.max 0 (max_iterations c - itercount (C s)) +
       Z.max 0 (max_cycles c - cyclecount (C s))) +
  (if (current_step (C s) =? 0) then 1 else 0).

Lemma pass_measure c i s l s' l' : 0 <= num_global_searches c ->
  pass c i s l = Cont s' l' -> left_over c s' < left_over c s.
Proof.
  intros Hg H. pose proof (pass_progress _ _ _ _ _ _ Hg H) as (P1 & P2 & P3).
  assert (L : itercount (C s) < max_iterations c /\ cyclecount (C s) < max_cycles c).
  { unfold pass in H. destruct (loop_cond c s l (i_clock_ok i)) eqn:E; cbn [negb] in H; [|discriminate].
    unfold loop_cond in E. rewrite !andb_true_iff in E. intuition lia. }
  unfold left_over. destruct P3 as [P3|(E1 & E2 & _ & E4 & E5)].
  - destruct (_ =? 0), (_ =? 0); lia.
  - rewrite E1, E2, E4, E5. cbn. lia.
Qed.

Lemma run_terminates c is : 0 <= num_global_searches c -> forall s l,
  left_over c s < Z.of_nat (length is) ->
  match run c is s l with Running _ _ => False | _ => True end.
Proof.
  intros Hg. induction is as [|i r IH]; intros s l H; simpl in *.
  - unfold left_over in H. destruct (_ =? 0); lia.
  - destruct (pass c i s l) as [s' l'| |e] eqn:E; auto.
    apply IH. pose proof (pass_measure _ _ _ _ _ _ Hg E). lia.
Qed.

(** ** Budget *)
(** Number of sample points that a restart may evaluate. *)
Definition sample_bound (c : cfg) (S : Z) (i : inp) : Prop :=
  match i_samples i with
  | None => True
  | Some pts => Z.of_nat (length pts) <= S
  end.

Lemma restart_budget c i s s' S : 0 <= S -> sample_bound c S i -> restart c i s = Ok s' ->
  evalcount (C s) <= evalcount (C s') <= evalcount (C s) + S + Z.of_nat (length (init_node_pos c)) /\
  (itercount (C s) <> 0 -> evalcount (C s') <= evalcount (C s) + S).
Proof.
  intros HS Hb H. apply restart_effect in H.
  destruct H as [(gen & evs & na & nn & usr & uevs & nu & G & _ & U & _ & _ & _ & _ & HC & _)].
  rewrite HC. cbn.
  pose proof (gs_bound _ _ _ _ _ _ _ _ G) as B1.
  pose proof (gs_na _ _ _ _ _ _ _ _ G) as B2. pose proof (gs_nn _ _ _ _ _ _ _ _ G) as B3.
  pose proof (count_ev_nonneg is_acc evs). pose proof (count_ev_nonneg is_noisy evs).
  pose proof (us_bound _ _ _ _ _ _ U) as B4. pose proof (us_len _ _ _ _ _ _ U) as B5.
  assert (B6 : Z.of_nat (length gen) <= S).
  { destruct (gs_len _ _ _ _ _ _ _ _ G) as [->|(pts & E & ->)]; [cbn; lia|].
    unfold sample_bound in Hb. now rewrite E in Hb. }
  split; [lia|]. intros Hit.
  destruct (us_ev0 _ _ _ _ _ _ U Hit) as (E1 & E2). rewrite E2 in B4. cbn in B4. lia.
Qed.

Lemma eval_events_acc c i po s l v noisy e es : eval_events c i po s l v noisy e es ->
  0 <= count_ev is_acc es <= 1.
Proof. destruct 1; cbn; lia. Qed.

Lemma conclude_budget c i s prop l s' l' : conclude c i s prop l = Cont s' l' ->
  evalcount (C s) <= evalcount (C s') <= evalcount (C s) + 1.
Proof.
  intros H. apply conclude_effect in H. destruct H as [s' Hq Hi|q p s1 l1 s' Hp Hc Ha He Hq Hi].
  - rewrite (q_ev _ _ Hq). lia.
  - rewrite (q_ev _ _ Hq). apply evaluate_sum in He.
    destruct He as (v & noisy & e & es & [Hev _ _ HC _ _ _ _ _]). rewrite HC. cbn.
    apply eval_events_acc in Hev. lia.
Qed.

Definition restart_cap (c : cfg) (S : Z) (s : st) : Z :=
  S + (if itercount (C s) =? 0 then Z.of_nat (length (init_node_pos c)) else 0).
Lemma restart_budget' c i s s' S : 0 <= S -> sample_bound c S i -> restart c i s = Ok s' ->
  evalcount (C s) <= evalcount (C s') <= evalcount (C s) + restart_cap c S s.
Proof.
  intros HS Hb H. destruct (restart_budget _ _ _ _ _ HS Hb H) as (B1 & B2).
  unfold restart_cap. destruct (itercount (C s) =? 0) eqn:E; [lia|].
  apply Z.eqb_neq in E. specialize (B2 E). lia.
Qed.

Lemma prepare_iter c i s s' : prep_state (prepare c i s) = Some s' ->
  itercount (C s') = itercount (C s).
Proof.
  unfold prepare. cbv zeta.
  destruct (current_step (C s) <=? local_search_step c).
  { destruct (i_lin_ok i); cbn; intros H; injection H as <-; reflexivity. }
  destruct (current_step (C s) =? refinement_step c).
  2: { cbn; intros H; injection H as <-; reflexivity. }
  destruct (_ && _); [intros H; discriminate H|]. destruct (_ && _); [intros H; discriminate H|].
  destruct (stale _ _); [intros H; discriminate H|].
  destruct (negb (i_ref_ok i)).
  - cbn. intros H; injection H as <-. destruct (_ =? 0); reflexivity.
  - destruct (ref_iterate_index _); [|intros H; discriminate H].
    destruct (stale _ _); [intros H; discriminate H|]. cbn. intros H; injection H as <-.
    destruct (_ =? 0); reflexivity.
Qed.

(** One pass adds at most one restart sample and one evaluation; two restarts in the same
    pass are possible (restart test, then restart after a failed restoration), but then the
    pass makes no further evaluation. *)
Lemma pass_budget c i s l s' l' S : 0 <= S -> sample_bound c S i ->
  pass c i s l = Cont s' l' ->
  evalcount (C s) < max_evaluations c /\
  evalcount (C s) <= evalcount (C s') <=
    evalcount (C s) + Z.max (2 * restart_cap c S s) (restart_cap c S s + 1).
Proof.
  intros HS Hb H. unfold pass in H.
  destruct (loop_cond c s l (i_clock_ok i)) eqn:Elc; cbn [negb] in H; [|discriminate].
  split. { unfold loop_cond in Elc. rewrite !andb_true_iff in Elc. intuition lia. }
  assert (Hcap : 0 <= restart_cap c S s) by (unfold restart_cap; destruct (_ =? 0); lia).
  destruct (skip_step c (C s)) eqn:Esk.
  { injection H as <- <-. rewrite (q_ev _ _ (quiet_advance c s)). lia. }
  destruct (if must_restart c (C s) then restart c i s else Ok s) as [s1|] eqn:E1; [|discriminate].
  assert (H1 : itercount (C s1) = itercount (C s) /\
               evalcount (C s) <= evalcount (C s1) <= evalcount (C s) + restart_cap c S s).
  { destruct (must_restart c (C s)).
    - pose proof (restart_counts _ _ _ _ E1). pose proof (restart_budget' _ _ _ _ _ HS Hb E1). lia.
    - injection E1 as <-. lia. }
  pose proof (quiet_prepare c i s1) as Qp. pose proof (prepare_iter c i s1) as Ip.
  destruct (prepare c i s1) as [s2|s2|e] eqn:E2; [| |discriminate].
  2: { injection H as <- <-. rewrite (q_ev _ _ (Qp _ eq_refl)). lia. }
  pose proof (q_ev _ _ (Qp _ eq_refl)) as H2. specialize (Ip _ eq_refl).
  destruct (negb (search_guard c _)); [discriminate|].
  set (s3 := emit _ s2) in *.
  assert (H3 : evalcount (C s3) = evalcount (C s2) /\ itercount (C s3) = itercount (C s2))
    by (split; reflexivity). clearbody s3.
  destruct (search c i s3) as [s4 prop|s4|e] eqn:Es; [| |discriminate];
    pose proof (search_effect c i s3) as Hs; rewrite Es in Hs.
  - assert (H4 : C s4 = C s3).
    { inversion Hs; subst; auto.
      - now match goal with H : remove_node _ _ = Ok _ |- _ => apply remove_fields in H end.
      - now match goal with H : remove_node _ _ = Ok _ |- _ => apply remove_fields in H end. }
    apply conclude_budget in H. rewrite H4 in H. lia.
  - injection H as <- <-. inversion Hs as [s5 Hq|s5 Hr| | | |]; subst.
    + rewrite (q_ev _ _ Hq). lia.
    + pose proof (restart_budget' _ _ _ _ _ HS Hb Hr) as B.
      assert (restart_cap c S s3 = restart_cap c S s).
      { unfold restart_cap. destruct H1 as [H1a _], H3 as [_ H3b]. now rewrite H3b, Ip, H1a. }
      lia.
Qed.

Lemma run_budget c is : forall s l S, 0 <= S -> Forall (sample_bound c S) is ->
  forall s', (exists l', run c is s l = Running s' l') \/ run c is s l = Done s' ->
  evalcount (C s') <= Z.max (evalcount (C s))
    (max_evaluations c - 1 +
     Z.max (2 * (S + Z.of_nat (length (init_node_pos c))))
           (S + Z.of_nat (length (init_node_pos c)) + 1)).
Proof.
  induction is as [|i r IH]; intros s l S HS HF s' H; simpl in H.
  - destruct H as [(l' & H)|H]; [injection H as <- <-; lia|discriminate].
  - inversion HF as [|x y Hi Hr]; subst.
    destruct (pass c i s l) as [s1 l1| |e] eqn:E.
    + destruct (pass_budget _ _ _ _ _ _ _ HS Hi E) as (B1 & B2 & B3).
      specialize (IH s1 l1 S HS Hr s' H).
      unfold restart_cap in B3. destruct (_ =? 0); lia.
    + destruct H as [(l' & H)|H]; [discriminate|injection H as <-; lia].
    + destruct H as [(l' & H)|H]; discriminate.
Qed.

(** After the initialization no pass starts with the budget used up. *)
Lemma pass_within_budget c i s l s' l' : pass c i s l = Cont s' l' ->
  evalcount (C s) < max_evaluations c.
Proof.
  intros H. unfold pass in H.
  destruct (loop_cond c s l (i_clock_ok i)) eqn:Elc; cbn [negb] in H; [|discriminate].
  unfold loop_cond in Elc. rewrite !andb_true_iff in Elc. intuition lia.
Qed.
