(** * Checkpoint cadence, step schedule, stalling, discard window, log (C16, C20-C22, C78, C79). *)
From Verif Require Export AlgFine.
From Coq Require Import Lia Lqa.
Open Scope Z_scope.

(** ** Traces of the small updates *)
Lemma advance_fields c s : T (advance_st c s) = T s /\ I (advance_st c s) = I s /\
  Rf (advance_st c s) = Rf s /\ trace (advance_st c s) = trace s.
Proof. repeat split. Qed.
Lemma advance_ctrs c k : itercount (advance c k) = itercount k /\
  evalcount (advance c k) = evalcount k /\ noisy_evalcount (advance c k) = noisy_evalcount k /\
  current_step (advance c k) = next_step c (current_step k) /\
  cyclecount (advance c k) = cyclecount k + (if next_step c (current_step k) <? current_step k then 1 else 0) /\
  num_stalled_iter (advance c k) = num_stalled_iter k /\
  fmin_stall_check (advance c k) = fmin_stall_check k /\
  discarded (advance c k) = discarded k.
Proof. unfold advance. cbv zeta. destruct (_ <? _); cbn; repeat split; lia. Qed.

Lemma refine_fields c i s s' : refinement_update c i s = Ok s' ->
  T s' = T s /\ I s' = I s /\ trace s' = trace s /\
  num_stalled_iter (C s') = num_stalled_iter (C s) /\
  fmin_stall_check (C s') = fmin_stall_check (C s) /\
  discarded (C s') = discarded (C s) /\
  (C s' = C s \/
   current_step (C s') = first_step c /\ cyclecount (C s') = cyclecount (C s) + 1 /\
   num_cons_refinement (Rf s') = 0).
Proof.
  unfold refinement_update. cbv zeta.
  destruct (ref_radius (Rf s)); [|discriminate].
  destruct (ref_iterate_index (Rf s)); [|discriminate].
  match goal with |- context [match ?x with None => Fail EIndex | _ => _ end] => destruct x end;
    [|discriminate].
  destruct (_ && stale _ _); [discriminate|].
  destruct (_ && stale _ _); [discriminate|].
  intros H. inversion H; subst. clear H. cbn.
  destruct (Qltb _ _ || _); cbn; repeat split; auto.
Qed.

Lemma after_fields c i s s' : after_eval c i s = Ok s' ->
  T s' = T s /\ I s' = I s /\ trace s' = trace s /\
  num_stalled_iter (C s') = num_stalled_iter (C s) /\
  fmin_stall_check (C s') = fmin_stall_check (C s) /\
  discarded (C s') = push_window (window c) (discarded (C s)) false.
Proof.
  unfold after_eval. cbv zeta.
  destruct (current_step (C s) =? refinement_step c).
  - destruct (refinement_update c i s) as [s1|] eqn:E; cbn [bind]; [|discriminate].
    intros H; inversion H; subst. apply refine_fields in E.
    destruct E as (E1 & E2 & E3 & E4 & E5 & E6 & _). cbn. rewrite E1, E2, E3, E4, E5, E6. auto 8.
  - destruct (_ && _); cbn [bind]; intros H; injection H as <-; cbn -[advance push_window]; [auto 7|].
    unfold advance. cbv zeta. destruct (next_step _ _ <? _); cbn; auto 8.
Qed.

Lemma stall_fields c s : T (stalling_update c s) = T s /\ I (stalling_update c s) = I s /\
  trace (stalling_update c s) = trace s /\ Rf (stalling_update c s) = Rf s /\
  current_step (C (stalling_update c s)) = current_step (C s) /\
  cyclecount (C (stalling_update c s)) = cyclecount (C s) /\
  discarded (C (stalling_update c s)) = discarded (C s).
Proof.
  unfold stalling_update. destruct (fmin (I s)), (fmin_stall_check (C s)); cbn; auto 8.
  destruct (improves _ _ _); cbn; auto 8.
Qed.
Lemma phase_fields c s : T (phase_update c s) = T s /\ I (phase_update c s) = I s /\
  trace (phase_update c s) = trace s /\ Rf (phase_update c s) = Rf s /\
  current_step (C (phase_update c s)) = current_step (C s) /\
  cyclecount (C (phase_update c s)) = cyclecount (C s) /\
  discarded (C (phase_update c s)) = discarded (C s) /\
  num_stalled_iter (C (phase_update c s)) = num_stalled_iter (C s) /\
  fmin_stall_check (C (phase_update c s)) = fmin_stall_check (C s).
Proof. unfold phase_update. destruct (_ && _); cbn; auto 10. Qed.

Lemma end_fields c s s' : end_of_pass c s = Ok s' ->
  T s' = T s /\ I s' = I s /\ Rf s' = Rf s /\
  itercount (C s') = itercount (C s) + 1 /\ current_step (C s') = current_step (C s) /\
  cyclecount (C s') = cyclecount (C s) /\ discarded (C s') = discarded (C s) /\
  save_state_interval c <> 0 /\
  trace s' = trace s ++ (if itercount (C s') mod save_state_interval c =? 0
                         then [EvSave (itercount (C s'))] else []).
Proof.
  intros H. pose proof (end_iter _ _ _ H) as Hi. unfold end_of_pass in H. cbv zeta in H.
  set (s1 := set_C (set_iter (itercount (C s) + 1) (C s)) s) in *.
  destruct (phase_fields c (stalling_update c s1)) as (P1 & P2 & P3 & P4 & P5 & P6 & P7 & _).
  destruct (stall_fields c s1) as (S1 & S2 & S3 & S4 & S5 & S6 & S7).
  destruct (Z.eqb_spec (save_state_interval c) 0) as [|Hne]; [discriminate|].
  destruct (_ mod _ =? 0) eqn:Em; inversion H; subst s'; cbn [C T I Rf trace emit] in *;
    rewrite Em; rewrite P1, P2, P3, P4, P5, P6, P7, S1, S2, S3, S4, S5, S6, S7;
    rewrite phase_iter, stall_iter; cbn; rewrite ?app_nil_r; repeat split; auto.
Qed.

(** ** C16 *)
Definition saves (tr : list event) : list Z :=
  flat_map (fun e => match e with EvSave k => [k] | _ => [] end) tr.
Definition multiples (m it : Z) : list Z :=
  filter (fun k => k mod m =? 0) (map Z.of_nat (seq 1 (Z.to_nat it))).

Lemma saves_app a b : saves (a ++ b) = saves a ++ saves b.
Proof. apply flat_map_app. Qed.
Lemma saves_none es : (forall k, ~ In (EvSave k) es) -> saves es = [].
Proof.
  induction es as [|e es IH]; intros H; [reflexivity|].
  change (saves (e :: es)) with (match e with EvSave k => [k] | _ => [] end ++ saves es).
  rewrite IH by (intros k Hk; apply (H k); right; exact Hk).
  destruct e; try reflexivity. exfalso. apply (H it). left; reflexivity.
Qed.
Lemma multiples_succ m it : 0 <= it ->
  multiples m (it + 1) = multiples m it ++ (if (it + 1) mod m =? 0 then [it + 1] else []).
Proof.
  intros H. unfold multiples. replace (Z.to_nat (it + 1)) with (S (Z.to_nat it)) by lia.
  rewrite seq_S, map_app, filter_app. f_equal. cbn [map filter].
  replace (Z.of_nat (1 + Z.to_nat it)) with (it + 1) by lia. reflexivity.
Qed.

Lemma restart_trace c i s s' : restart c i s = Ok s' -> exists es, trace s' = trace s ++ EvRestart :: es /\
  (forall k, ~ In (EvSave k) es) /\ (forall k, ~ In (EvStep k) es) /\ ~ In EvRestart es.
Proof.
  intros H. apply restart_effect in H.
  destruct H as [(gen & evs & na & nn & usr & uevs & nu & G & _ & U & _ & _ & _ & _ & _ & _ & Ht)].
  exists (evs ++ uevs). split; [exact Ht|].
  assert (HF : forall e, In e (evs ++ uevs) -> ev_recorded gen e \/ ev_recorded usr e).
  { intros e He. apply in_app_or in He. destruct He as [He|He].
    - left. pose proof (gs_rec _ _ _ _ _ _ _ _ G) as F. rewrite Forall_forall in F. auto.
    - right. pose proof (us_rec _ _ _ _ _ _ U) as F. rewrite Forall_forall in F. auto. }
  split; [|split]; [intros k Hin|intros k Hin|intros Hin]; apply HF in Hin; destruct Hin as [[]|[]].
Qed.
Lemma restart_step c i s s' : restart c i s = Ok s' ->
  current_step (C s') = first_step c /\ cyclecount (C s') = cyclecount (C s) + 1 /\
  num_stalled_iter (C s') = 0 /\ fmin_stall_check (C s') = fmin (I s') /\ discarded (C s') = [] /\
  itercount (C s') = itercount (C s) /\ num_cons_refinement (Rf s') = 0.
Proof.
  intros H. apply restart_effect in H.
  destruct H as [(gen & evs & na & nn & usr & uevs & nu & _ & _ & _ & _ & _ & _ & _ & HC & HR & _)].
  rewrite HC, HR. cbn. repeat split.
Qed.
Lemma eval_trace c i p po s l s' l' : evaluate c i p po s l = Ok (s', l') ->
  exists es, trace s' = trace s ++ es /\ forall e, In e es -> is_acc e = true \/ is_noisy e = true.
Proof.
  intros H. apply evaluate_sum in H.
  destruct H as (v & noisy & e & es & [He _ _ _ _ Ht _ _ _]).
  exists es. split; [exact Ht|]. destruct He; cbn; intros e0 Hin; try tauto;
    repeat (destruct Hin as [<-|Hin]; [cbn; auto|]); tauto.
Qed.
Lemma eval_ctrs c i p po s l s' l' : evaluate c i p po s l = Ok (s', l') ->
  exists a b, C s' = add_evals a b (C s).
Proof.
  intros H. apply evaluate_sum in H.
  destruct H as (v & noisy & e & es & [_ _ _ HC _ _ _ _ _]). eauto.
Qed.

Definition cadence (c : cfg) (s : st) : Prop :=
  0 <= itercount (C s) /\ saves (trace s) = multiples (save_state_interval c) (itercount (C s)).

Lemma cadence_same c s s' : itercount (C s') = itercount (C s) ->
  (exists es, trace s' = trace s ++ es /\ forall k, ~ In (EvSave k) es) -> cadence c s -> cadence c s'.
Proof.
  intros Hi (es & Ht & Hn) (H1 & H2). split; [lia|].
  rewrite Ht, saves_app, (saves_none es) by assumption. now rewrite app_nil_r, Hi.
Qed.
Lemma no_more_trace {s s' : st} : trace s' = trace s ->
  exists es, trace s' = trace s ++ es /\ forall k, ~ In (EvSave k) es.
Proof. intros H. exists []. rewrite app_nil_r. split; [exact H|]. intros k []. Qed.

Lemma cadence_reach c ok s l : reach c ok s l -> cadence c s.
Proof.
  apply (fine_reach c ok (cadence c)).
  - intros s0 _. apply cadence_same; [apply advance_iter|now apply no_more_trace].
  - intros i s0 s1 _ H. destruct (restart_trace _ _ _ _ H) as (es & Ht & Hn & _).
    destruct (restart_step _ _ _ _ H) as (_ & _ & _ & _ & _ & Hi & _).
    apply cadence_same; [exact Hi|]. exists (EvRestart :: es). split; [exact Ht|].
    intros k [?|Hk]; [discriminate|]. exact (Hn k Hk).
  - intros s0 _. apply cadence_same; [reflexivity|now apply no_more_trace].
  - intros s0 r. apply cadence_same; [reflexivity|now apply no_more_trace].
  - intros s0 _. apply cadence_same; [reflexivity|now apply no_more_trace].
  - intros s0 _. apply cadence_same; [reflexivity|].
    eexists. split; [reflexivity|]. intros k [?|[]]. discriminate.
  - intros s0 _. apply cadence_same; [|now apply no_more_trace]. apply (advance_iter c s0).
  - intros j s0 s1 H. apply remove_fields in H. destruct H as (_ & _ & _ & HC & _ & Ht).
    apply cadence_same; [now rewrite HC|now apply no_more_trace].
  - intros i p s0 l0 s1 l1 _ _ H. apply cadence_same; [eapply evaluate_iter; eauto|].
    destruct (eval_trace _ _ _ _ _ _ _ _ H) as (es & Ht & He). exists es. split; [exact Ht|].
    intros k Hk. destruct (He _ Hk); discriminate.
  - intros i s0 s1 H. apply cadence_same; [eapply after_iter; eauto|].
    apply no_more_trace. now apply after_fields in H.
  - intros s0. apply cadence_same; [apply (advance_iter c s0)|now apply no_more_trace].
  - intros s0 s1 H (H1 & H2). apply end_fields in H.
    destruct H as (_ & _ & _ & Hi & _ & _ & _ & Hne & Ht). split; [lia|].
    rewrite Ht, saves_app, H2, Hi, multiples_succ by lia. f_equal.
    destruct ((itercount (C s0) + 1) mod _ =? 0); reflexivity.
  - split; reflexivity.
Qed.

(** ** C21: the steps *)
Definition step_enabled (c : cfg) (z : Z) : Prop :=
  0 <= z <= num_global_searches c + 3 /\
  (z = 0 -> do_infstep c = true) /\
  (z = num_global_searches c + 1 -> do_local_search c = true).
Definition sched (c : cfg) (s : st) : Prop :=
  0 <= current_step (C s) <= restoration_step c /\
  forall z, In (EvStep z) (trace s) -> 0 <= z <= restoration_step c /\
     (some_step c -> step_enabled c z).

Lemma next_step_range c z : 0 <= num_global_searches c -> 0 <= next_step c z <= local_search_step c.
Proof.
  intros H. unfold next_step, local_search_step, cycle_length.
  pose proof (Z.mod_pos_bound (z + 1) (num_global_searches c + 2)). lia.
Qed.
Lemma first_step_range c : 0 <= num_global_searches c -> 0 <= first_step c <= local_search_step c.
Proof. intros H. unfold first_step, inf_step, local_search_step. destruct (do_infstep c); lia. Qed.

Lemma skip_enabled c k : 0 <= current_step k <= restoration_step c -> skip_step c k = false ->
  step_enabled c (current_step k).
Proof.
  unfold skip_step, step_enabled, restoration_step, inf_step, local_search_step. intros H Hs.
  apply orb_false_iff in Hs. destruct Hs as (H1 & H2). split; [lia|]. split; intros E; rewrite E in *.
  - cbn in H1. now destruct (do_infstep c).
  - rewrite Z.eqb_refl in H2. cbn in H2. now destruct (do_local_search c).
Qed.

Lemma sched_same c s s' : (0 <= current_step (C s) <= restoration_step c ->
                           0 <= current_step (C s') <= restoration_step c) ->
  (exists es, trace s' = trace s ++ es /\ forall k, ~ In (EvStep k) es) -> sched c s -> sched c s'.
Proof.
  intros Hz (es & Ht & Hn) (H1 & H2). split; [auto|].
  intros z Hin. rewrite Ht in Hin. apply in_app_or in Hin. destruct Hin as [Hin|Hin]; [auto|].
  exfalso. exact (Hn z Hin).
Qed.
Lemma no_more_trace2 {s s' : st} : trace s' = trace s ->
  exists es, trace s' = trace s ++ es /\ forall k, ~ In (EvStep k) es.
Proof. intros H. exists []. rewrite app_nil_r. split; [exact H|]. intros k []. Qed.

Lemma after_step c i s s' : 0 <= num_global_searches c -> after_eval c i s = Ok s' ->
  current_step (C s') = next_step c (current_step (C s)) /\
    cyclecount (C s') = cyclecount (C s) +
      (if next_step c (current_step (C s)) <? current_step (C s) then 1 else 0) /\
    current_step (C s) <> refinement_step c \/
  current_step (C s') = refinement_step c /\ cyclecount (C s') = cyclecount (C s) /\
    (current_step (C s) = refinement_step c \/ current_step (C s) = local_search_step c \/
     current_step (C s) = local_search_step c - 1 /\ do_local_search c = false) \/
  current_step (C s') = first_step c /\ cyclecount (C s') = cyclecount (C s) + 1 /\
    current_step (C s) = refinement_step c.
Proof.
  intros Hg. unfold after_eval. cbv zeta.
  destruct (Z.eqb_spec (current_step (C s)) (refinement_step c)) as [Er|Er].
  - destruct (refinement_update c i s) as [s1|] eqn:E; cbn [bind]; [|discriminate].
    intros H; inversion H; subst. apply refine_fields in E.
    destruct E as (_ & _ & _ & _ & _ & _ & [E|(E1 & E2 & _)]); cbn.
    + rewrite E. right. left. auto.
    + right. right. auto.
  - match goal with |- context [if ?b then Ok _ else Ok _] => destruct b eqn:Eb end;
      cbn [bind]; intros H; injection H as <-.
    + right. left. cbn. split; [reflexivity|]. split; [reflexivity|].
      apply andb_true_iff in Eb. destruct Eb as (Eb & _). apply orb_true_iff in Eb.
      destruct Eb as [Eb|Eb]; [right; left; now apply Z.eqb_eq|].
      apply andb_true_iff in Eb. destruct Eb as (Eb & Ed). right; right.
      split; [now apply Z.eqb_eq|]. now destruct (do_local_search c).
    + left. cbn. unfold advance. cbv zeta. destruct (next_step _ _ <? _); cbn; repeat split; auto; lia.
Qed.

Lemma sched_reach c ok s l : 0 <= num_global_searches c -> reach c ok s l -> sched c s.
Proof.
  intros Hg.
  assert (HL : local_search_step c <= restoration_step c) by (unfold local_search_step, restoration_step; lia).
  pose proof (first_step_range c Hg) as Hfs.
  apply (fine_reach c ok (sched c)).
  - intros s0 _. apply sched_same; [|now apply no_more_trace2]. intros _.
    change (C (advance_st c s0)) with (advance c (C s0)).
    destruct (advance_ctrs c (C s0)) as (_ & _ & _ & -> & _).
    pose proof (next_step_range c (current_step (C s0)) Hg). lia.
  - intros i s0 s1 _ H. destruct (restart_trace _ _ _ _ H) as (es & Ht & _ & Hn & _).
    destruct (restart_step _ _ _ _ H) as (Hs & _).
    apply sched_same; [intros _; lia|]. exists (EvRestart :: es). split; [exact Ht|].
    intros k [?|Hk]; [discriminate|]. exact (Hn k Hk).
  - intros s0 _. apply sched_same; [|now apply no_more_trace2]. cbn. unfold restoration_step. lia.
  - intros s0 r. apply sched_same; [auto|now apply no_more_trace2].
  - intros s0 _. apply sched_same; [cbn; lia|now apply no_more_trace2].
  - intros s0 Hs (H1 & H2). split; [exact H1|]. cbn. intros z Hin. apply in_app_or in Hin.
    destruct Hin as [Hin|[E|[]]]; [auto|]. injection E as <-. split; [exact H1|].
    intros Hsm. apply skip_enabled; auto.
  - intros s0 _. apply sched_same; [|now apply no_more_trace2]. intros _. cbn -[advance].
    change (current_step (set_underdet true (advance c (C s0)))) with (current_step (advance c (C s0))).
    destruct (advance_ctrs c (C s0)) as (_ & _ & _ & -> & _).
    pose proof (next_step_range c (current_step (C s0)) Hg). lia.
  - intros j s0 s1 H. apply remove_fields in H. destruct H as (_ & _ & _ & HC & _ & Ht).
    apply sched_same; [now rewrite HC|now apply no_more_trace2].
  - intros i p s0 l0 s1 l1 _ _ H. apply sched_same.
    + destruct (eval_ctrs _ _ _ _ _ _ _ _ H) as (a & b & ->). auto.
    + destruct (eval_trace _ _ _ _ _ _ _ _ H) as (es & Ht & He). exists es. split; [exact Ht|].
      intros k Hk. destruct (He _ Hk); discriminate.
  - intros i s0 s1 H. apply sched_same; [|apply no_more_trace2; now apply after_fields in H].
    intros H0. pose proof (next_step_range c (current_step (C s0)) Hg).
    destruct (after_step _ _ _ _ Hg H) as [(-> & _)|[(-> & _)|(-> & _)]]; try lia.
    unfold refinement_step, restoration_step in *; lia.
  - intros s0. apply sched_same; [|now apply no_more_trace2]. intros _.
    change (current_step (C (discard_st c s0))) with (current_step (advance c (C s0))).
    destruct (advance_ctrs c (C s0)) as (_ & _ & _ & -> & _).
    pose proof (next_step_range c (current_step (C s0)) Hg). lia.
  - intros s0 s1 H. apply end_fields in H.
    destruct H as (_ & _ & _ & _ & Hs & _ & _ & _ & Ht).
    apply sched_same; [now rewrite Hs|]. eexists. split; [exact Ht|].
    intros k Hk. destruct (_ =? 0); [|exact Hk]. destruct Hk as [?|[]]; discriminate.
  - split; [cbn; unfold restoration_step; lia|]. intros z [].
Qed.

(** How an ordinary pass moves the step and the cycle counter. *)
Definition moves_on (c : cfg) (s s' : st) : Prop :=
  current_step (C s') = next_step c (current_step (C s)) /\
  cyclecount (C s') = cyclecount (C s) +
     (if next_step c (current_step (C s)) <? current_step (C s) then 1 else 0).
Definition to_refinement (c : cfg) (s s' : st) : Prop :=
  current_step (C s') = refinement_step c /\ cyclecount (C s') = cyclecount (C s).

Lemma end_step c s s' : end_of_pass c s = Ok s' ->
  current_step (C s') = current_step (C s) /\ cyclecount (C s') = cyclecount (C s).
Proof. intros H. apply end_fields in H. tauto. Qed.
Lemma conclude_step c i s prop l s' l' : 0 <= num_global_searches c ->
  conclude c i s prop l = Cont s' l' ->
  moves_on c s s' \/
  to_refinement c s s' /\
    (current_step (C s) = refinement_step c \/ current_step (C s) = local_search_step c \/
     current_step (C s) = local_search_step c - 1 /\ do_local_search c = false) \/
  current_step (C s') = first_step c /\ cyclecount (C s') = cyclecount (C s) + 1 /\
    current_step (C s) = refinement_step c.
Proof.
  intros Hg. unfold conclude. cbv zeta. intros H.
  assert (D : match end_of_pass c (discard_st c s) with Ok s4 => Cont s4 l | Fail e => Crash e end
              = Cont s' l' -> moves_on c s s').
  { destruct (end_of_pass c (discard_st c s)) as [s4|] eqn:E; [|discriminate].
    intros HH; inversion HH; subst. destruct (end_step _ _ _ E) as (E1 & E2).
    unfold moves_on. rewrite E1, E2.
    change (C (discard_st c s)) with
       (set_discarded (push_window (window c) (discarded (advance c (C s))) true) (advance c (C s))).
    cbn [current_step cyclecount set_discarded].
    destruct (advance_ctrs c (C s)) as (_ & _ & _ & A1 & A2 & _). now rewrite A1, A2. }
  destruct prop as [q|]; cbn [option_map] in H; [|left; apply D; exact H].
  destruct (node_pos (T s)) as [|x xs] eqn:En; [discriminate|].
  destruct (near (min_dist c) (clip q (l_lower c) (l_upper c)) (x :: xs)) eqn:Enear;
    [left; apply D; exact H|].
  destruct (evaluate c i _ _ s l) as [[s1 l1]|] eqn:Ee; cbn [bind fst snd] in H; [|discriminate].
  destruct (after_eval c i s1) as [s2|] eqn:Ea; cbn [bind] in H; [|discriminate].
  destruct (end_of_pass c s2) as [s3|] eqn:Eend; cbn [bind] in H; [|discriminate].
  inversion H; subst. destruct (end_step _ _ _ Eend) as (E1 & E2).
  destruct (eval_ctrs _ _ _ _ _ _ _ _ Ee) as (a & b & HC).
  assert (Z1 : current_step (C s1) = current_step (C s)) by now rewrite HC.
  assert (Z2 : cyclecount (C s1) = cyclecount (C s)) by now rewrite HC.
  unfold moves_on, to_refinement. rewrite E1, E2.
  destruct (after_step _ _ _ _ Hg Ea) as [(A1 & A2 & A3)|[(A1 & A2 & A3)|(A1 & A2 & A3)]];
    rewrite Z1, ?Z2 in *; auto.
Qed.

Lemma search_step_point c i s s4 prop : search c i s = FPoint s4 prop -> C s4 = C s.
Proof.
  unfold search. cbv zeta.
  destruct (_ =? restoration_step c).
  { destruct (restoration_search c i s) as [[[p r]|]|e]; [| |discriminate].
    - destruct (remove_node r s) eqn:E; [|discriminate]. intros H; inversion H; subst.
      apply remove_fields in E. tauto.
    - destruct (_ && _); [discriminate|]. destruct (restart c i s); discriminate. }
  destruct (_ =? local_search_step c); [|intros H; inversion H; reflexivity].
  destruct (local_result c i s) as [j|]; [|intros H; inversion H; reflexivity].
  destruct (nth_error _ j); [|discriminate]. destruct (remove_node j s) eqn:E; [|discriminate].
  intros H; inversion H; subst. apply remove_fields in E. tauto.
Qed.

Lemma pass_ordinary c i s l s' l' : 0 <= num_global_searches c ->
  pass c i s l = Cont s' l' ->
  0 <= current_step (C s) <= local_search_step c -> must_restart c (C s) = false ->
  i_lin_ok i = true ->
  moves_on c s s' \/
  to_refinement c s s' /\
    (current_step (C s) = local_search_step c \/
     current_step (C s) = local_search_step c - 1 /\ do_local_search c = false).
Proof.
  unfold pass. intros Hg H Hz Hm Hlin.
  destruct (negb (loop_cond c s l (i_clock_ok i))); [discriminate|].
  destruct (skip_step c (C s)) eqn:Esk.
  { inversion H; subst. left. unfold moves_on.
    change (C (advance_st c s)) with (advance c (C s)).
    destruct (advance_ctrs c (C s)) as (_ & _ & _ & A1 & A2 & _). now rewrite A1, A2. }
  rewrite Hm in H. unfold prepare in H. cbv zeta in H.
  replace (current_step (C s) <=? local_search_step c) with true in H by (symmetry; apply Z.leb_le; lia).
  rewrite Hlin in H.
  destruct (negb (search_guard c _)); [discriminate|].
  destruct (search c i _) as [s4 prop|s4|e] eqn:Es; [| |discriminate].
  - pose proof (search_step_point _ _ _ _ _ Es) as HC. cbn in HC.
    destruct (conclude_step _ _ _ _ _ _ _ Hg H) as [A|[(A & B)|(_ & _ & B)]];
      unfold moves_on, to_refinement in *; rewrite HC in *; auto.
    + destruct B as [B|B]; [|auto]. unfold refinement_step, local_search_step in *. lia.
    + unfold refinement_step, local_search_step in *. lia.
  - exfalso. unfold search in Es. cbn [C emit] in Es. cbv zeta in Es.
    destruct (Z.eqb_spec (current_step (C s)) (restoration_step c)) as [E|E];
      [unfold restoration_step, local_search_step in *; lia|].
    destruct (_ =? local_search_step c); [|discriminate].
    destruct (local_result c i _) as [j|]; [|discriminate].
    destruct (nth_error _ j); [|discriminate]. destruct (remove_node j _); discriminate.
Qed.

Lemma pass_refinement c i s l s' l' : 0 <= num_global_searches c ->
  pass c i s l = Cont s' l' -> current_step (C s) = refinement_step c ->
  to_refinement c s s' \/
  cyclecount (C s') = cyclecount (C s) + 1 /\
     (current_step (C s') = first_step c \/ current_step (C s') = 1).
Proof.
  unfold pass. intros Hg H Hz.
  destruct (negb (loop_cond c s l (i_clock_ok i))); [discriminate|].
  assert (Esk : skip_step c (C s) = false).
  { unfold skip_step. rewrite Hz. unfold refinement_step, inf_step, local_search_step.
    replace (num_global_searches c + 2 =? 0) with false by (symmetry; apply Z.eqb_neq; lia).
    replace (num_global_searches c + 2 =? num_global_searches c + 1) with false
      by (symmetry; apply Z.eqb_neq; lia). reflexivity. }
  rewrite Esk in H.
  assert (Hm : must_restart c (C s) = false).
  { unfold must_restart. rewrite Hz.
    replace (refinement_step c <=? first_step c) with false; [reflexivity|].
    symmetry. apply Z.leb_gt. unfold refinement_step, first_step, inf_step.
    destruct (do_infstep c); lia. }
  rewrite Hm in H.
  assert (Hp : match prepare c i s with PGo s2 => C s2 = C s
          | PNext s2 => cyclecount (C s2) = cyclecount (C s) + 1 /\ current_step (C s2) = first_step c
          | PFail _ => True end).
  { unfold prepare. cbv zeta. rewrite Hz.
    replace (refinement_step c <=? local_search_step c) with false
      by (symmetry; apply Z.leb_gt; unfold refinement_step, local_search_step; lia).
    rewrite Z.eqb_refl.
    destruct (num_cons_refinement (Rf s) =? 0); cbn [andb].
    - destruct (stale _ _); [exact Logic.I|]. destruct (_ <? 2)%nat; [exact Logic.I|].
      destruct (stale _ _); [exact Logic.I|]. destruct (negb _); [split; reflexivity|].
      destruct (ref_iterate_index _); [|exact Logic.I]. destruct (stale _ _); [exact Logic.I|]. reflexivity.
    - destruct (stale _ _); [exact Logic.I|]. destruct (negb _); [split; reflexivity|].
      destruct (ref_iterate_index _); [|exact Logic.I]. destruct (stale _ _); [exact Logic.I|]. reflexivity. }
  destruct (prepare c i s) as [s2|s2|e]; [| |discriminate].
  2: { inversion H; subst. right. tauto. }
  destruct (negb (search_guard c _)); [discriminate|].
  destruct (search c i _) as [s4 prop|s4|e] eqn:Es; [| |discriminate].
  - pose proof (search_step_point _ _ _ _ _ Es) as HC. cbn in HC. rewrite Hp in HC.
    destruct (conclude_step _ _ _ _ _ _ _ Hg H) as [A|[(A & B)|(A1 & A2 & B)]];
      unfold moves_on, to_refinement in *; rewrite HC in *; auto.
    destruct A as (A1 & A2). rewrite Hz in *.
    assert (En : next_step c (refinement_step c) = 1).
    { unfold next_step, refinement_step, cycle_length. symmetry. apply (Z.mod_unique_pos _ _ 1); lia. }
    rewrite En in *. right. split; [|auto]. rewrite A2.
    replace (1 <? refinement_step c) with true; [reflexivity|]. symmetry. apply Z.ltb_lt.
    unfold refinement_step. lia.
  - exfalso. unfold search in Es. cbn [C emit] in Es. rewrite Hp in Es. cbv zeta in Es. rewrite Hz in Es.
    destruct (Z.eqb_spec (refinement_step c) (restoration_step c)) as [E|E];
      [unfold restoration_step, refinement_step in *; lia|].
    destruct (_ =? local_search_step c); [|discriminate].
    destruct (local_result c i _) as [j|]; [|discriminate].
    destruct (nth_error _ j); [|discriminate]. destruct (remove_node j _); discriminate.
Qed.

Lemma next_step_values c z : 0 <= num_global_searches c -> 0 <= z <= local_search_step c ->
  next_step c z = (if z =? local_search_step c then 0 else z + 1).
Proof.
  intros Hg Hz. unfold next_step, local_search_step, cycle_length in *.
  destruct (Z.eqb_spec z (num_global_searches c + 1)) as [->|Hne].
  - replace (num_global_searches c + 1 + 1) with (num_global_searches c + 2) by lia. now apply Z.mod_same; lia.
  - apply Z.mod_small. lia.
Qed.
