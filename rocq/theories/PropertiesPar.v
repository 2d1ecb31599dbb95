(** * Properties of the parallel optimizer: C72-C77, C107-C115.
    Every theorem quantifies over all schedules of the workers (see [ModelParallel]) and all
    answers of the environment: [preach pc0 ok m P] says that some sequence of calls of
    [optimize], with inputs satisfying [ok], passes through control point [m] and state [P];
    [any_pin] is satisfied by every input. *)
From Verif Require Import AlgGlue.
From Verif Require Import WitnessPar.
From Verif Require Import ModelInit.
From Coq Require Import Permutation.
Open Scope Z_scope.

(** Fragments of concrete schedules. *)
Definition w_s0 : list pin := [ev 0 5; ev 0 6; go].
Definition w_plan : list pin := [go; go; go; go; go].
Definition w_fnd (p : point) : list pin := [go; go; found 0 p; go].
Definition w_drop : list pin := [go; go; nothing 0; go; go; go].
Definition w_evl (v : Q) : list pin := [go; ev 0 v; go].
Definition two_points : pin := sample [[0%Q]; [10%Q]].
Definition w_km (it evs : Z) (noisy aff : bool) : knobs :=
  mkKnobs aff noisy [] [0%Q] [10%Q] it evs (1#1000000) (1#1000) (-100) [] [] 2 20 0 false true 10 20 100 true.
Definition w_p3 : list pin := w_s0 ++ w_plan ++ w_plan ++ w_plan ++ [go; go; go; go; go; go].
Definition w_c3 (it evs : Z) : pcfg := pw (w_km it evs false false) 3 (1#2) 1000 true.
Definition w_three : list pin := w_p3 ++ [found 0 [4%Q]; found 0 [6%Q]; found 0 [8%Q]].
Definition at_pc (x : pc * pst) : pc := fst x.
Definition at_pst (x : pc * pst) : pst := snd x.
Definition x_mid : pc * pst := pcall (w_c3 30 3) two_points 1000 w_three.
Definition x_end : pc * pst := pcall (w_c3 30 3) two_points 1000
  (w_three ++ [go; go; ev 0 3; ev 0 2; ev 0 1; go; go; go]).

Lemma reached pc0 q0 pa qs m : fst (pcall pc0 q0 pa qs) = m -> preach pc0 any_pin m (snd (pcall pc0 q0 pa qs)).
Proof.
  intros <-. eapply (reach_pcall pc0 any_pin q0 pa qs); [exact Logic.I|apply any_pins|apply surjective_pairing].
Qed.
Ltac preached := cbv zeta; repeat match goal with x := _ |- _ => subst x end; unfold at_pst, at_pc, x_mid, x_end;
  apply reached; vm_compute; reflexivity.

(** ** C72 *)
Theorem C72_temporary_nodes_aligned : forall pc0 ok m P, preach pc0 ok m P -> no_error m -> in_loop m ->
  tpos (p_k P) = map t_pos (pend (p_k P)) /\ tnoisy (p_k P) = map t_noisy (pend (p_k P)) /\
  length (tval (p_k P)) = length (pend (p_k P)).
Proof. intros pc0 ok m P H N. exact (lists_reach pc0 ok m P H N). Qed.
Print Assumptions C72_temporary_nodes_aligned.
(** A recorded result was returned for a submitted evaluation of exactly that point (the
    exception, for left-over initial points under affine scaling, is C77). *)
Theorem C72_recorded_where_made : forall pc0 ok m P k p v, preach pc0 ok m P -> no_error m ->
  In (PRow (Some k) p v) (p_log P) ->
  exists p' noisy id, In (PSubmit k p' noisy id) (p_log P) /\ In (PAnswer k v) (p_log P) /\
    (p = p' \/ id = SInit /\ p = to_orig (base pc0) p').
Proof. intros pc0 ok m P k p v H N. exact (proj2 (proj2 (prov_reach pc0 ok m P H N)) k p v). Qed.
Print Assumptions C72_recorded_where_made.
Example C72_case : let P := at_pst x_mid in
  preach (w_c3 30 3) any_pin PcSearches P /\ length (pend (p_k P)) = 3%nat /\
  tpos (p_k P) = [[4%Q]; [6%Q]; [8%Q]].
Proof. split; [preached|]. split; vm_compute; reflexivity. Qed.
(** Results arriving in another order than submitted are recorded at the right points. *)
Example C72_case_order :
  let x := pcall (w_c3 30 100) two_points 1000 (w_three ++ [go; go; ev 2 1; ev 0 3; ev 0 2]) in
  preach (w_c3 30 100) any_pin (at_pc x) (at_pst x) /\
  In (PRow (Some 4%nat) [8%Q] 1%Q) (p_log (at_pst x)) /\ In (PRow (Some 2%nat) [4%Q] 3%Q) (p_log (at_pst x)).
Proof. split; [preached|]. split; vm_compute; tauto. Qed.

(** ** C73 *)
Theorem C73_every_evaluation_has_one_fate : forall pc0 ok m P, preach pc0 ok m P -> no_error m ->
  Permutation (outstanding m P ++ settled (p_log P)) (submitted (p_log P)) /\ NoDup (submitted (p_log P)).
Proof.
  intros pc0 ok m P H N. destruct (ledger_reach pc0 ok m P H N) as [L1 L2 _ _ _ _].
  rewrite L1. split; [exact L2|apply seq_NoDup].
Qed.
Print Assumptions C73_every_evaluation_has_one_fate.
Theorem C73_counters : forall pc0 ok m P, preach pc0 ok m P -> no_error m ->
  evalcount (C (p_s P)) = accurate_submissions (p_log P) /\
  noisy_evalcount (C (p_s P)) = noisy_submissions (p_log P).
Proof. intros pc0 ok m P H N. destruct (ledger_reach pc0 ok m P H N) as [_ _ L3 L4 _ _]. auto. Qed.
Print Assumptions C73_counters.
Theorem C73_history_is_the_log : forall pc0 ok m P, preach pc0 ok m P -> no_error m ->
  map fst (replay (p_log P) []) = all_pos (T (p_s P)) /\ map snd (replay (p_log P) []) = all_val (T (p_s P)).
Proof. intros pc0 ok m P H N. destruct (ledger_reach pc0 ok m P H N) as [_ _ _ _ L5 L6]. auto. Qed.
Print Assumptions C73_history_is_the_log.
Theorem C73_nothing_pending_at_exit : forall pc0 ok P, preach pc0 ok PcDone P ->
  outstanding PcDone P = [] /\ Permutation (settled (p_log P)) (submitted (p_log P)).
Proof.
  intros pc0 ok P H. assert (N : no_error PcDone) by (intros e; discriminate).
  destruct (idle_reach pc0 ok PcDone P H N) as (_ & E). specialize (E eq_refl).
  assert (O : outstanding PcDone P = []) by (unfold outstanding; now rewrite E).
  split; [exact O|]. destruct (C73_every_evaluation_has_one_fate pc0 ok PcDone P H N) as (X & _).
  rewrite O in X. exact X.
Qed.
Print Assumptions C73_nothing_pending_at_exit.
Example C73_case : preach (w_c3 30 3) any_pin PcDone (at_pst x_end) /\
  submitted (p_log (at_pst x_end)) = [0; 1; 2; 3; 4]%nat /\ evalcount (C (p_s (at_pst x_end))) = 5 /\
  all_val (T (p_s (at_pst x_end))) = [5; 6; 3; 2; 1]%Q.
Proof. split; [preached|]. vm_compute. auto. Qed.

(** ** C74 *)
Theorem C74_capacity : forall pc0 ok m P, preach pc0 ok m P -> no_error m ->
  1 <= num_cpus (base pc0) -> initial_pending (p_k P) = [] -> load (p_k P) <= num_cpus (base pc0).
Proof.
  intros pc0 ok m P H N H1 Hi. pose proof (cap_reach pc0 ok m P H N) as X.
  assert (E : other_load (p_k P) = load (p_k P)).
  { unfold other_load, load. f_equal. f_equal. unfold initial_pending in Hi. revert Hi. generalize (pend (p_k P)).
    intros l. induction l as [|t r IH]; cbn; auto. unfold is_init in *. destruct (t_id t); cbn; try discriminate;
    intros Hi; rewrite (IH Hi); reflexivity. }
  destruct m; cbn in X; try lia.
Qed.
Print Assumptions C74_capacity.
Example C74_case : preach (w_c3 30 3) any_pin PcSearches (at_pst x_mid) /\
  initial_pending (p_k (at_pst x_mid)) = [] /\ load (p_k (at_pst x_mid)) = 3.
Proof. split; [preached|]. vm_compute. auto. Qed.
(** The premise is needed: left-over initial evaluations are not counted. *)
Theorem C74_without_premise_refuted : exists pc0 P, preach pc0 any_pin PcHead P /\
  num_cpus (base pc0) = 1 /\ load (p_k P) = 2.
Proof.
  exists (pw kn0 1 (1#2) 3 true).
  exists (at_pst (pcall (pw kn0 1 (1#2) 3 true) (sample [[0%Q]; [10%Q]; [5%Q]; [2%Q]]) 1000 w_s0)).
  split; [preached|]. vm_compute. auto.
Qed.
Print Assumptions C74_without_premise_refuted.

(** ** C75: with a noisy evaluation pending at shutdown the call never returns normally: after
    as many steps as there are pending evaluations it has raised an exception. *)
Theorem C75_shutdown_refuted : forall pc0 P qs, (exists t, In t (pend (p_k P)) /\ t_noisy t = true) ->
  (length (pend (p_k P)) <= length qs)%nat -> exists e P', prun pc0 qs PcFinal P = (PcCrash e, P').
Proof.
  intros pc0 P qs H L. destruct (final_noisy pc0 qs P H) as [(P' & _ & L')|X]; [lia|exact X].
Qed.
Print Assumptions C75_shutdown_refuted.
Definition w_kz (nev : Z) : knobs :=
  mkKnobs false true [] [0%Q] [10%Q] 30 100 (1#1000000) (1#1000) (-100) [] [] 2 20 0 false true nev 20 100 true.
Example C75_case :
  let c := pw (w_kz 10) 2 (1#2) 1000 true in
  let x := pcall c two_points 1000 (w_s0 ++ w_plan ++ [go; go; found 0 [4%Q]; go; go; go; stop]) in
  preach c any_pin PcFinal (at_pst x) /\ (exists t, In t (pend (p_k (at_pst x))) /\ t_noisy t = true) /\
  at_pc (prun c [stop] PcFinal (at_pst x)) = PcCrash EName.
Proof.
  split; [preached|]. split; [|vm_compute; reflexivity].
  vm_compute. eexists. split; [left; reflexivity|reflexivity].
Qed.
(** In accurate mode every pending evaluation is recorded, one per step. *)
Theorem C75_accurate_recorded : forall pc0 q P t r P' m, pend (p_k P) = t :: r -> t_noisy t = false ->
  pstep pc0 q PcFinal P = (m, P') -> no_error m ->
  m = PcFinal /\ pend (p_k P') = r /\
  p_log P' = p_log P ++ [PAnswer (t_ticket t) (i_val (q_inp q));
                         PRow (Some (t_ticket t)) (to_orig (base pc0) (t_pos t)) (i_val (q_inp q))] /\
  all_val (T (p_s P')) = all_val (T (p_s P)) ++ [i_val (q_inp q)] /\
  itercount (C (p_s P')) = itercount (C (p_s P)) + 1.
Proof.
  intros pc0 q P t r P' m Ep Ez H N. cbn [pstep] in H. unfold final_step in H. rewrite Ep, Ez in H. cbv zeta in H.
  destruct (node_pos (T (p_s P))); [injection H as <- <-; exfalso; now apply (N EAssert)|].
  destruct (current_gap _ _) as [g|e]; cbn [bind finish_step] in H; injection H as <- <-;
    [|exfalso; now apply (N e)].
  repeat split.
Qed.
Print Assumptions C75_accurate_recorded.
Example C75_case_accurate :
  let x := pcall (w_c3 30 3) two_points 1000 (w_three ++ [stop; stop]) in
  preach (w_c3 30 3) any_pin (at_pc x) (at_pst x) /\ at_pc x <> PcDone /\ length (pend (p_k (at_pst x))) = 3%nat /\
  Forall (fun t => t_noisy t = false) (pend (p_k (at_pst x))).
Proof. split; [preached|]. vm_compute. split; [discriminate|]. split; [reflexivity|]. repeat constructor. Qed.

(** ** C76 *)
(** When all submitted evaluations are finished the wait ends, provided the sample has at
    least the awaited number of points ... *)
Theorem C76_progress : forall pc0 (ok : pin -> Prop) kind w P q,
  (forall q0, ok q0 -> samples_from (base pc0) q0) -> preach pc0 ok (PcWait kind w) P -> w_pend w = [] ->
  forall k w', fst (pstep pc0 q (PcWait kind w) P) <> PcWait k w'.
Proof.
  intros pc0 ok kind w P q HS HR Hp k w'. apply wait_leaves; [exact Hp|].
  pose proof (feasible_reach pc0 ok _ P HS HR kind w eq_refl) as F. rewrite Hp in F. cbn in F. lia.
Qed.
Print Assumptions C76_progress.
(** ... and otherwise it never ends, whatever happens. *)
Theorem C76_waits_forever_refuted : exists pc0 kind w P, preach pc0 any_pin (PcWait kind w) P /\ w_pend w = [] /\
  forall qs, exists w' P', prun pc0 qs (PcWait kind w) P = (PcWait kind w', P').
Proof.
  set (c := pw kn0 1 (3#2) 3 true). set (x := pcall c two_points 1000 [ev 0 5; ev 0 6; go; go; go]).
  assert (E : exists kind w, at_pc x = PcWait kind w /\ w_pend w = [] /\
              Z.of_nat (length (w_got w)) + Z.of_nat (length (w_pend w)) < w_need w).
  { vm_compute. eexists _, _. split; [reflexivity|]. cbn [w_pend]. split; reflexivity. }
  destruct E as (kind & w & E1 & E2 & E3). exists c, kind, w, (at_pst x). split; [|split; [exact E2|]].
  - eapply reach_pcall with (q0 := two_points) (pa := 1000) (qs := [ev 0 5; ev 0 6; go; go; go]); [exact Logic.I|apply any_pins|].
    fold x. rewrite <- E1. apply surjective_pairing.
  - intros qs. now apply wait_forever.
Qed.
Print Assumptions C76_waits_forever_refuted.
Example C76_case : let c := pw kn0 1 (1#2) 3 true in
  let x := pcall c two_points 1000 [ev 0 5; ev 0 6] in
  preach c (samples_from (base c)) (at_pc x) (at_pst x) /\
  (exists kind w, at_pc x = PcWait kind w /\ w_pend w = []).
Proof.
  cbv zeta. split; [|vm_compute; eexists _, _; split; reflexivity].
  assert (S2 : forall q, i_samples (q_inp q) = Some [[0%Q]; [10%Q]] -> samples_from (base (pw kn0 1 (1#2) 3 true)) q).
  { intros q E pts H. rewrite E in H. injection H as <-. vm_compute. discriminate. }
  apply (reach_pcall _ _ two_points 1000 [ev 0 5; ev 0 6]); [| |apply surjective_pairing].
  - apply S2. reflexivity.
  - repeat constructor; apply S2; reflexivity.
Qed.

(** ** C77 *)
Theorem C77_leftover_misplaced_refuted : exists pc0 P p v, preach pc0 any_pin (PcEvals 0) P /\
  In (PSubmit 2 p false SInit) (p_log P) /\ inside (base pc0) p /\
  In (PRow (Some 2%nat) [50%Q] v) (p_log P) /\ p <> [50%Q] /\
  nth 2 (all_pos (T (p_s P))) [] = [50%Q] /\ ~ inside (base pc0) [50%Q].
Proof.
  set (c := pw (w_km 30 100 false true) 1 (1#2) 3 true).
  set (x := pcall c (sample [[0%Q]; [10%Q]; [5%Q]]) 1000 [ev 0 5; ev 0 6; go; go; ev 0 7]).
  exists c, (at_pst x), [5%Q], 7%Q. split; [preached|]. split; [vm_compute; tauto|].
  split. { split; [reflexivity|]. intros [|j] Hj; [vm_compute; split; discriminate|]. cbn in Hj. lia. }
  split; [vm_compute; tauto|]. split; [discriminate|]. split; [vm_compute; reflexivity|].
  intros (_ & H). specialize (H 0%nat ltac:(vm_compute; lia)). destruct H as [_ H]. vm_compute in H. now apply H.
Qed.
Print Assumptions C77_leftover_misplaced_refuted.
(** Without affine scaling every evaluation is recorded at the point where it was made. *)
Theorem C77_recorded_where_made_unscaled : forall pc0 ok m P k p v, affine (base pc0) = false ->
  preach pc0 ok m P -> no_error m -> In (PRow (Some k) p v) (p_log P) ->
  exists noisy id, In (PSubmit k p noisy id) (p_log P) /\ In (PAnswer k v) (p_log P).
Proof.
  intros pc0 ok m P k p v Ha H N HR.
  destruct (C72_recorded_where_made pc0 ok m P k p v H N HR) as (p' & nz & id & H1 & H2 & H3).
  assert (E : p = p').
  { destruct H3 as [->|(_ & ->)]; [reflexivity|]. unfold to_orig, transform_domain, scaling_on. now rewrite Ha. }
  subst p'. eauto.
Qed.
Print Assumptions C77_recorded_where_made_unscaled.
Example C77_case : affine (base (w_c3 30 3)) = false /\ preach (w_c3 30 3) any_pin PcDone (at_pst x_end) /\
  In (PRow (Some 3%nat) [6%Q] 2%Q) (p_log (at_pst x_end)).
Proof. split; [reflexivity|]. split; [preached|]. vm_compute. tauto. Qed.

(** ** C107: budget of one call.  [S] bounds the number of points of an initial sample. *)
Theorem C107_parallel_budget : forall pc0 (ok : pin -> Prop) S pa P0 m P,
  (forall q, ok q -> samples_upto S q) -> may_call pc0 ok P0 -> 0 <= num_cpus (base pc0) ->
  pduring pc0 ok pa P0 m P -> no_error m ->
  let init := Z.of_nat S + Z.of_nat (length (init_node_pos (base pc0))) in
  evalcount (C (p_s P)) <= Z.max (evalcount (C (p_s P0)) + init)
    (max_evaluations (base pc0) - 1 + Z.max (num_cpus (base pc0)) (Z.of_nat S + 1) + 2 * init).
Proof.
  intros pc0 ok S pa P0 m P HS H0 Hc HD N. cbv zeta. eapply budget_weak; [|exact N|].
  2: eapply budget_during; eauto; [lia|]. - lia.
  - intros m1 P1 HR N1. eapply extra_bound; eauto.
Qed.
Print Assumptions C107_parallel_budget.
(** Without noise the allowance for tasks in flight is the number of CPUs. *)
Theorem C107_parallel_budget_single_phase : forall pc0 (ok : pin -> Prop) S pa P0 m P,
  has_noisy (base pc0) = false ->
  (forall q, ok q -> samples_upto S q) -> may_call pc0 ok P0 -> 1 <= num_cpus (base pc0) ->
  pduring pc0 ok pa P0 m P -> no_error m ->
  let init := Z.of_nat S + Z.of_nat (length (init_node_pos (base pc0))) in
  evalcount (C (p_s P)) <= Z.max (evalcount (C (p_s P0)) + init)
    (max_evaluations (base pc0) - 1 + num_cpus (base pc0) + 2 * init).
Proof.
  intros pc0 ok S pa P0 m P Hn HS H0 Hc HD N. cbv zeta. eapply budget_weak; [|exact N|].
  2: eapply budget_during; eauto; [lia|]. - lia.
  - intros m1 P1 HR N1. pose proof (extra_quiet pc0 ok m1 P1 Hn HR N1). lia.
Qed.
Print Assumptions C107_parallel_budget_single_phase.
(** The limit itself is exceeded: three searches in flight all lead to evaluations. *)
Theorem C107_strict_refuted : exists pc0 P, preach pc0 any_pin PcDone P /\
  max_evaluations (base pc0) = 3 /\ evalcount (C (p_s P)) = 5 /\ accurate_submissions (p_log P) = 5.
Proof. exists (w_c3 30 3), (at_pst x_end). split; [preached|]. vm_compute. auto. Qed.
Print Assumptions C107_strict_refuted.
Lemma during_prun pc0 (ok : pin -> Prop) pa P0 : forall qs m P m' P', pduring pc0 ok pa P0 m P -> Forall ok qs ->
  prun pc0 qs m P = (m', P') -> pduring pc0 ok pa P0 m' P'.
Proof.
  induction qs as [|q r IH]; intros m P m' P' HR HF H; cbn in H; [injection H as <- <-; exact HR|].
  inversion HF; subst. destruct (pstep pc0 q m P) as [m1 P1] eqn:E.
  eapply IH; [|eassumption|exact H]. eapply pd_step; eauto.
Qed.
Lemma during_pcall pc0 (ok : pin -> Prop) q0 pa qs m P : ok q0 -> Forall ok qs ->
  pcall pc0 q0 pa qs = (m, P) -> pduring pc0 ok pa (pinit (base pc0)) m P.
Proof.
  intros H0 HF H. unfold pcall in H. destruct (pstart _ _ _ _) as [m1 P1] eqn:E.
  eapply during_prun; [eapply pd_start; eauto|exact HF|exact H].
Qed.
Lemma upto_two : forall q, i_samples (q_inp q) = Some [[0%Q]; [10%Q]] -> samples_upto 2 q.
Proof. intros q E pts H. rewrite E in H. injection H as <-. cbn. lia. Qed.
Example C107_case : pduring (w_c3 30 3) (samples_upto 2) 1000 (pinit (base (w_c3 30 3))) PcDone (at_pst x_end) /\
  may_call (w_c3 30 3) (samples_upto 2) (pinit (base (w_c3 30 3))) /\ has_noisy (base (w_c3 30 3)) = false.
Proof.
  split; [|split; [now left|reflexivity]].
  apply (during_pcall _ _ two_points 1000 (w_three ++ [go; go; ev 0 3; ev 0 2; ev 0 1; go; go; go]));
    [apply upto_two; reflexivity| |vm_compute; reflexivity].
  repeat (constructor; [apply upto_two; reflexivity|]). constructor.
Qed.

(** ** C108: iterations of one call *)
Theorem C108_parallel_iterations : forall pc0 (ok : pin -> Prop) S pa P0 m P,
  (forall q, ok q -> samples_upto S q) -> may_call pc0 ok P0 -> 0 <= num_cpus (base pc0) ->
  pduring pc0 ok pa P0 m P -> no_error m ->
  let W := 2 * Z.max (num_cpus (base pc0)) (Z.of_nat S + 1) in
  let i0 := itercount (C (p_s P0)) in
  itercount (C (p_s P)) <= Z.max (i0 + W) (Z.min (i0 + pa) (max_iterations (base pc0)) - 1 + 2 * W).
Proof.
  intros pc0 ok S pa P0 m P HS H0 Hc HD N. cbv zeta. eapply iter_weak; [|exact N|].
  2: eapply iter_during; eauto; [lia|]. - lia.
  - intros m1 P1 HR N1. eapply weight_bound; eauto.
Qed.
Print Assumptions C108_parallel_iterations.
Theorem C108_parallel_iterations_single_phase : forall pc0 (ok : pin -> Prop) S pa P0 m P,
  has_noisy (base pc0) = false ->
  (forall q, ok q -> samples_upto S q) -> may_call pc0 ok P0 -> 0 <= num_cpus (base pc0) ->
  pduring pc0 ok pa P0 m P -> no_error m ->
  let W := Z.max (num_cpus (base pc0)) (Z.of_nat S + 1) in
  let i0 := itercount (C (p_s P0)) in
  itercount (C (p_s P)) <= Z.max (i0 + W) (Z.min (i0 + pa) (max_iterations (base pc0)) - 1 + 2 * W).
Proof.
  intros pc0 ok S pa P0 m P Hn HS H0 Hc HD N. cbv zeta. eapply iter_weak; [|exact N|].
  2: eapply iter_during; eauto; [lia|]. - lia.
  - intros m1 P1 HR N1. eapply weight_quiet; eauto.
Qed.
Print Assumptions C108_parallel_iterations_single_phase.
(** A pause after one iteration is not exact: three iterations are made. *)
Theorem C108_exact_pause_refuted : exists pc0 q0 qs P, pcall pc0 q0 1 qs = (PcDone, P) /\
  itercount (C (p_s P)) = 3.
Proof.
  exists (w_c3 30 100), two_points, (w_three ++ [go; go; ev 0 3; ev 0 2; ev 0 1; go; go; go]).
  exists (at_pst (pcall (w_c3 30 100) two_points 1 (w_three ++ [go; go; ev 0 3; ev 0 2; ev 0 1; go; go; go]))).
  split; vm_compute; reflexivity.
Qed.
Print Assumptions C108_exact_pause_refuted.
Example C108_case : let x := pcall (w_c3 30 100) two_points 1 (w_three ++ [go; go; ev 0 3; ev 0 2; ev 0 1; go; go; go]) in
  pduring (w_c3 30 100) (samples_upto 2) 1 (pinit (base (w_c3 30 100))) PcDone (at_pst x).
Proof.
  apply (during_pcall _ _ two_points 1 (w_three ++ [go; go; ev 0 3; ev 0 2; ev 0 1; go; go; go]));
    [apply upto_two; reflexivity| |vm_compute; reflexivity].
  repeat (constructor; [apply upto_two; reflexivity|]). constructor.
Qed.

(** ** C109 *)
(** Once the flag is set while no refinement is under way, no refinement step is made in
    the rest of the call. *)
Theorem C109_refinement_never_again : forall pc0 qs m P m' P',
  busy (p_k P) = true -> ~ refining (p_k P) ->
  (forall kind w, m <> PcWait kind w) -> prun pc0 qs m P = (m', P') -> no_error m' ->
  refine_submissions (p_log P') = refine_submissions (p_log P) /\ busy (p_k P') = true /\ ~ refining (p_k P').
Proof.
  intros pc0 qs m P m' P' Hb Hr Hw H N.
  assert (S : stuck_refine m P).
  { split; [exact Hb|]. split.
    - split; apply Forall_forall; intros x Hx E; apply Hr; [left|right]; eauto.
    - intros kind w E. exfalso. eapply Hw; eauto. }
  split; [eapply stuck_run_log; eauto|].
  destruct (stuck_run pc0 qs m P m' P' S H N) as (H1 & (H2 & H3) & _). split; [exact H1|].
  rewrite Forall_forall in H2, H3. intros [(t & Ht & E)|(e & He & E)]; [eapply H2; eauto|eapply H3; eauto].
Qed.
Print Assumptions C109_refinement_never_again.
Definition w_ks : knobs :=
  mkKnobs false false [] [0%Q] [10%Q] 30 100 (1#1000000) (1#1000) (-100) [] [] 2 20 2 false true 10 2 1 true.
Definition w_pre : list pin := w_s0 ++ w_plan ++ w_drop ++ w_fnd [3%Q] ++ w_evl 9 ++ w_plan ++ w_drop ++ w_drop ++ w_drop ++
  [go; go; sample [[1%Q]; [9%Q]]; ev 0 7; ev 0 8; go; go] ++ w_drop ++ [go; go; found 0 [3%Q]].
(** Such a state is reached: the refinement search proposed a point evaluated before the last
    restart, whose value is reused; the flag is not cleared. *)
Theorem C109_refinement_resumes_refuted : exists pc0 P, preach pc0 any_pin PcSearches P /\
  busy (p_k P) = true /\ ~ refining (p_k P) /\
  forall qs m' P', prun pc0 qs PcSearches P = (m', P') -> no_error m' ->
    refine_submissions (p_log P') = refine_submissions (p_log P).
Proof.
  set (c := pw w_ks 1 (1#2) 3 true). set (x := pcall c two_points 1000 w_pre).
  assert (E : busy (p_k (at_pst x)) = true /\ pend (p_k (at_pst x)) = [] /\ srch (p_k (at_pst x)) = [])
    by (vm_compute; auto).
  destruct E as (E1 & E2 & E3).
  assert (R : ~ refining (p_k (at_pst x))).
  { intros [(t & Ht & _)|(t & Ht & _)]; [rewrite E2 in Ht|rewrite E3 in Ht]; destruct Ht. }
  exists c, (at_pst x). split; [preached|]. split; [exact E1|]. split; [exact R|].
  intros qs m' P' H N. apply (C109_refinement_never_again c qs PcSearches (at_pst x) m' P'); auto. discriminate.
Qed.
Print Assumptions C109_refinement_resumes_refuted.

(** ** C110: a noisy result for [4] is dropped as superseded although no accurate evaluation
    of [4] was ever submitted, and nothing is under way. *)
Definition w_lost : list pin := w_s0 ++ w_plan ++ w_plan ++ [go; go; found 0 [4%Q]; found 0 [7%Q]; go] ++ [go; ev 1 8; go] ++
  [go; go; go; go] ++ w_plan ++ [go; go; again 0 [4%Q] 2; go; go; go; ev 0 7].
Theorem C110_superseded_result_is_lost_refuted : exists pc0 m P, preach pc0 any_pin m P /\ no_error m /\
  In (PSubmit 2 [4%Q] true SRefine) (p_log P) /\ In (PAnswer 2 7%Q) (p_log P) /\ In (PSuperseded 2) (p_log P) /\
  outstanding m P = [] /\
  (forall k id, ~ In (PSubmit k [4%Q] false id) (p_log P)) /\ (forall s v, ~ In (PRow s [4%Q] v) (p_log P)).
Proof.
  set (c := pw (w_kz 3) 2 (1#2) 1000 true). set (x := pcall c two_points 1000 w_lost).
  exists c, (at_pc x), (at_pst x). split; [preached|]. split; [vm_compute; discriminate|].
  split; [vm_compute; tauto|]. split; [vm_compute; tauto|]. split; [vm_compute; tauto|]. split; [vm_compute; reflexivity|].
  split; [intros k id|intros s v]; vm_compute; intuition discriminate.
Qed.
Print Assumptions C110_superseded_result_is_lost_refuted.

(** ** C111 *)
Theorem C111_failed_linear_algebra_crashes : forall pc0 ok q P, rbf_auto pc0 = false -> preach pc0 ok PcPlan2 P ->
  i_lin_ok (q_inp q) = false ->
  (solve_underdetermined (C (p_s P)) = true \/ Z.of_nat (n_all P) < Z.of_nat (n (base pc0)) + 1) ->
  fst (pstep pc0 q PcPlan2 P) = PcCrash EIndex.
Proof. exact second_failure. Qed.
Print Assumptions C111_failed_linear_algebra_crashes.
Example C111_case : let c := pw kn0 1 (1#2) 3 false in
  let x := pcall c two_points 1000 (w_s0 ++ [go; go; go; go; lin_fails] ++ [go; go; go; go]) in
  preach c any_pin PcPlan2 (at_pst x) /\ solve_underdetermined (C (p_s (at_pst x))) = true /\
  at_pc (prun c [lin_fails] PcPlan2 (at_pst x)) = PcCrash EIndex.
Proof. split; [preached|]. vm_compute. auto. Qed.

(** ** C112 *)
Theorem C112_leftovers_and_singular_system : forall pc0 q kind w P,
  w_need w <= Z.of_nat (length (w_got w)) -> w_pend w <> [] -> ready q (w_pend w) = None ->
  i_lin_ok (q_inp q) = false -> exists e, fst (pstep pc0 q (PcWait kind w) P) = PcCrash e.
Proof.
  intros pc0 q kind w P H1 H2 H3 H4. cbn [pstep]. unfold wait_step. cbv zeta. rewrite H3.
  replace (w_need w <=? Z.of_nat (length (w_got w))) with true by (symmetry; apply Z.leb_le; lia).
  assert (X : exists e, restart_finish (base pc0) q kind w P = Fail e).
  { unfold restart_finish. cbv zeta. destruct (restart_user _ _ _ _) as [[usr x1] nu].
    destruct (map snd (w_got w) ++ w_prev w ++ usr) as [|r0 rs] eqn:Er; rewrite app_assoc in Er; rewrite Er; [eauto|].
    destruct (current_gap _ _); cbn [bind]; [|eauto].
    destruct (_ =? 1)%nat; [eauto|]. rewrite H4.
    destruct (w_pend w); [congruence|]. cbn [length Nat.eqb negb andb]. eauto. }
  destruct X as (e & ->). exists e. cbn [andb finish_step]. destruct (negb (w_inner w)); reflexivity.
Qed.
Print Assumptions C112_leftovers_and_singular_system.
Example C112_case : let c := pw kn0 1 (1#2) 3 true in
  let x := pcall c (sample [[0%Q]; [10%Q]; [5%Q]]) 1000 [ev 0 5; ev 0 6] in
  preach c any_pin (at_pc x) (at_pst x) /\
  (exists kind w, at_pc x = PcWait kind w /\ w_need w <= Z.of_nat (length (w_got w)) /\ w_pend w <> []) /\
  at_pc (prun c [lin_fails] (at_pc x) (at_pst x)) = PcCrash ERuntime.
Proof.
  split; [preached|].
  split; [|vm_compute; reflexivity].
  vm_compute. eexists _, _. split; [reflexivity|]. split; discriminate.
Qed.

(** ** C113: tables and incumbents, as C07 and C06 in serial mode *)
Theorem C113_tables_aligned : forall pc0 ok m P, preach pc0 ok m P -> no_error m ->
  (forall kind w, m <> PcWait kind w) ->
  let c := base pc0 in let t := T (p_s P) in
  (length (node_val t) = length (node_pos t) /\ length (node_is_noisy t) = length (node_pos t) /\
   length (node_err t) = length (node_pos t) /\
   length (all_val t) = length (all_pos t) /\ length (all_is_noisy t) = length (all_pos t) /\
   length (all_err t) = length (all_pos t)) /\
  length (all_pos t) = (nodes_at_restart t + length (node_pos t))%nat /\
  node_val t = skipn (nodes_at_restart t) (all_val t) /\
  node_is_noisy t = skipn (nodes_at_restart t) (all_is_noisy t) /\
  node_err t = skipn (nodes_at_restart t) (all_err t) /\
  forall j, (j < length (node_pos t))%nat ->
    let p := nth j (node_pos t) [] in let po := nth (nodes_at_restart t + j) (all_pos t) [] in
    po = to_orig c p \/ p = to_scaled c po.
Proof. intros pc0 ok m P H N W. apply aligned_readable. exact (par_aligned pc0 ok m P H N W). Qed.
Print Assumptions C113_tables_aligned.
Theorem C113_incumbents : forall pc0 ok m P, has_noisy (base pc0) = false -> preach pc0 ok m P -> no_error m ->
  (forall kind w, m <> PcWait kind w) -> let s := p_s P in
  (first_minimum (node_val (T s)) (fmin_index (I s)) /\
   fmin (I s) = Some (nth (fmin_index (I s)) (node_val (T s)) 0%Q)) /\
  (first_minimum (all_val (T s)) (fbest_index (I s)) /\
   fbest (I s) = Some (nth (fbest_index (I s)) (all_val (T s)) 0%Q)) /\
  (exists w, fmax (I s) = Some w /\ (exists x, In x (node_val (T s)) /\ (x == w)%Q) /\
             forall x, In x (node_val (T s)) -> (x <= w)%Q).
Proof.
  intros pc0 ok m P Hn H N W s. destruct (par_incumbents pc0 ok m P Hn H N W) as [A B D _ _].
  split; [exact A|]. split; [exact D|]. destruct B as (w & Hw & Hx & Hle). exists w. auto.
Qed.
Print Assumptions C113_incumbents.
Example C113_case : let s := p_s (at_pst x_end) in
  preach (w_c3 30 3) any_pin PcDone (at_pst x_end) /\ has_noisy (base (w_c3 30 3)) = false /\
  fmin_index (I s) = 4%nat /\ fmin (I s) = Some 1%Q /\ node_val (T s) = [5; 6; 3; 2; 1]%Q.
Proof. split; [preached|]. vm_compute. auto. Qed.

(** ** C114: where the black box is called *)
Theorem C114_inside_the_box : forall pc0 (ok : pin -> Prop) m P k p noisy id, let c := base pc0 in
  length (var_lower c) = length (var_upper c) ->
  (forall j, (j < length (var_lower c))%nat -> (nth j (var_lower c) 0 <= nth j (var_upper c) 0)%Q) ->
  (affine c = true -> integer_vars c = [] /\ has_noisy c = false) ->
  (forall q, In q (init_node_pos c) -> within (var_lower c) (var_upper c) q) ->
  (forall q, ok q ->
     (forall pts x, i_samples (q_inp q) = Some pts -> In x pts -> within (var_lower c) (var_upper c) x) /\
     (forall x, proposes q x -> length x = length (var_lower c))) ->
  preach pc0 ok m P -> no_error m -> In (PSubmit k p noisy id) (p_log P) -> within (var_lower c) (var_upper c) p.
Proof.
  intros pc0 ok m P k p noisy id c H1 H2 H3 H4 H5 HR N HI.
  destruct (region_reach pc0 ok (within (var_lower c) (var_upper c))) with (m := m) (P := P) as (_ & R & _); auto.
  - intros q pts x Hq Hp Hx. destruct (H5 q Hq) as [A _]. eauto.
  - intros q x Hq Hp. destruct (H5 q Hq) as [_ A].
    apply (proposal_in_box c x); [split; [exact H1|]|intros Ha; now apply H3|now apply A]; auto.
  - intros Hn x Hx. unfold to_orig, transform_domain, scaling_on. fold c.
    destruct (affine c) eqn:Ea; [|exact Hx]. destruct (H3 eq_refl) as [_ Hz]. fold c in Hn. congruence.
  - rewrite Forall_forall in R. exact (R _ HI).
Qed.
Print Assumptions C114_inside_the_box.
Theorem C114_integral : forall pc0 (ok : pin -> Prop) m P k p noisy id, let c := base pc0 in
  integer_at (integer_vars c) (var_lower c) -> integer_at (integer_vars c) (var_upper c) ->
  (forall q, In q (init_node_pos c) -> integer_at (integer_vars c) q) ->
  (forall q, ok q ->
     (forall pts x, i_samples (q_inp q) = Some pts -> In x pts -> integer_at (integer_vars c) x) /\
     (forall x, proposes q x -> integer_at (integer_vars c) x)) ->
  preach pc0 ok m P -> no_error m -> In (PSubmit k p noisy id) (p_log P) -> integer_at (integer_vars c) p.
Proof.
  intros pc0 ok m P k p noisy id c H1 H2 H4 H5 HR N HI.
  destruct (integral_bounds c H1 H2) as (B1 & B2).
  destruct (region_reach pc0 ok (integer_at (integer_vars c))) with (m := m) (P := P) as (_ & R & _); auto.
  - intros q pts x Hq Hp Hx. destruct (H5 q Hq) as [A _]. eauto.
  - intros q x Hq Hp. destruct (H5 q Hq) as [_ A]. apply integral_transform. apply integral_clip; auto. apply A; auto.
  - intros Hn x Hx. apply integral_transform. exact Hx.
  - rewrite Forall_forall in R. exact (R _ HI).
Qed.
Print Assumptions C114_integral.
Definition box_env (c : cfg) (q : pin) : Prop :=
  (forall pts x, i_samples (q_inp q) = Some pts -> In x pts -> within (var_lower c) (var_upper c) x) /\
  (forall x, proposes q x -> length x = length (var_lower c)).
Lemma box_env_two c q : var_lower c = [0%Q] -> var_upper c = [10%Q] ->
  i_samples (q_inp q) = Some [[0%Q]; [10%Q]] ->
  match q_ans q with APoint (Some p) _ => length p = 1%nat | APoint None _ => True | AReeval p _ => length p = 1%nat end ->
  box_env c q.
Proof.
  intros El Eu Es Ea. split.
  - intros pts x H Hx. rewrite Es in H. injection H as <-. rewrite El, Eu.
    destruct Hx as [<-|[<-|[]]]; (split; [reflexivity|]; split; [reflexivity|]); intros [|j] Hj; cbn in Hj; try lia;
      cbn; split; discriminate.
  - rewrite El. intros x [H|[[ind H]|[adj H]]]; rewrite H in Ea; exact Ea.
Qed.
Example C114_case : preach (w_c3 30 3) (box_env (base (w_c3 30 3))) PcDone (at_pst x_end) /\
  In (PSubmit 2 [4%Q] false SRefine) (p_log (at_pst x_end)).
Proof.
  split; [|vm_compute; tauto].
  apply (reach_pcall _ _ two_points 1000 (w_three ++ [go; go; ev 0 3; ev 0 2; ev 0 1; go; go; go]));
    [apply box_env_two; try reflexivity; exact Logic.I| |vm_compute; reflexivity].
  repeat (constructor; [apply box_env_two; try reflexivity; exact Logic.I|]). constructor.
Qed.
(** With affine scaling and a noisy oracle, the black box is called outside the box. *)
Theorem C114_affine_noisy_refuted : exists pc0 P, preach pc0 any_pin (PcEvals 0) P /\
  var_lower (base pc0) = [0%Q] /\ var_upper (base pc0) = [10%Q] /\
  In (PSubmit 2 [5%Q] true SInit) (p_log P) /\ In (PSubmit 3 [50%Q] false SInit) (p_log P).
Proof.
  set (c := pw (w_km 30 100 true true) 1 (1#2) 3 true).
  exists c, (at_pst (pcall c (sample [[0%Q]; [10%Q]; [5%Q]]) 1000 [ev 0 5; ev 0 6; go; go; ev 0 (-7)])).
  split; [preached|]. vm_compute. tauto.
Qed.
Print Assumptions C114_affine_noisy_refuted.

(** ** C115 *)
Theorem C115_accurate_evaluations_are_recorded : forall pc0 ok m P k p id, preach pc0 ok m P -> no_error m ->
  In (PSubmit k p false id) (p_log P) -> id <> SInit ->
  In k (outstanding m P) \/ exists v, In (PRow (Some k) p v) (p_log P) /\ In (PAnswer k v) (p_log P).
Proof. exact accurate_recorded. Qed.
Print Assumptions C115_accurate_evaluations_are_recorded.
Theorem C115_dropped_results : forall pc0 ok m P k, preach pc0 ok m P -> no_error m ->
  (In (PTooClose k) (p_log P) -> exists p noisy, In (PSubmit k p noisy SInit) (p_log P)) /\
  (In (PSuperseded k) (p_log P) -> exists p id, In (PSubmit k p true id) (p_log P)).
Proof.
  intros pc0 ok m P k H N. destruct (sep_reach pc0 ok m P H N) as (_ & D1 & D2).
  split; [exact (D1 k)|exact (D2 k)].
Qed.
Print Assumptions C115_dropped_results.
Example C115_case : preach (w_c3 30 3) any_pin PcDone (at_pst x_end) /\
  In (PSubmit 2 [4%Q] false SRefine) (p_log (at_pst x_end)) /\ outstanding PcDone (at_pst x_end) = [] /\
  In (PRow (Some 2%nat) [4%Q] 3%Q) (p_log (at_pst x_end)).
Proof. split; [preached|]. vm_compute. tauto. Qed.
