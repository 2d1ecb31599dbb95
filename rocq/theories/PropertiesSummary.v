(** * C152: the summary line. *)
From Verif Require Import BaseLemmas AlgRestart AlgInv AlgProv AlgGlue StopProofs ParTabs ParStop.
From Verif Require Import ModelSummary SummaryProofs.
From Verif Require Import WitnessAlg WitnessPar PropertiesPar.
From Coq Require Import Lia Lqa.
Open Scope Z_scope.

(** ** C152
    The line printed at the end of [optimize] against what [optimize] returns: [(v, p)] and the
    counters.  In general the value shown is at most [v], was really obtained, and mark and
    error bound are those of the returned record. *)
Theorem C152_shown : forall c ok s l v p, reach c ok s l -> result s = Some (v, p) ->
  exists f mark el eu j,
    summarize c s = Ok (mkSummary (itercount (C s)) (evalcount (C s)) (noisy_evalcount (C s)) (cyclecount (C s))
                                  mark (Some f) (Some (compute_gap c (f + eu)%Q))) /\
    (f <= v)%Q /\ (exists q, produced (trace s) q f) /\
    nth_error (all_val (T s)) j = Some v /\ nth_error (all_pos (T s)) j = Some p /\
    nth_error (all_is_noisy (T s)) j = Some mark /\ nth_error (all_err (T s)) j = Some (el, eu).
Proof.
  intros c ok s l v p HR Hr. destruct (sum_inv_reach c ok s l HR) as (HA & _ & HB & HF).
  destruct (summary_exists c s v p HA HB Hr) as (f & (el & eu) & m & Ef & Hf & Ee & Em & ES).
  exists f, m, el, eu, (argmin (all_val (T s))). split; [exact ES|]. split; [exact Hf|]. split; [auto|].
  apply result_spec in Hr. destruct Hr as (Hne & -> & ->). destruct (argmin_spec _ Hne) as (Hlt & _).
  apply aligned_lengths in HA.
  split; [apply nth_error_nth'; exact Hlt|]. split; [|auto].
  apply nth_error_nth'. unfold point in *. lia.
Qed.
Print Assumptions C152_shown.
(** Without noise the line shows what is returned, without mark, and its distance from the target. *)
Theorem C152_no_noise : forall c ok s l v p, has_noisy c = false -> (0 <= min_dist c)%Q -> reach c ok s l ->
  result s = Some (v, p) ->
  exists g, summarize c s = Ok (mkSummary (itercount (C s)) (evalcount (C s)) (noisy_evalcount (C s)) (cyclecount (C s))
                                          false (Some v) (Some g)) /\ (g == compute_gap c v)%Q.
Proof.
  intros c ok s l v p H1 H2 HR Hr. destruct (sum_inv_reach c ok s l HR) as (HA & _ & HB & _).
  destruct (summary_exists c s v p HA HB Hr) as (f & (el & eu) & m & Ef & _ & Ee & Em & ES).
  destruct (fresh_value c ok s l H1 H2 HR) as (v' & p' & Hr' & _ & Fb & _).
  rewrite Hr in Hr'. injection Hr' as <- <-. rewrite Ef in Fb. injection Fb as ->.
  assert (Hj : (argmin (all_val (T s)) < length (all_pos (T s)))%nat).
  { apply result_spec in Hr. destruct Hr as (Hne & _). destruct (argmin_spec _ Hne) as (Hlt & _).
    apply aligned_lengths in HA. unfold point in *. lia. }
  pose proof (single_phase_spec c ok s l _ H1 H2 HR Hj) as FL. pose proof (flags_spec c ok s l _ HR Hj FL) as FE.
  apply nth_error_nth with (d := true) in Em. rewrite FL in Em. subst m.
  apply nth_error_nth with (d := (1, 1)%Q) in Ee. rewrite FE in Ee. injection Ee as <- <-.
  eexists. split; [exact ES|]. cbn [snd]. apply gap_plus0.
Qed.
Print Assumptions C152_no_noise.
(** In two-phase mode the claim is false: this call shows the value 5, marked as noisy, and returns 6. *)
Theorem C152_two_phase_refuted : exists c i0 pa is s v p f g,
  call c i0 pa is (init_st c) = Done s /\ result s = Some (v, p) /\
  summarize c s = Ok (mkSummary (itercount (C s)) (evalcount (C s)) (noisy_evalcount (C s)) (cyclecount (C s)) true (Some f) g) /\
  (f < v)%Q /\ ~ In f (all_val (T s)).
Proof.
  set (r := call (wcfg k_two) dflt_inp (itercount (C (at_state (wcfg k_two) run_two))) (is_two ++ [dflt_inp]) (init_st (wcfg k_two))).
  exists (wcfg k_two), dflt_inp, (itercount (C (at_state (wcfg k_two) run_two))), (is_two ++ [dflt_inp]), (at_state (wcfg k_two) r), 6%Q, [10%Q], 5%Q.
  eexists.
  split; [vm_compute; reflexivity|]. split; [vm_compute; reflexivity|]. split; [vm_compute; reflexivity|].
  split; [reflexivity|]. vm_compute. intros H. repeat (destruct H as [H|H]; [discriminate|]). exact H.
Qed.
Print Assumptions C152_two_phase_refuted.
(** The same in parallel mode. *)
Theorem C152_parallel : forall pc0 ok P v p, let s := p_s P in
  preach pc0 ok PcDone P -> result s = Some (v, p) ->
  exists f mark el eu j,
    summarize (base pc0) s = Ok (mkSummary (itercount (C s)) (evalcount (C s)) (noisy_evalcount (C s)) (cyclecount (C s))
                                           mark (Some f) (Some (compute_gap (base pc0) (f + eu)%Q))) /\
    (f <= v)%Q /\ (has_noisy (base pc0) = false -> f = v /\ mark = false /\ eu = 0%Q) /\
    nth_error (all_val (T s)) j = Some v /\ nth_error (all_pos (T s)) j = Some p /\
    nth_error (all_is_noisy (T s)) j = Some mark /\ nth_error (all_err (T s)) j = Some (el, eu).
Proof.
  intros pc0 ok P v p s HR Hr. set (c := base pc0) in *.
  assert (N : no_error PcDone) by (intros e; discriminate).
  assert (NW : not_wait PcDone) by (intros k w; discriminate).
  pose proof (par_aligned pc0 ok _ _ HR N NW) as HA. fold c in HA.
  pose proof (par_below pc0 ok _ _ HR N NW) as HB. fold s in HA, HB.
  destruct (summary_exists c s v p HA HB Hr) as (f & (el & eu) & m & Ef & Hf & Ee & Em & ES).
  exists f, m, el, eu, (argmin (all_val (T s))). split; [exact ES|]. split; [exact Hf|]. split.
  { intros Hn. destruct (par_incumbents pc0 ok _ _ Hn HR N NW) as [_ _ ((F1 & F2 & F3) & FB) _ _].
    destruct (exact_reach pc0 ok _ _ Hn HR N) as ((EN & EX) & _). fold s in F1, F2, F3, FB, EN, EX.
    assert (f = v).
    { apply result_spec in Hr. destruct Hr as (Hne & -> & _). destruct (argmin_spec _ Hne) as (G1 & G2 & G3).
      rewrite FB in Ef. injection Ef as <-. set (j := fbest_index (I s)) in *.
      set (a := argmin (all_val (T s))) in *. destruct (lt_eq_lt_dec a j) as [[X|X]|X]; [|rewrite X; reflexivity|].
      - specialize (F3 a X). specialize (G2 j F1). lra.
      - specialize (G3 j X). specialize (F2 a G1). lra. }
    split; [assumption|]. rewrite Forall_forall in EN, EX.
    split; [apply EN; eapply nth_error_In; exact Em|].
    assert (X : (el, eu) = (0, 0)%Q) by (apply EX; eapply nth_error_In; exact Ee). congruence. }
  apply result_spec in Hr. destruct Hr as (Hne & -> & ->). destruct (argmin_spec _ Hne) as (Hlt & _).
  apply aligned_lengths in HA.
  split; [apply nth_error_nth'; exact Hlt|]. split; [|auto].
  apply nth_error_nth'. unfold point in *. lia.
Qed.
Print Assumptions C152_parallel.

Example C152_case : reach (wcfg kn0) any_inp s_ord l_ord /\ result s_ord = Some (1%Q, [6%Q]) /\
  has_noisy (wcfg kn0) = false /\ (0 <= min_dist (wcfg kn0))%Q.
Proof.
  split; [apply running_reach; vm_compute; reflexivity|]. split; [vm_compute; reflexivity|].
  split; [reflexivity|vm_compute; discriminate].
Qed.
Example C152_parallel_case : preach (w_c3 30 3) any_pin PcDone (at_pst x_end) /\
  exists v p, result (p_s (at_pst x_end)) = Some (v, p).
Proof.
  split; [apply C73_case|]. do 2 eexists. vm_compute. reflexivity.
Qed.
