(** * The phase of noisy evaluations, parallel optimizer: C145.
    Every theorem quantifies over all schedules of the workers and all answers of the environment (see [PropertiesPar]). *)
From Verif Require Import ParNoisy.
From Verif Require Import PropertiesPar WitnessPar.
From Coq Require Import Lia.
Open Scope Z_scope.

(** ** C145: number of noisy evaluations *)
(** [S] bounds the number of points of an initial sample.  Over all calls together and for every schedule, the number of
    noisy evaluations submitted exceeds the limit by at most what a sample can add and what can be in flight. *)
Theorem C145_parallel_noisy_budget : forall pc0 (ok : pin -> Prop) S m P, has_noisy (base pc0) = true ->
  (forall q, ok q -> samples_upto S q) -> preach pc0 ok m P -> no_error m ->
  let M := max_noisy_evaluations (base pc0) in
  noisy_submissions (p_log P) <= Z.max 0 (Z.max (M - 1) (M + Z.of_nat S - Z.of_nat (n (base pc0)) - 2)) +
                                 Z.max (num_cpus (base pc0)) (Z.of_nat S + 1).
Proof.
  intros pc0 ok S m P Hn HS HR N M. destruct (C73_counters _ _ _ _ HR N) as (_ & X). rewrite <- X.
  pose proof (noisy_total pc0 ok S m P Hn HS HR N) as Y. unfold nev, noisy_slack in Y. lia.
Qed.
Print Assumptions C145_parallel_noisy_budget.
(** With samples of at most n+1 points and at least n+2 CPUs: less than the limit plus the number of CPUs. *)
Corollary C145_overshoot_is_in_flight : forall pc0 (ok : pin -> Prop) m P, has_noisy (base pc0) = true ->
  1 <= max_noisy_evaluations (base pc0) -> Z.of_nat (n (base pc0)) + 2 <= num_cpus (base pc0) ->
  (forall q, ok q -> samples_upto (n (base pc0) + 1) q) -> preach pc0 ok m P -> no_error m ->
  noisy_submissions (p_log P) < max_noisy_evaluations (base pc0) + num_cpus (base pc0).
Proof.
  intros pc0 ok m P Hn HM HC HS HR N.
  pose proof (C145_parallel_noisy_budget pc0 ok _ m P Hn HS HR N) as X. cbv zeta in X. lia.
Qed.
Print Assumptions C145_overshoot_is_in_flight.

Definition k_noisy3 : knobs :=
  mkKnobs false true [] [0%Q] [10%Q] 30 40 (1#1000000) (1#1000) (-100) [] [] 2 20 0 false true 4 20 100 true.
Definition c_noisy3 : pcfg := pw k_noisy3 3 (1#2) 1000 true.
Definition x_noisy3 : pc * pst := pcall c_noisy3 two_points 1000 w_three.
Definition y_noisy3 : pc * pst := pcall c_noisy3 two_points 1000 (w_three ++ [go; go; ev 0 7]).
Example C145_case : has_noisy (base c_noisy3) = true /\ max_noisy_evaluations (base c_noisy3) = 4 /\
  num_cpus (base c_noisy3) = 3 /\ n (base c_noisy3) = 1%nat /\ preach c_noisy3 (samples_upto 2) PcSearches (at_pst x_noisy3) /\
  noisy_submissions (p_log (at_pst x_noisy3)) = 5.
Proof.
  split; [reflexivity|]. split; [reflexivity|]. split; [reflexivity|]. split; [reflexivity|]. split; [|vm_compute; reflexivity].
  apply (reach_pcall c_noisy3 (samples_upto 2) two_points 1000 w_three); [apply upto_two; reflexivity| |vm_compute; reflexivity].
  repeat (constructor; [apply upto_two; reflexivity|]). constructor.
Qed.
(** The limit itself is exceeded: 5 noisy evaluations with limit 4, although the sample has n+1 points only. *)
Theorem C145_strict_refuted : exists pc0 m P, preach pc0 (samples_upto (n (base pc0) + 1)) m P /\ no_error m /\
  has_noisy (base pc0) = true /\ max_noisy_evaluations (base pc0) = 4 /\ noisy_submissions (p_log P) = 5.
Proof.
  exists c_noisy3, PcSearches, (at_pst x_noisy3). destruct C145_case as (A & B & _ & _ & D & E).
  split; [exact D|]. split; [intros e; discriminate|]. auto.
Qed.
Print Assumptions C145_strict_refuted.

(** ** C145: end of the phase *)
(** A result that is neither dropped as too close nor as superseded ends an iteration; after it the optimizer is in the
    noisy phase iff it was before and no limit is reached.  A dropped result does not change the phase. *)
Theorem C145_phase_ends : forall pc0 q b P P', has_noisy (base pc0) = true ->
  pstep pc0 q (PcEvals b) P = (PcEvals b, P') ->
  let c := base pc0 in let s := p_s P in let s' := p_s P' in
  (itercount (C s') = itercount (C s) /\ noisy_mode (C s') = noisy_mode (C s)) \/
  (itercount (C s') = itercount (C s) + 1 /\
   (noisy_mode (C s') = true <-> noisy_mode (C s) = true /\
      ~ (max_noisy_restarts c < num_noisy_restarts (C s') \/ max_noisy_iterations c <= itercount (C s') \/
         max_noisy_evaluations c <= noisy_evalcount (C s')))).
Proof.
  intros pc0 q b P P' Hn H c s s'.
  destruct (eval_ok _ _ _ _ _ _ H ltac:(discriminate) eq_refl) as [->|(j & E)]; [left; auto|].
  exact (take_eval_mode c q j P P' Hn E).
Qed.
Print Assumptions C145_phase_ends.
(** Limit 4: 5 evaluations are in flight or answered; the first recorded one ends the phase, the other two noisy results are
    still awaited. *)
Example C145_phase_case : let P := at_pst y_noisy3 in
  pstep c_noisy3 (ev 0 7) (PcEvals 0) (at_pst (pcall c_noisy3 two_points 1000 (w_three ++ [go; go]))) = (PcEvals 0, P) /\
  noisy_mode (C (p_s (at_pst x_noisy3))) = true /\ noisy_mode (C (p_s P)) = false /\
  length (pend (p_k P)) = 2%nat /\ Forall (fun t => t_noisy t = true) (pend (p_k P)).
Proof.
  cbv zeta. split; [vm_compute; reflexivity|]. split; [vm_compute; reflexivity|]. split; [vm_compute; reflexivity|].
  split; [vm_compute; reflexivity|]. vm_compute. repeat constructor.
Qed.

(** ** C145: after the phase *)
(** From a state in the accurate phase on, through any further steps and calls, the phase stays accurate, and at most one
    noisy evaluation per noisy search that was still running is submitted. *)
Theorem C145_after_phase : forall pc0 (ok : pin -> Prop) m P m' P', preach pc0 ok m P -> no_error m ->
  later pc0 ok m P m' P' -> no_error m' -> noisy_mode (C (p_s P)) = false ->
  noisy_mode (C (p_s P')) = false /\
  noisy_submissions (p_log P') <= noisy_submissions (p_log P) + Z.of_nat (length (filter s_noisy (srch (p_k P)))).
Proof.
  intros pc0 ok m P m' P' HR N HL N' M. destruct (later_off pc0 ok m P m' P' HR HL N' M) as (A & B).
  split; [exact A|]. destruct (C73_counters _ _ _ _ HR N) as (_ & X).
  destruct (C73_counters _ _ _ _ (later_reach _ _ _ _ _ _ HR HL) N') as (_ & X'). rewrite <- X, <- X'.
  pose proof (noisy_srch_nonneg (p_k P')). unfold nev, noisy_srch in *. lia.
Qed.
Print Assumptions C145_after_phase.
(** One noisy search is still running when the phase ends; it leads to one more noisy evaluation. *)
Definition w_off : list pin := w_p3 ++ [found 0 [4%Q]; found 0 [6%Q]; go; go; ev 0 7].
Definition w_more : list pin := [go; go; go; found 0 [8%Q]].
Definition x_off : pc * pst := pcall c_noisy3 two_points 1000 w_off.
Definition y_off : pc * pst := prun c_noisy3 w_more (at_pc x_off) (at_pst x_off).
Lemma later_prun pc0 (ok : pin -> Prop) m0 P0 : forall qs m P m' P', Forall ok qs -> later pc0 ok m0 P0 m P ->
  prun pc0 qs m P = (m', P') -> later pc0 ok m0 P0 m' P'.
Proof.
  induction qs as [|q r IH]; intros m P m' P' HF HL H; cbn in H; [injection H as <- <-; exact HL|].
  inversion HF; subst. destruct (pstep pc0 q m P) as [m1 P1] eqn:E.
  eapply IH; [eassumption| |exact H]. eapply lt_step; eauto.
Qed.
Example C145_after_case : preach c_noisy3 any_pin (PcEvals 0) (at_pst x_off) /\
  later c_noisy3 any_pin (PcEvals 0) (at_pst x_off) PcSearches (at_pst y_off) /\
  noisy_mode (C (p_s (at_pst x_off))) = false /\ length (filter s_noisy (srch (p_k (at_pst x_off)))) = 1%nat /\
  noisy_submissions (p_log (at_pst x_off)) = 4 /\ noisy_submissions (p_log (at_pst y_off)) = 5.
Proof.
  split; [apply reached; vm_compute; reflexivity|]. split.
  - apply (later_prun c_noisy3 any_pin _ _ w_more (PcEvals 0) (at_pst x_off)); [apply any_pins|apply lt_same|vm_compute; reflexivity].
  - split; [vm_compute; reflexivity|]. split; [vm_compute; reflexivity|]. split; vm_compute; reflexivity.
Qed.
