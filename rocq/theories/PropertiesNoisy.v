(** * The phase of noisy evaluations, serial optimizer: C12 (end of the phase), C132. *)
From Verif Require Import AlgPhase WitnessAlg.
From Coq Require Import Lia.
Open Scope Z_scope.

(** ** C12 *)
(** [noisy_phase_over c s] says: more than [max_noisy_restarts] restarts, at least [max_noisy_iterations] iterations or at
    least [max_noisy_evaluations] noisy evaluations were made.  After each iteration the optimizer is in the noisy phase iff
    it was before and no limit is reached; passes that are not iterations do not change the phase. *)
Theorem C12_phase_ends : forall c i s l s' l', has_noisy c = true -> pass c i s l = Cont s' l' ->
  (itercount (C s') = itercount (C s) /\ noisy_mode (C s') = noisy_mode (C s)) \/
  (itercount (C s') = itercount (C s) + 1 /\
   (noisy_mode (C s') = true <-> noisy_mode (C s) = true /\
     ~ (max_noisy_restarts c < num_noisy_restarts (C s') \/ max_noisy_iterations c <= itercount (C s') \/
        max_noisy_evaluations c <= noisy_evalcount (C s')))).
Proof.
  intros c i s l s' l' Hn H. destruct (pass_phase _ _ _ _ _ _ H) as [(A & B)|(s2 & (A & B) & D)]; [auto|right].
  split; [rewrite (end_iter _ _ _ D), B; reflexivity|]. rewrite <- A. exact (end_phase _ _ _ D Hn).
Qed.
Print Assumptions C12_phase_ends.
(** In a run with limit 4 on noisy evaluations: after the first pass (3 noisy evaluations) the phase goes on, after the
    second (4) it is over. *)
Example C12_phase_case : let at_ k := at_state (wcfg k_two) (call0 k_two dflt_inp (firstn k is_two)) in
  has_noisy (wcfg k_two) = true /\ max_noisy_evaluations (wcfg k_two) = 4 /\
  (exists l', pass (wcfg k_two) (nth 1 is_two dflt_inp) (at_ 1%nat) (at_loc (call0 k_two dflt_inp (firstn 1 is_two))) = Cont (at_ 2%nat) l') /\
  noisy_mode (C (at_ 1%nat)) = true /\ noisy_evalcount (C (at_ 1%nat)) = 3 /\
  noisy_mode (C (at_ 2%nat)) = false /\ noisy_evalcount (C (at_ 2%nat)) = 4.
Proof. cbv zeta. split; [reflexivity|]. split; [reflexivity|]. split; [eexists; vm_compute; reflexivity|]. vm_compute. auto. Qed.

(** ** C132 *)
(** [S] bounds the number of points of an initial sample.  Over all calls together, the number of noisy evaluations is at
    most [max_noisy_evaluations], or exceeds it by at most [S - n - 1]. *)
Theorem C132_noisy_budget : forall c (ok : inp -> Prop) S s l, has_noisy c = true -> 0 <= S ->
  (forall i pts, ok i -> i_samples i = Some pts -> Z.of_nat (length pts) <= S) -> reach c ok s l ->
  let M := max_noisy_evaluations c in
  noisy_calls (trace s) <= Z.max 1 (Z.max M (M + S - Z.of_nat (n c) - 1)).
Proof.
  intros c ok S s l Hn HS HB HR M.
  assert (HB' : forall i, ok i -> sample_bound c S i).
  { intros i Hi. unfold sample_bound. destruct (i_samples i) as [pts|] eqn:E; [exact (HB i pts Hi E)|exact Logic.I]. }
  destruct (noisy_ok_reach c ok S s l Hn HS HB' HR) as (A & _). rewrite noisy_calls_eq.
  destruct (counted_reach _ _ _ _ HR) as (_ & CR). rewrite <- CR. exact A.
Qed.
Print Assumptions C132_noisy_budget.
(** With at most n+1 sample points the limit is never exceeded. *)
Corollary C132_within_limit : forall c (ok : inp -> Prop) s l, has_noisy c = true -> 1 <= max_noisy_evaluations c ->
  (forall i pts, ok i -> i_samples i = Some pts -> (length pts <= n c + 1)%nat) -> reach c ok s l ->
  noisy_calls (trace s) <= max_noisy_evaluations c.
Proof.
  intros c ok s l Hn HM HB HR. pose proof (C132_noisy_budget c ok (Z.of_nat (n c) + 1) s l Hn) as X. cbv zeta in X.
  assert (Y : 0 <= Z.of_nat (n c) + 1) by lia. specialize (X Y).
  assert (Z1 : forall i pts, ok i -> i_samples i = Some pts -> Z.of_nat (length pts) <= Z.of_nat (n c) + 1).
  { intros i pts Hi E. specialize (HB i pts Hi E). lia. }
  specialize (X Z1 HR). lia.
Qed.
Print Assumptions C132_within_limit.
Example C132_case : let s := at_state (wcfg k_two) run_two in
  reach (wcfg k_two) (fun i => forall pts, i_samples i = Some pts -> (length pts <= 2)%nat) s (at_loc run_two) /\
  noisy_calls (trace s) = 4 /\ max_noisy_evaluations (wcfg k_two) = 4 /\ n (wcfg k_two) = 1%nat.
Proof.
  split; [|vm_compute; auto]. apply running_reach_ok; [|  |vm_compute; reflexivity].
  - cbn. intros pts H. injection H as <-. cbn. lia.
  - repeat (constructor; [cbn; intros pts H; injection H as <-; cbn; lia|]). constructor.
Qed.
(** A larger sample exceeds the limit already at the start: 6 noisy evaluations with limit 4. *)
Definition i_six : inp := with_samples (Some [[0%Q]; [10%Q]; [2%Q]; [4%Q]; [6%Q]; [8%Q]]) (i_rs_acc dflt_inp) dflt_inp.
Theorem C132_large_sample_refuted : exists c s l, reach c any_inp s l /\ has_noisy c = true /\
  max_noisy_evaluations c = 4 /\ noisy_calls (trace s) = 6.
Proof.
  exists (wcfg k_two), (at_state (wcfg k_two) (call0 k_two i_six [])), (at_loc (call0 k_two i_six [])).
  split; [apply running_reach; vm_compute; reflexivity|]. vm_compute. auto.
Qed.
Print Assumptions C132_large_sample_refuted.
(** The limit on restarts in the noisy phase does not end the phase when the linear algebra keeps failing: 6 restarts with
    limit 2, still in the noisy phase. *)
Definition fails_at (a b : Q) : inp := with_samples (Some [[a]; [b]]) (i_rs_acc dflt_inp) (with_lin false dflt_inp).
Definition is_fail : list inp :=
  [fails_at 1 9; fails_at 1 9; fails_at 2 8; fails_at 2 8; fails_at 3 7; fails_at 3 7; fails_at 4 6; fails_at 4 6; fails_at 5 1; fails_at 5 (1#2)].
Theorem C132_restart_limit_refuted : exists c s l, reach c any_inp s l /\ has_noisy c = true /\
  max_noisy_restarts c = 2 /\ num_noisy_restarts (C s) = 6 /\ noisy_mode (C s) = true.
Proof.
  exists (wcfg k_two), (at_state (wcfg k_two) (call0 k_two dflt_inp is_fail)), (at_loc (call0 k_two dflt_inp is_fail)).
  split; [apply running_reach; vm_compute; reflexivity|]. vm_compute. auto.
Qed.
Print Assumptions C132_restart_limit_refuted.
