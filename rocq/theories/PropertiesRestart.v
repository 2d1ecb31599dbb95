(** * Properties: the outcomes of a restart (C86) *)
From Coq Require Import Lia Lqa.
From Verif Require Import RestartExact WitnessAlg BaseLemmas.
Open Scope Z_scope.

(** A restart in the course of a run, whose sample has at least two points, fails with IndexError exactly when the sample
    is to be evaluated noisily and each of its points was evaluated before (within eps_zero); otherwise it succeeds
    and the new model has one node for every sample point. *)
Theorem C86_exactly_when : forall c i s pts, 0 < itercount (C s) -> all_pos (T s) <> [] -> length (all_err (T s)) = length (all_pos (T s)) ->
  (fbest_index (I s) < length (all_err (T s)))%nat -> i_samples i = Some pts -> (2 <= length pts)%nat ->
  let sample_evaluated_noisily := noisy_mode (C s) = true /\ num_noisy_restarts (C s) + 1 <= max_noisy_restarts c /\
                          noisy_evalcount (C s) + Z.of_nat (n c) + 1 < max_noisy_evaluations c in
  let all_known := forall p, In p pts -> exists q, In q (all_pos (T s)) /\ (0 <= eps_zero c /\ sqdist p q <= eps_zero c * eps_zero c)%Q in
  (sample_evaluated_noisily /\ all_known -> restart c i s = Fail EIndex) /\
  (~ (sample_evaluated_noisily /\ all_known) -> exists s', restart c i s = Ok s' /\ length (node_pos (T s')) = length pts).
Proof.
  intros c i s pts H1 H2 H3 H4 H5 H6. cbv zeta.
  assert (K : (forall p, In p pts -> near (eps_zero c) p (all_pos (T s)) = true) <->
              forall p, In p pts -> exists q, In q (all_pos (T s)) /\ (0 <= eps_zero c /\ sqdist p q <= eps_zero c * eps_zero c)%Q).
  { split; intros H p Hp; [apply near_true|apply near_true]; auto. }
  destruct (restart_outcomes c i s pts H1 H2 H3 H4 H5 H6) as [(A & B & D)|(A & B)]; fold (noisily c s).
  - split; [intros _; exact D|]. intros X. exfalso. apply X. split; [exact A|]. apply K. exact B.
  - split; [|intros _; exact B]. intros (X & Y). exfalso. apply A. split; [exact X|]. apply K. exact Y.
Qed.
Print Assumptions C86_exactly_when.
(** A serial restart in accurate mode never fails this way. *)
Theorem C86_accurate_restart : forall c i s pts, 0 < itercount (C s) -> all_pos (T s) <> [] -> length (all_err (T s)) = length (all_pos (T s)) ->
  (fbest_index (I s) < length (all_err (T s)))%nat -> i_samples i = Some pts -> (2 <= length pts)%nat -> noisy_mode (C s) = false ->
  exists s', restart c i s = Ok s' /\ length (node_pos (T s')) = length pts.
Proof.
  intros c i s pts H1 H2 H3 H4 H5 H6 H7. apply (C86_exactly_when c i s pts H1 H2 H3 H4 H5 H6). intros ((X & _) & _). congruence.
Qed.
Print Assumptions C86_accurate_restart.
(** The state before the failing restart of [C86_noisy_restart_fails_refuted], with the known sample and with a new one. *)
Definition s_before : st := at_state (wcfg k_res) (call0 k_res dflt_inp (firstn 3 is_index)).
Example C86_exactly_case : let c := wcfg k_res in
  0 < itercount (C s_before) /\ all_pos (T s_before) <> [] /\ length (all_err (T s_before)) = length (all_pos (T s_before)) /\
  (fbest_index (I s_before) < length (all_err (T s_before)))%nat /\
  (2 <= match i_samples dflt_inp with Some pts => length pts | None => 0 end)%nat /\ noisy_mode (C s_before) = true /\
  restart c dflt_inp s_before = Fail EIndex /\
  match restart c (resample dflt_inp) s_before with Ok s' => length (node_pos (T s')) = 2%nat | Fail _ => False end.
Proof. vm_compute. repeat split; try discriminate; repeat constructor. Qed.
