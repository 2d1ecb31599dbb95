(** * When exactly the optimizer restarts, refines and repairs: vocabulary of C147 (and of additions to C61, C69, C72). *)
From Verif Require Export SpecAlg SpecParallel ModelParallel.
Open Scope Z_scope.
(** The documented reasons for a restart, tested at the beginning of a cycle.  [w]: number of recent iterations over which
    discards are counted. *)
Definition many_discarded (c : cfg) (w : Z) (s : st) : Prop :=
  let d := discarded (C s) in
  w <= 2 * Z.of_nat (length d) /\
  (max_fraction_discarded c * inject_Z (Z.of_nat (length d)) <= inject_Z (Z.of_nat (count_true d)))%Q.
Definition stalled (c : cfg) (s : st) : Prop :=
  max_stalled_iterations c <= num_stalled_iter (C s) /\
  evalcount (C s) + 3 * (Z.of_nat (n c) + 1 + (num_global_searches c + 2)) < max_evaluations c /\
  cyclecount (C s) < max_cycles c - 1.
Definition restart_due (c : cfg) (w : Z) (s : st) : Prop :=
  current_step (C s) <= (if do_infstep c then 0 else 1) /\ (many_discarded c w s \/ stalled c s).
(** The step about to be made is disabled by the settings. *)
Definition disabled (c : cfg) (s : st) : Prop :=
  (current_step (C s) = 0 /\ do_infstep c = false) \/
  (current_step (C s) = num_global_searches c + 1 /\ do_local_search c = false).
(** The limit on consecutive refinements does not apply. *)
Definition limit_lifted (c : cfg) (s : st) (time_passed : bool) : Prop :=
  (inject_Z (max_iterations c) * thresh_unlimited_refinement c <= inject_Z (itercount (C s)))%Q \/
  (inject_Z (max_evaluations c) * thresh_unlimited_refinement c <= inject_Z (evalcount (C s)))%Q \/
  time_passed = true \/
  (inject_Z (max_stalled_iterations c) * thresh_unlimited_refinement_stalled c <= inject_Z (num_stalled_iter (C s)))%Q.
(** Attempt number [a] (from 0) of the restoration is made: it leaves out node [k - 1 - a] of the [k] nodes. *)
Definition attempted (c : cfg) (k : nat) (a : nat) : Prop :=
  Z.of_nat a < max_consecutive_restoration c /\
  (init_sample_fraction c * inject_Z (Z.of_nat (n c) + 1) < inject_Z (Z.of_nat k - 1 - Z.of_nat a))%Q.
(** No task is outstanding. *)
Definition nobody_working (P : pst) : Prop := pend (p_k P) = [] /\ srch (p_k P) = [].
Definition in_range_of (vals : list Q) (v : Q) : Prop :=
  (exists a, In a vals /\ (a <= v)%Q) /\ (exists b, In b vals /\ (v <= b)%Q).
(** The row of the table [ps] meant by "evaluate node [ind], at [p], again": row [ind] if it holds [p], otherwise the first
    row that does. *)
Definition holds_point (ps : list point) (j : nat) (p : point) : Prop :=
  (j < length ps)%nat /\ Forall2 Qeq (nth j ps []) p.
Definition row_meant (ps : list point) (ind : nat) (p : point) (j : nat) : Prop :=
  (j = ind /\ holds_point ps ind p) \/
  (~ holds_point ps ind p /\ holds_point ps j p /\ forall b, (b < j)%nat -> ~ holds_point ps b p).
Definition no_removal_in (es : list pev) : Prop := forall j, ~ In (PUnrow j) es.
