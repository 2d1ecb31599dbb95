(** * Vocabulary of C154: when refinement phases of a serial run begin, go on and end. *)
From Verif Require Export ModelAlg.
Open Scope Z_scope.

(** The limits on refinement are lifted: a given share of the budget of iterations or evaluations is
    used up, or of the time, or of the number of iterations without improvement. *)
Definition lifted (c : cfg) (iterations evaluations : Z) (time_used_up : bool) (stalled : Z) : Prop :=
  (inject_Z (max_iterations c) * thresh_unlimited_refinement c <= inject_Z iterations)%Q \/
  (inject_Z (max_evaluations c) * thresh_unlimited_refinement c <= inject_Z evaluations)%Q \/
  time_used_up = true \/
  (inject_Z (max_stalled_iterations c) * thresh_unlimited_refinement_stalled c <= inject_Z stalled)%Q.

(** Last search step of a cycle: the local search, or the last global search when local searches are
    switched off. *)
Definition last_of_cycle (c : cfg) (z : Z) : Prop :=
  z = (if do_local_search c then num_global_searches c + 1 else num_global_searches c).

(** Iterations since the last refinement: at least [refinement_frequency] times the number of
    search steps of a cycle. *)
Definition due (c : cfg) (s : st) : Prop :=
  refinement_frequency c * (num_global_searches c + (if do_infstep c then 1 else 0))
    <= itercount (C s) - iter_last_refine (Rf s).

(** The pass counted an iteration whose point was evaluated, not discarded. *)
Definition accepted (s s' : st) : Prop :=
  itercount (C s') = itercount (C s) + 1 /\ exists w, discarded (C s') = (w ++ [false])%list.

(** Refinement steps executed since the last step of another kind. *)
Definition streak (c : cfg) (es : list event) : Z :=
  fold_left (fun k e => match e with
                        | EvStep z => if z =? num_global_searches c + 2 then k + 1 else 0
                        | _ => k
                        end) es 0.
