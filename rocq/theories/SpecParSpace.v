(** * Specification vocabulary for finite search spaces in parallel mode (C157). *)
From Verif Require Export SpecSpace SpecParallel.
Open Scope Q_scope.

(** The environment of a parallel run: sound inputs, no starting sample contains a point twice, and no starting
    sample contains a point of [starts] (the starting points of the user). *)
Definition distinct_pins (eps : Q) (b : bbox) (starts : list point) (q : pin) : Prop :=
  sound_pins eps b q /\
  forall pts, i_samples (q_inp q) = Some pts ->
    pairwise_distinct pts /\ forall p y, In p pts -> In y starts -> ~ SpecCategorical.same_point p y.
(** The points sent to the workers for evaluation, in the order of sending. *)
Definition sent (log : list pev) : list point :=
  flat_map (fun e => match e with PSubmit _ p _ _ => [p] | _ => [] end) log.
