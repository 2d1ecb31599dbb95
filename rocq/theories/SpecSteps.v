(** * Vocabulary for the statements about the global and local search steps. *)
From Verif Require Export ModelSteps SpecRefine.
Open Scope R_scope.

(** Numbers that lie within the error interval of each value. *)
Definition within_errors (vals : list R) (errs : list (R * R)) (fitted : list R) : Prop :=
  length fitted = length vals /\
  forall i, (i < length vals)%nat ->
    nth i vals 0 + fst (nth i errs (0, 0)) <= nth i fitted 0 <= nth i vals 0 + snd (nth i errs (0, 0)).

(** [b] is the bumpiness (quadratic form of the weights) of some model interpolating values allowed
    by the error intervals. *)
Definition bumpiness_of_fit (kind : rbf_kind) (gamma : R) (n : nat) (nodes : list rpoint) (vals : list R)
    (errs : list (R * R)) (b : R) : Prop :=
  exists fitted lam h, within_errors vals errs fitted /\ interpolates kind gamma n nodes fitted lam h /\
    b = rdot lam (mat_vec (Phi_matrix (rbf_function kind gamma) nodes) lam).

(** The fitting procedures used by the step return bumpinesses of models that fit, whenever there
    is such a model. *)
Definition correct_fit (kind : rbf_kind) (gamma : R) (n : nat) (nodes : list rpoint)
    (bump : list R -> list (R * R) -> R) (new_bump : rpoint -> R -> list R -> list (R * R) -> R) : Prop :=
  (forall vals errs, (exists b, bumpiness_of_fit kind gamma n nodes vals errs b) ->
     bumpiness_of_fit kind gamma n nodes vals errs (bump vals errs)) /\
  (forall p target vals errs,
     (exists b, bumpiness_of_fit kind gamma n (nodes ++ [p]) (vals ++ [target]) (errs ++ [(0, 0)]) b) ->
     bumpiness_of_fit kind gamma n (nodes ++ [p]) (vals ++ [target]) (errs ++ [(0, 0)]) (new_bump p target vals errs)).

(** Node [i] could take the value [target]: its error interval has positive width and contains it. *)
Definition can_take (eps_zero target : R) (vals : list R) (errs : list (R * R)) (i : nat) : Prop :=
  (i < length vals)%nat /\ eps_zero < snd (nth i errs (0, 0)) - fst (nth i errs (0, 0)) /\
  nth i vals 0 + fst (nth i errs (0, 0)) <= target <= nth i vals 0 + snd (nth i errs (0, 0)).

(** [i] is the first of the nodes nearest to [p]. *)
Definition nearest_node (p : rpoint) (nodes : list rpoint) (i : nat) : Prop :=
  (i < length nodes)%nat /\
  (forall j, (j < length nodes)%nat -> distance p (nth i nodes []) <= distance p (nth j nodes [])) /\
  (forall j, (j < i)%nat -> distance p (nth i nodes []) < distance p (nth j nodes [])).
