(** * Specification vocabulary for finite search spaces (C134). *)
From Verif Require Export SpecProblem.

(** No free variable is real. *)
Definition all_discrete (eps : Q) (b : bbox) : Prop := forall i, In i (free_vars eps b) -> vtype_of b i <> VReal.
(** The number of allowed choices of the free variables, all of them integers, is [z]. *)
Definition number_of_points (eps : Q) (b : bbox) (z : Z) : Prop :=
  exists L : list (list Z), NoDup L /\ Z.of_nat (List.length L) = z /\
    forall v, In v L <-> declared_free eps b (map inject_Z v).
(** The environment of a run: sound inputs, and no starting sample contains a point twice. *)
Definition distinct_inputs (eps : Q) (b : bbox) (i : inp) : Prop :=
  sound_inputs eps b i /\ forall pts, i_samples i = Some pts -> pairwise_distinct pts.
(** A value is given with every point of the user. *)
Definition valued_points (eps : Q) (b : bbox) (u : user_data) : Prop :=
  forall ps, u_pos u = Some ps -> ps <> [] /\ u_val u <> None /\ forall x, In x ps -> declared_free eps b x.
