(** Vocabulary for the benchmark properties: the search space a function
    class declares, and what it means for its declared optimum to be right.
    Only the class record and [evaluate] of [ModelBench] are used. *)
From Coq Require Import List String ZArith QArith Reals Qreals.
From Verif Require Import ModelBench.
Import ListNotations.
Open Scope R_scope.

(** [p] is a point of the declared search space of [b]: right length, within
    the bounds, whole numbers for integer and categorical variables. *)
Definition in_space (b : bench) (p : list R) : Prop :=
  List.length p = b_dim b /\
  forall i, (i < b_dim b)%nat ->
    Q2R (nth i (b_lo b) 0%Q) <= nth i p 0 <= Q2R (nth i (b_up b) 0%Q) /\
    (nth i (b_type b) TR <> TR -> exists k : Z, nth i p 0 = IZR k).

(** The declared optimum point as a point of real numbers. *)
Definition optimum_point (b : bench) : list R := map Q2R (b_opt b).
Definition optimum_value (b : bench) : R := Q2R (b_val b).

(** [v] is the global minimum of [b]: no point of the space is lower, and
    some point of the space has that value. *)
Definition is_minimum (b : bench) (v : R) : Prop :=
  (forall p, in_space b p -> exists y, evaluate b p = Some y /\ v <= y) /\
  (exists p, in_space b p /\ evaluate b p = Some v).

(** No point of the space has a value below [v]. *)
Definition never_below (b : bench) (v : R) : Prop :=
  forall p, in_space b p -> exists y, evaluate b p = Some y /\ v <= y.

(** The declarations of [b] are consistent: one lower bound, one upper bound
    and one type per variable, every interval non-degenerate, whole bounds for
    integer and categorical variables, and the declared optimum point in the
    space. *)
Definition well_declared (b : bench) : Prop :=
  List.length (b_lo b) = b_dim b /\ List.length (b_up b) = b_dim b /\
  List.length (b_type b) = b_dim b /\
  (forall i, (i < b_dim b)%nat ->
     Q2R (nth i (b_lo b) 0%Q) < Q2R (nth i (b_up b) 0%Q) /\
     (nth i (b_type b) TR <> TR -> exists l u : Z,
        Q2R (nth i (b_lo b) 0%Q) = IZR l /\ Q2R (nth i (b_up b) 0%Q) = IZR u)) /\
  in_space b (optimum_point b).

(** The declared optimum is beaten by at least [m]: some point of the space
    has a value at most the declared optimum value minus [m]. *)
Definition beaten_by (b : bench) (m : R) : Prop :=
  exists p y, in_space b p /\ evaluate b p = Some y /\ y <= optimum_value b - m.
