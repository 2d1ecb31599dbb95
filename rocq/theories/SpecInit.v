(** * Specification vocabulary for initial sampling and utilities
    (C28, C41 - C48, C56, C85, C89). *)
From Verif Require Export ModelInit SpecCategorical.
Open Scope Q_scope.

(** [p] takes, in each coordinate, the lower or the upper bound. *)
Definition is_corner (lo up p : point) : Prop :=
  length p = length lo /\
  forall i, (i < length lo)%nat -> nth i p 0 = nth i lo 0 \/ nth i p 0 = nth i up 0.
(** No two members are the same point. *)
Definition pairwise_distinct (l : list point) : Prop :=
  forall i j, (i < j < length l)%nat -> ~ same_point (nth i l []) (nth j l []).
(** Bounds and integrality. *)
Definition integral (x : Q) : Prop := exists z : Z, x == inject_Z z.
Definition feasible (lo up : point) (ints : list nat) (p : point) : Prop :=
  length p = length lo /\
  (forall j, (j < length lo)%nat -> nth j lo 0 <= nth j p 0 <= nth j up 0) /\
  (forall j, In j ints -> integral (nth j p 0)).

(** [perm] is a permutation of 0 .. m-1. *)
Definition permutation_of (m : nat) (perm : list nat) : Prop :=
  length perm = m /\ NoDup perm /\ forall k, In k perm -> (k < m)%nat.
(** Draws of one Latin hypercube with [m] samples in dimension [n]. *)
Definition lhs_draws (m n : nat) (t : list (list nat) * list point) : Prop :=
  length (fst t) = n /\ (forall pm, In pm (fst t) -> permutation_of m pm) /\
  length (snd t) = m /\
  forall r, In r (snd t) -> length r = n /\ forall x, In x r -> 0 <= x < 1.
(** Draws of one pass of the initialization loop. *)
Definition good_attempt (m n : nat) (a : attempt) : Prop :=
  (forall d, In d (a_corners a) -> length d = n) /\
  a_trials a <> [] /\ (forall t, In t (a_trials a) -> lhs_draws m n t) /\
  (a_corr a < length (a_trials a))%nat.

(** [x] falls in the [k]-th of [m] equal parts of [0,1). *)
Definition in_part (m k : nat) (x : Q) : Prop :=
  inject_Z (Z.of_nat k) <= x * inject_Z (Z.of_nat m) < inject_Z (Z.of_nat k + 1).

(** Number of entries satisfying a test. *)
Definition count (f : Q -> bool) (l : list Q) : nat := length (filter f l).
(** [v] is the [i]-th smallest entry (counting from 0). *)
Definition ith_smallest (l : list Q) (i : nat) (v : Q) : Prop :=
  In v l /\ (i < count (fun x => Qle_bool x v) l)%nat /\ (length l - i <= count (Qle_bool v) l)%nat.

(** Number of points of the encoded space generated per pass, in the space actually sampled. *)
Definition sampled_dim (c : init_cfg) (s : setup) : nat :=
  if (is_lhd (i_strategy c) && match s_expansion s with [] => false | _ => true end)%bool
  then (length (s_cat s) + length (s_noncat s))%nat else s_dim s.
Definition requested (c : init_cfg) (s : setup) : nat :=
  Z.to_nat (num_init_samples (i_frac c) (i_incr c) (i_cpus c) (s_dim s)).
(** Bounds of the free variables in order; categorical bounds integral. *)
Definition ordered_bounds (eps : Q) (b : bbox) : Prop :=
  forall i, In i (free_vars eps b) -> lower b i <= upper b i.
Definition integral_categories (eps : Q) (b : bbox) : Prop :=
  forall i, In i (cat_vars eps b) -> integral (lower b i) /\ integral (upper b i).
(** The (rounded) search box of the encoded problem. *)
Definition box_lower (s : setup) : point := floor_at 0 (s_ints s) (s_lower s).
Definition box_upper (s : setup) : point := ceil_at 0 (s_ints s) (s_upper s).
