(** * Vocabulary for the statements about radial basis function models. *)
From Verif Require Export ModelRBF.
Open Scope R_scope.

(** What the theorems assume about a linear solver: an answer, when there is one, is a solution. *)
Definition correct_solver (solve : mat -> list R -> option (list R)) : Prop :=
  forall A b x, solve A b = Some x -> length x = length b /\ mat_vec A x = b.

(** All points have [n] coordinates. *)
Definition in_dimension (n : nat) (pts : list rpoint) : Prop := forall x, In x pts -> length x = n.

(** Basis of the polynomial part at [x]: coordinates and 1 (degree 1), 1 (degree 0), nothing. *)
Definition monomials (degree : Z) (x : rpoint) : list R :=
  if (degree =? 1)%Z then x ++ [1] else if (degree =? 0)%Z then [1] else [].

(** The model as a function: weighted radial part plus polynomial part. *)
Definition model_at (kind : rbf_kind) (gamma : R) (nodes : list rpoint) (lam h : list R) (x : rpoint) : R :=
  rdot (map (fun y => rbf_function kind gamma (distance x y)) nodes) lam +
  rdot (monomials (degree_polynomial kind) x) h.

(** Exactly one of the coordinates in [block] is 1, the others are 0. *)
Definition one_active (block : list nat) (x : rpoint) : Prop :=
  exists b, In b block /\ nth b x 0 = 1 /\ forall c, In c block -> c <> b -> nth c x 0 = 0.

(** Layout of the expanded categorical variables: nonempty disjoint blocks of coordinates. *)
Definition proper_blocks (n : nat) (blocks : list (list nat)) : Prop :=
  (forall b, In b blocks -> b <> [] /\ NoDup b /\ forall j, In j b -> (j < n)%nat) /\
  (forall i j, (i < length blocks)%nat -> (j < length blocks)%nat -> i <> j ->
     forall x, In x (nth i blocks []) -> ~ In x (nth j blocks [])).

(** The model with weights [lam] and polynomial coefficients [h] takes the given values at the
    nodes and satisfies the side conditions of conditionally definite interpolation. *)
Definition interpolates (kind : rbf_kind) (gamma : R) (n : nat) (nodes : list rpoint) (vals lam h : list R) : Prop :=
  length lam = length nodes /\ length h = size_P kind n /\
  (forall j, (j < length nodes)%nat -> model_at kind gamma nodes lam h (nth j nodes []) = nth j vals 0) /\
  (forall j, (j < size_P kind n)%nat ->
     rdot (map (fun x => nth j (monomials (degree_polynomial kind) x) 0) nodes) lam = 0).

(** No nonzero number of the interpolation system is smaller than [eps] in magnitude. *)
Definition no_tiny (kind : rbf_kind) (gamma eps : R) (nodes : list rpoint) : Prop :=
  eps <= 1 /\
  (forall x y, In x nodes -> In y nodes ->
     let a := rbf_function kind gamma (distance x y) in a = 0 \/ eps <= Rabs a) /\
  (degree_polynomial kind = 1%Z -> forall x c, In x nodes -> In c x -> c = 0 \/ eps <= Rabs c).

(** The seven candidates of the model selection, in order of trial. *)
Definition candidates : list (rbf_kind * R) :=
  [(Cubic, 1/10); (ThinPlate, 1/10); (Multiquadric, 1/10); (Multiquadric, 1);
   (Linear, 1/10); (Gaussian, 1/1000); (Gaussian, 1/100)].
