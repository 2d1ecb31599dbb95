(** * Vocabulary for the statements about well-posed interpolation and least squares. *)
From Verif Require Export SpecRBF ModelLinear.
Open Scope R_scope.

(** The only polynomial of the degree of the basis function that vanishes at all nodes, among those
    with zero coefficient for the coordinates in [dropped], is 0. *)
Definition unisolvent (kind : rbf_kind) (n : nat) (dropped : list nat) (nodes : list rpoint) : Prop :=
  forall h, length h = size_P kind n -> (forall j, In j dropped -> nth j h 0 = 0) ->
    (forall x, In x nodes -> rdot (monomials (degree_polynomial kind) x) h = 0) -> h = zeros (size_P kind n).

(** The Gaussian needs a positive shape parameter; the others accept any. *)
Definition shape_ok (kind : rbf_kind) (gamma : R) : Prop := kind = Gaussian -> 0 < gamma.

(** A solver that also answers: whenever the matrix is square and only 0 is mapped to 0. *)
Definition complete_solver (solve : mat -> list R -> option (list R)) : Prop :=
  forall A b, length b = length A -> (forall r, In r A -> length r = length A) ->
    (forall x, length x = length A -> mat_vec A x = zeros (length A) -> x = zeros (length A)) ->
    exists x, solve A b = Some x.

(** Sum of squared errors of [A x = b]. *)
Definition sq_error (A : mat) (b x : list R) : R := rsum (map2 (fun u v => (u - v) * (u - v)) (mat_vec A x) b).
(** A vector of multipliers, not all 0, that combines the rows of [A] to 0. *)
Definition dependent_rows (A : mat) (c : nat) : Prop :=
  exists w, length w = length A /\ w <> zeros (length A) /\
    forall j, (j < c)%nat -> rdot w (map (fun r => nth j r 0) A) = 0.
(** What the theorems assume about [np.linalg.lstsq] on a matrix with [c] columns: an answer
    minimizes the error, and the rank is less than the number of rows iff they are dependent. *)
Definition correct_lstsq (lstsq : lstsq_fun) : Prop :=
  forall A b c x rank, (forall r, In r A -> length r = c) -> length b = length A -> A <> [] ->
    lstsq A b = Some (x, rank) ->
    length x = c /\ (forall y, length y = c -> sq_error A b x <= sq_error A b y) /\
    ((rank < length A)%nat <-> dependent_rows A c).

(** Linear functions: slope [h], constant [b]. *)
Definition affine (h : rpoint) (b : R) (x : rpoint) : R := rdot h x + b.
Definition agrees_on (pts : list (rpoint * R)) (h : rpoint) (b : R) : Prop :=
  forall x v, In (x, v) pts -> affine h b x = v.
(** The points and values a model is built from. *)
Definition model_data (nodes : list rpoint) (vals : list R) (set : list nat) : list (rpoint * R) :=
  map (fun i => (nth i nodes [], nth i vals 0)) set.
(** No linear function except 0 vanishes at all the points. *)
Definition determining (n : nat) (pts : list rpoint) : Prop :=
  forall h b, length h = n -> (forall x, In x pts -> affine h b x = 0) -> h = zeros n /\ b = 0.

(** [x] inside the bounds. *)
Definition inside (lo up x : rpoint) : Prop :=
  forall j, (j < length x)%nat -> nth j lo 0 <= nth j x 0 <= nth j up 0.
