(** * Vocabulary for the statements about the auxiliary objectives. *)
From Verif Require Export ModelAux SpecRBF.
Open Scope R_scope.

(** [x] is at least as far as [y] from its nearest node / strictly farther. *)
Definition as_far (nodes : list rpoint) (x y : rpoint) : Prop :=
  forall a, In a nodes -> exists b, In b nodes /\ distance y b <= distance x a.
Definition farther (nodes : list rpoint) (x y : rpoint) : Prop :=
  exists b, In b nodes /\ forall a, In a nodes -> distance y b < distance x a.

(** Order of scores; [None] is infinity. *)
Definition score_le (a b : option R) : Prop :=
  match a, b with _, None => True | None, Some _ => False | Some x, Some y => x <= y end.
Definition score_lt (a b : option R) : Prop :=
  match a, b with None, _ => False | Some _, None => True | Some x, Some y => x < y end.

(** [M] undoes the square matrix [A]. *)
Definition undoes (M A : mat) : Prop :=
  length M = length A /\ (forall r, In r M -> length r = length A) /\
  forall w, length w = length A -> mat_vec M (mat_vec A w) = w.

(** [m] is the weight of the node [x] in the model that is 1 at [x] and 0 at all nodes
    (Gutmann 2001: [mu(x) = (-1)^(degree+1) * m]). *)
Definition cardinal_weight (kind : rbf_kind) (gamma : R) (n : nat) (nodes : list rpoint) (x : rpoint) (m : R) : Prop :=
  exists lam h, interpolates kind gamma n (nodes ++ [x]) (zeros (length nodes) ++ [1]) (lam ++ [m]) h.
Definition gutmann_mu (kind : rbf_kind) (m : R) : R :=
  match degree_polynomial kind with 1%Z => m | 0%Z => - m | _ => m end.

(** What the theorems assume about [np.linalg.inv]: a result, when there is one, undoes the matrix. *)
Definition correct_inverse (inv : mat -> option mat) : Prop := forall A M, inv A = Some M -> undoes M A.

(** All nonzero entries of the matrix are at least [eps] in magnitude. *)
Definition entries_not_tiny (eps : R) (M : mat) : Prop :=
  forall r a, In r M -> In a r -> a = 0 \/ eps <= Rabs a.
