(** * Vocabulary for the statements about the estimate of the quality of a model. *)
From Verif Require Export SpecLinear ModelQuality.
From Coq Require Import Sorting.Permutation.
Open Scope R_scope.

(** [perm] lists the positions of [vals] by increasing value. *)
Definition by_value (perm : list nat) (vals : list R) : Prop :=
  Permutation (seq 0 (length vals)) perm /\
  forall i j, (i <= j)%nat -> (j < length perm)%nat -> nth (nth i perm 0%nat) vals 0 <= nth (nth j perm 0%nat) vals 0.

(** How many of the values are smaller than [v]: the rank [v] would have among them. *)
Definition below (v : R) (vals : list R) : nat := length (filter (fun x => Rltb x v) vals).

(** What the theorems assume about a factorization: it gives exact solutions, ... *)
Definition exact_factor (factor : mat -> option (list R -> list R)) : Prop :=
  forall A s, factor A = Some s -> forall b, length b = length A -> length (s b) = length A /\ mat_vec A (s b) = b.
(** ... it succeeds on nonsingular square matrices, ... *)
Definition complete_factor (factor : mat -> option (list R -> list R)) : Prop :=
  forall A, (forall r, In r A -> length r = length A) ->
    (forall x, length x = length A -> mat_vec A x = zeros (length A) -> x = zeros (length A)) ->
    exists s, factor A = Some s.
(** ... and a matrix that maps a nonzero vector to 0 is reported as singular. *)
Definition singular (A : mat) : Prop :=
  exists z, length z = length A /\ z <> zeros (length A) /\ mat_vec A z = zeros (length A).
Definition reports_singular {B} (factor : mat -> option B) : Prop := forall A, singular A -> factor A = None.

(** The prediction for node [i] from the other nodes; a node whose weight in the model of all
    nodes is at most [eps] in magnitude counts as predicted exactly. *)
Definition predicted_from_others (kind : rbf_kind) (gamma eps : R) (n : nat) (nodes : list rpoint) (vals : list R)
    (i : nat) (v : R) : Prop :=
  exists lam h, interpolates kind gamma n nodes vals lam h /\
  (Rabs (nth i lam 0) <= eps /\ v = nth i vals 0 \/
   eps < Rabs (nth i lam 0) /\
   exists lam' h', interpolates kind gamma n (delete_at i nodes) (delete_at i vals) lam' h' /\
     v = model_at kind gamma (delete_at i nodes) lam' h' (nth i nodes [])).
