(** * Vocabulary of C155: the surrogate as a function of the evaluated points and values. *)
From Verif Require Export SpecRBF SpecLinear.
From Coq Require Import Reals List.
Import ListNotations.
Open Scope R_scope.

(** Value at [x] of the model fitted by the code to [vals] at [nodes]; None: the fit fails. *)
Definition surrogate (solve : mat -> list R -> option (list R)) (kind : rbf_kind) (gamma eps : R) (n : nat)
    (nodes : list rpoint) (vals : list R) (x : rpoint) : option R :=
  match get_rbf_coefficients solve kind n (length nodes) (get_rbf_matrix kind gamma eps n nodes) vals [] with
  | Some (lam, h) => Some (evaluate_rbf kind gamma x n (length nodes) nodes lam h)
  | None => None
  end.

(** One value for each of finitely many distinct points of the same dimension, not on a hyperplane
    when the model has a linear part, no number of the system below the threshold for zero. *)
Definition well_posed (kind : rbf_kind) (gamma eps : R) (n : nat) (nodes : list rpoint) (vals : list R) : Prop :=
  in_dimension n nodes /\ NoDup nodes /\ nodes <> [] /\ length vals = length nodes /\ shape_ok kind gamma /\
  no_tiny kind gamma eps nodes /\ (degree_polynomial kind = 1%Z -> determining n nodes).

(** The space moved by [t], in another unit of length, with the variables in another order. *)
Definition move (t x : rpoint) : rpoint := map2 Rplus x t.
Definition rescale (s : R) (x : rpoint) : rpoint := map (Rmult s) x.
Definition reorder (p : list nat) (x : rpoint) : rpoint := map (fun j => nth j x 0) p.

(** Basis functions without a scale of their own. *)
Definition scale_free (kind : rbf_kind) : Prop := kind = Cubic \/ kind = ThinPlate \/ kind = Linear.
