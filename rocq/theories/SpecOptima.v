(** * Vocabulary: global minimizers. *)
From Verif Require Import ModelBench SpecBench.
From Coq Require Import Reals List.
Open Scope R_scope.

(** No point of the space has a smaller value than [p]. *)
Definition minimizer (b : bench) (p : list R) : Prop :=
  in_space b p /\ exists v, evaluate b p = Some v /\
    forall q w, in_space b q -> evaluate b q = Some w -> v <= w.
(** Two points agree to [eps] in every coordinate. *)
Definition close (eps : R) (p q : list R) : Prop := Forall2 (fun x y => Rabs (x - y) <= eps) p q.
