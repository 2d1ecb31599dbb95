(** * Vocabulary for the statements about the refinement step. *)
From Verif Require Export ModelRefine SpecRBF.
From Coq Require Import Sorting.Permutation.
Open Scope R_scope.

(** [p] is in the box; the box is not empty. *)
Definition rin_box (p lo up : rpoint) : Prop :=
  length p = length lo /\ length p = length up /\
  forall j, (j < length p)%nat -> nth j lo 0 <= nth j p 0 <= nth j up 0.

(** Value at [x] of the linear model with gradient [h] and constant [b]. *)
Definition linear_value (h : rpoint) (b : R) (x : rpoint) : R := rdot h x + b.

(** [order] lists all positions of [dist], by increasing value (ties in any order). *)
Definition sorts (dist : list R) (order : list nat) : Prop :=
  Permutation (seq 0 (length dist)) order /\
  forall a b, (a < b < length order)%nat -> nth (nth a order 0%nat) dist 0 <= nth (nth b order 0%nat) dist 0.

(** [x] is a whole number. *)
Definition whole (x : R) : Prop := exists z : Z, x = IZR z.
(** [a] is [x] rounded down or up to a whole number. *)
Definition rounded (x a : R) : Prop := whole a /\ Rabs (a - x) < 1 /\ (whole x -> a = x).

(** A possible random choice for a block: a coordinate of the block, of positive weight if some
    weight is not 0. *)
Definition possible_choice (p : rpoint) (block : list nat) (c : nat) : Prop :=
  In c block /\ (rsum (map (fun j => nth j p 0) block) <> 0 -> 0 < nth c p 0).

(** Blocks are disjoint lists of distinct coordinates below [n]. *)
Definition in_no_block (blocks : list (list nat)) (j : nat) : Prop := forall b, In b blocks -> ~ In j b.
