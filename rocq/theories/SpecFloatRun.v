(** * Specification vocabulary for C158 and C159: doubles as real numbers.

    [B2R] is Flocq's value of a double, [is_finite] and [is_nan] its classes, [Bleb], [Bltb], [Beqb] Python's
    [<=], [<] and [==] on floats. *)
From Coq Require Import Reals.
From Flocq Require Import Core.
From Verif Require Import ModelFloat.
Open Scope R_scope.

(** What the documentation divides by: the absolute value of the target, or 1 for a target near zero. *)
Definition documented_den (target eps_zero : b64) : R :=
  if Rle_bool (B2R eps_zero) (Rabs (B2R target)) then Rabs (B2R target) else 1.
(** Half a unit in the last place of 1, and half the smallest positive double. *)
Definition half_ulp : R := bpow radix2 (-53).
Definition half_min : R := bpow radix2 (-1075).
(** A double that is a whole number. *)
Definition whole_double (x : b64) : Prop := is_finite x = true /\ exists z : Z, B2R x = IZR z.
(** All coordinates are real numbers. *)
Definition all_finite (p : list b64) : Prop := forall x, In x p -> is_finite x = true.
(** Some coordinate is NaN. *)
Definition some_nan (p : list b64) : Prop := exists x, In x p /\ is_nan x = true.
(** The exact squared Euclidean distance of two points. *)
Definition sq_dist (p q : list b64) : R :=
  fold_right (fun ab s => (B2R (fst ab) - B2R (snd ab)) * (B2R (fst ab) - B2R (snd ab)) + s) 0 (combine p q).
(** How far rounding can move the exact squared distance [E] of points with [n] coordinates: one rounding for each
    subtraction, square and addition, and an underflow of each square. *)
Definition most (n : nat) (E : R) : R := (E * (1 + half_ulp) ^ 3 + INR n * half_min) * (1 + half_ulp) ^ n.
Definition least (n : nat) (E : R) : R := (E * (1 - half_ulp) ^ 3 - INR n * half_min) * (1 - half_ulp) ^ n.
