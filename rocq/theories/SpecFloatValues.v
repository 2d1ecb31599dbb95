(** * Specification vocabulary for C160. *)
From Coq Require Import Reals.
From Flocq Require Import Core.
From Verif Require Import ModelFloat.
Open Scope R_scope.

(** A list of values with its smallest and largest element, none larger than 2^1000 (about 10^301) in absolute value. *)
Definition sample (vals : list b64) (fmin fmax : b64) : Prop :=
  In fmin vals /\ In fmax vals /\
  forall x, In x vals -> is_finite x = true /\ Rabs (B2R x) <= bpow radix2 1000 /\ Bleb fmin x = true /\ Bleb x fmax = true.
(** Settings a user may choose: dynamism_threshold between 1 and 2^20 (about 10^6), eps_zero between 0 and 1. *)
Definition sensible (thr eps_zero : b64) : Prop :=
  is_finite thr = true /\ 1 <= B2R thr <= bpow radix2 20 /\ is_finite eps_zero = true /\ 0 < B2R eps_zero <= 1.
