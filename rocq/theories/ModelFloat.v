(** * Parts of the code in IEEE 754 double arithmetic.

    The rest of the development computes with exact numbers.  This file models the two places
    where double arithmetic changes what a user can observe: domain scaling
    (rbfopt_utils.py 1791-1802, the same expressions in 1859-1868) and the bookkeeping of the best
    value (rbfopt_algorithm.py 428, 432, 632-643, 680-691, 795, 2019-2033).  Doubles are Flocq's
    binary64 values without NaN payloads ([binary_float 53 1024]); all operations round to nearest,
    ties to even.  Definitions only. *)
From Coq Require Export List Bool ZArith.
From Flocq Require Export IEEE754.BinarySingleNaN.
From Flocq Require Import Core.
Export ListNotations.
Open Scope list_scope.

Global Instance prec64_gt_0 : Prec_gt_0 53 := eq_refl.
Global Instance prec64_lt_emax : Prec_lt_emax 53 1024 := eq_refl.
Definition b64 := binary_float 53 1024.
Definition fadd (x y : b64) : b64 := Bplus mode_NE x y.
Definition fsub (x y : b64) : b64 := Bminus mode_NE x y.
Definition fmul (x y : b64) : b64 := Bmult mode_NE x y.
Definition fdiv (x y : b64) : b64 := Bdiv mode_NE x y.
Definition f0 : b64 := B754_zero false.
Definition f1 : b64 := Bone.
Definition fnan : b64 := B754_nan.
Definition finf : b64 := B754_infinity false.

(** One component of [transform_domain], reverse direction, lines 1796-1797:
    [point * (var_upper - var_lower) + var_lower]. *)
Definition unscale1 (x lo up : b64) : b64 := fadd (fmul x (fsub up lo)) lo.
(** Forward direction, 1799-1801: zero ranges are replaced by one. *)
Definition scale1 (p lo up : b64) : b64 :=
  let diff := fsub up lo in
  fdiv (fsub p lo) (if Beqb diff f0 then f1 else diff).

(** [np.argmin]: [if not (x >= best)] replaces, and a NaN is kept at once. *)
Fixpoint argmin_from (best : b64) (bi i : nat) (l : list b64) : nat :=
  match l with
  | [] => bi
  | x :: r => if is_nan best then bi
              else if Bleb best x then argmin_from best bi (S i) r else argmin_from x i (S i) r
  end.
Definition fargmin (l : list b64) : nat :=
  match l with [] => 0%nat | x :: r => argmin_from x 0 1 r end.
(** [np.max]: NaN if there is one. *)
Definition fmaximum (l : list b64) : b64 :=
  match l with
  | [] => fnan
  | x :: r => fold_left (fun m y => if is_nan m then m else if is_nan y then y else if Bltb m y then y else m) r x
  end.
(** Python's [max(a, b)] is [b if b > a else a]. *)
Definition pymax (a b : b64) : b64 := if Bltb a b then b else a.

(** The attributes concerned: values of all points of the run and of the current nodes, and the
    best values with their indices. *)
Record fstate := mkFstate {
  all_val : list b64; node_val : list b64;
  fmin : b64; fmin_index : nat; fmax : b64; fbest : b64; fbest_index : nat }.
(** Construction, 426-433 (before the first start). *)
Definition fstart : fstate := mkFstate [] [] finf 0 finf finf 0.
(** [add_node], [add_noisy_node] 632-643, 680-691. *)
Definition fadd_node (v : b64) (s : fstate) : fstate :=
  let nv := node_val s ++ [v] in
  let av := all_val s ++ [v] in
  let imp := Bltb v (fmin s) in
  let best := Bltb v (fbest s) in
  mkFstate av nv (if imp then v else fmin s) (if imp then length nv - 1 else fmin_index s)
           (pymax (fmax s) v)
           (if best then v else fbest s) (if best then length av - 1 else fbest_index s).
(** The values computed at a (re)start for a new sample (2019-2033; all values were appended to
    [all_node_val] just before, when the number of earlier points is [num_nodes_at_restart]). *)
Definition frestart (sample : list b64) (s : fstate) : fstate :=
  let i := fargmin sample in
  let m := nth i sample fnan in
  let best := Bltb m (fbest s) in
  mkFstate (all_val s ++ sample) sample m i (fmaximum sample)
           (if best then m else fbest s) (if best then (i + length (all_val s))%nat else fbest_index s).
Inductive fevent := Sampled (vs : list b64) | Evaluated (v : b64).
Definition fstep (s : fstate) (e : fevent) : fstate :=
  match e with Sampled vs => frestart vs s | Evaluated v => fadd_node v s end.
Definition frun (es : list fevent) : fstate := fold_left fstep es fstart.
(** The value returned by [optimize], 795 and 812. *)
Definition freturned (s : fstate) : b64 := nth (fargmin (all_val s)) (all_val s) fnan.
