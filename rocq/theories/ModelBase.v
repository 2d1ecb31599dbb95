(** * Common vocabulary of the model: points, squared distances, argmin, list edits.

    Definitions only.  Line numbers refer to /repo/src/rbfopt.

    Numbers: coordinates and objective values are exact rationals [Q]
    (simplification: the code uses IEEE doubles; rounding is not modelled here,
    see [ModelFloat]).  Counters are [Z] or [nat]. *)
From Coq Require Export List ZArith QArith Qabs Qround Qminmax Bool.
Export ListNotations.

Definition point := list Q.

(** Strict comparison of two rationals as a boolean (Python's [a < b]). *)
Definition Qltb (a b : Q) : bool := negb (Qle_bool b a).

(** ** Element-wise operations (numpy broadcasting over equal-length vectors) *)
Fixpoint map2 {A B C} (f : A -> B -> C) (l : list A) (m : list B) : list C :=
  match l, m with
  | a :: l', b :: m' => f a b :: map2 f l' m'
  | _, _ => []
  end.

Fixpoint map3 {A B C D} (f : A -> B -> C -> D)
         (l : list A) (m : list B) (k : list C) : list D :=
  match l, m, k with
  | a :: l', b :: m', c :: k' => f a b c :: map3 f l' m' k'
  | _, _, _ => []
  end.

(** [np.clip(x, lo, up)] for one coordinate: minimum(maximum(x, lo), up). *)
Definition clip1 (x lo up : Q) : Q := Qmin (Qmax x lo) up.
Definition clip (p lo up : point) : point := map3 clip1 p lo up.

(** ** Distances: rbfopt_utils.py 862-1073 ([norm], [distance], [get_min_distance],
    [get_min_distance_and_index], [get_max_distance_and_index],
    [bulk_get_min_distance]).
    The code takes the square root of [sqdist]; the model compares squares.
    Bridge to the real square root: [GeomProofs.v]. *)
Fixpoint sqdist (p q : point) : Q :=
  match p, q with
  | a :: p', b :: q' => (a - b) * (a - b) + sqdist p' q'
  | _, _ => 0
  end.

(** [distance(p, q) <= d].  For [d < 0] the code's comparison is false. *)
Definition dist_le (p q : point) (d : Q) : bool :=
  Qle_bool 0 d && Qle_bool (sqdist p q) (d * d).

(** [distance(p, q) < d]. *)
Definition dist_lt (p q : point) (d : Q) : bool :=
  Qltb 0 d && Qltb (sqdist p q) (d * d).

(** [get_min_distance(p, ps) <= d], rbfopt_utils.py 913-940
    (the minimum of the distances is [<= d] iff one of them is). *)
Definition near (d : Q) (p : point) (ps : list point) : bool :=
  existsb (fun q => dist_le p q d) ps.

(** ** First argmin / argmax: [np.argmin], [np.argmax] (finite values) *)
Fixpoint argmin_aux (best : Q) (bi i : nat) (l : list Q) : nat :=
  match l with
  | [] => bi
  | x :: r => if Qltb x best then argmin_aux x i (S i) r
              else argmin_aux best bi (S i) r
  end.
Definition argmin (l : list Q) : nat :=
  match l with [] => 0%nat | x :: r => argmin_aux x 0 1 r end.

Fixpoint argmax_aux (best : Q) (bi i : nat) (l : list Q) : nat :=
  match l with
  | [] => bi
  | x :: r => if Qltb best x then argmax_aux x i (S i) r
              else argmax_aux best bi (S i) r
  end.
Definition argmax (l : list Q) : nat :=
  match l with [] => 0%nat | x :: r => argmax_aux x 0 1 r end.

(** [np.max] of a nonempty list. *)
Definition Qlist_max (l : list Q) : Q := nth (argmax l) l 0.

(** [get_min_distance_and_index], rbfopt_utils.py 943-972: index part. *)
Definition nearest (p : point) (ps : list point) : nat :=
  argmin (map (sqdist p) ps).
(** [get_max_distance_and_index], rbfopt_utils.py 1005-1034: index part. *)
Definition farthest (p : point) (ps : list point) : nat :=
  argmax (map (sqdist p) ps).

(** ** List edits *)
(** [np.delete(l, i, axis=0)]; an index past the end leaves the list as is
    (numpy raises IndexError: the model guards it at the call site). *)
Fixpoint delete_at {A} (i : nat) (l : list A) : list A :=
  match l, i with
  | [], _ => []
  | _ :: r, O => r
  | x :: r, S j => x :: delete_at j r
  end.

(** [l[i] = v]. *)
Fixpoint set_at {A} (i : nat) (v : A) (l : list A) : list A :=
  match l, i with
  | [], _ => []
  | _ :: r, O => v :: r
  | x :: r, S j => x :: set_at j v r
  end.

(** [list.insert(i, v)] (past the end: append). *)
Fixpoint insert_at {A} (i : nat) (v : A) (l : list A) : list A :=
  match i, l with
  | O, _ => v :: l
  | S j, x :: r => x :: insert_at j v r
  | S _, [] => [v]
  end.

(** ** Rounding: [np.around] / Python's [round]: nearest integer, ties to even. *)
Definition round_half_even (x : Q) : Z :=
  let f := Qfloor x in
  let d := x - inject_Z f in
  if Qltb d (1#2) then f
  else if Qltb (1#2) d then (f + 1)%Z
  else if Z.even f then f else (f + 1)%Z.

(** [round_integer_vars(point, integer_vars)], rbfopt_utils.py 627-645. *)
Fixpoint round_at (i : nat) (ints : list nat) (p : point) : point :=
  match p with
  | [] => []
  | x :: r => (if existsb (Nat.eqb i) ints then inject_Z (round_half_even x) else x)
                :: round_at (S i) ints r
  end.
Definition round_integer_vars (p : point) (ints : list nat) : point := round_at 0 ints p.

(** [round_integer_bounds(lower, upper, integer_vars)], rbfopt_utils.py 648-677:
    floor of the lower, ceiling of the upper bound (as coded). *)
Fixpoint floor_at (i : nat) (ints : list nat) (p : point) : point :=
  match p with
  | [] => []
  | x :: r => (if existsb (Nat.eqb i) ints then inject_Z (Qfloor x) else x)
                :: floor_at (S i) ints r
  end.
Fixpoint ceil_at (i : nat) (ints : list nat) (p : point) : point :=
  match p with
  | [] => []
  | x :: r => (if existsb (Nat.eqb i) ints then inject_Z (Qceiling x) else x)
                :: ceil_at (S i) ints r
  end.
Definition round_integer_bounds (lo up : point) (ints : list nat) : point * point :=
  (floor_at 0 ints lo, ceil_at 0 ints up).

(** ** Domain scaling, rbfopt_utils.py 1745-1914 *)
(** [transform_domain(..., reverse=True)] body for 'affine', line 1797. *)
Definition unscale1 (x lo up : Q) : Q := x * (up - lo) + lo.
(** [transform_domain(..., reverse=False)] body for 'affine', lines 1799-1801. *)
Definition scale1 (x lo up : Q) : Q :=
  (x - lo) / (if Qeq_bool (up - lo) 0 then 1 else up - lo).
(** Lines 1791, 1856: scaling is the identity when off *or when there are
    integer variables*. *)
Definition scaling_on (affine : bool) (ints : list nat) : bool :=
  affine && match ints with [] => true | _ => false end.
Definition transform_domain (affine : bool) (lo up : point) (ints : list nat)
           (p : point) (reverse : bool) : point :=
  if scaling_on affine ints then
    map3 (if reverse then unscale1 else scale1) p lo up
  else p.
(** [transform_domain_bounds], lines 1874-1914: does not look at the integer
    variables. *)
Definition transform_domain_bounds (affine : bool) (lo up : point) : point * point :=
  if affine then (map (fun _ => 0) lo, map (fun _ => 1) up) else (lo, up).

(** Count of [true] in a list ([deque.count(True)]). *)
Fixpoint count_true (l : list bool) : nat :=
  match l with [] => 0 | b :: r => (if b then 1 else 0) + count_true r end%nat.

(** [deque(maxlen=m).append(x)]. *)
Definition push_window {A} (m : nat) (l : list A) (x : A) : list A :=
  let l' := l ++ [x] in
  skipn (length l' - m) l'.

Definition opt_get {A} (d : A) (o : option A) : A :=
  match o with Some x => x | None => d end.
