(** * Real vectors, distances, and elementary numpy reductions.

    Models rbfopt_utils.py [norm] 862-882, [distance] 885-911, [get_min_distance] 913-941,
    [get_min_distance_and_index] 943-973, [get_max_distance] 975-1002,
    [get_max_distance_and_index] 1005-1035, [bulk_get_min_distance] 1038-1073.

    Definitions only.  Numbers are the reals of Coq's standard library (simplification: the
    code uses IEEE doubles).  The assertions of the code ([other_points.size], equal lengths)
    appear as hypotheses of the theorems. *)
From Verif Require Export ModelBase.
From Coq Require Export Reals.
Open Scope R_scope.

Definition rpoint := list R.

(** Comparisons of two numbers as booleans. *)
Definition Rleb (a b : R) : bool := if Rle_dec a b then true else false.
Definition Rltb (a b : R) : bool := if Rlt_dec a b then true else false.

(** [np.dot] of two vectors of equal length. *)
Fixpoint rdot (u v : list R) : R :=
  match u, v with
  | a :: u', b :: v' => a * b + rdot u' v'
  | _, _ => 0
  end.

(** [math.fsum], [np.sum]. *)
Definition rsum (l : list R) : R := fold_right Rplus 0 l.

(** [norm] 862-882. *)
Definition norm (p : rpoint) : R := sqrt (rdot p p).

(** [distance] 885-911: the difference, then the square root of its scalar product. *)
Definition distance (p q : rpoint) : R :=
  let d := map2 Rminus p q in sqrt (rdot d d).

(** [np.amin] / [np.amax] of a nonempty vector. *)
Definition amin (l : list R) : R :=
  match l with [] => 0 | x :: r => fold_left Rmin r x end.
Definition amax (l : list R) : R :=
  match l with [] => 0 | x :: r => fold_left Rmax r x end.

(** [np.argmin] / [np.argmax]: first index of the extreme value. *)
Fixpoint rargmin_aux (best : R) (bi i : nat) (l : list R) : nat :=
  match l with
  | [] => bi
  | x :: r => if Rltb x best then rargmin_aux x i (S i) r
              else rargmin_aux best bi (S i) r
  end.
Definition rargmin (l : list R) : nat :=
  match l with [] => 0%nat | x :: r => rargmin_aux x 0 1 r end.
Fixpoint rargmax_aux (best : R) (bi i : nat) (l : list R) : nat :=
  match l with
  | [] => bi
  | x :: r => if Rltb best x then rargmax_aux x i (S i) r
              else rargmax_aux best bi (S i) r
  end.
Definition rargmax (l : list R) : nat :=
  match l with [] => 0%nat | x :: r => rargmax_aux x 0 1 r end.

(** One row of [scipy.spatial.distance.cdist]. *)
Definition cdist_row (p : rpoint) (others : list rpoint) : list R := map (distance p) others.
(** [cdist(points, others)]. *)
Definition cdist (points others : list rpoint) : list (list R) :=
  map (fun p => cdist_row p others) points.

(** [get_min_distance] 913-941. *)
Definition get_min_distance (p : rpoint) (others : list rpoint) : R := amin (cdist_row p others).
(** [get_min_distance_and_index] 943-973. *)
Definition get_min_distance_and_index (p : rpoint) (others : list rpoint) : R * nat :=
  let dist := cdist_row p others in
  let index := rargmin dist in (nth index dist 0, index).
(** [get_max_distance] 975-1002. *)
Definition get_max_distance (p : rpoint) (others : list rpoint) : R := amax (cdist_row p others).
(** [get_max_distance_and_index] 1005-1035. *)
Definition get_max_distance_and_index (p : rpoint) (others : list rpoint) : R * nat :=
  let dist := cdist_row p others in
  let index := rargmax dist in (nth index dist 0, index).
(** [bulk_get_min_distance] 1038-1073. *)
Definition bulk_get_min_distance (points others : list rpoint) : list R :=
  map amin (cdist points others).

(** A rational point as a real point. *)
Definition Q2Rp (p : point) : rpoint := map Q2R p.
