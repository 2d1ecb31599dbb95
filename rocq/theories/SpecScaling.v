(** * Vocabulary for the statements about scaling. *)
From Verif Require Export ModelScaling.
Open Scope R_scope.

(** [lo] and [hi] are the smallest and the largest of the values. *)
Definition extremes (vals : list R) (lo hi : R) : Prop :=
  In lo vals /\ In hi vals /\ forall v, In v vals -> lo <= v <= hi.

(** How many of the values are at most / at least [m]. *)
Fixpoint count_le (m : R) (l : list R) : nat :=
  match l with [] => 0 | x :: r => (if Rle_dec x m then 1 else 0) + count_le m r end.
Fixpoint count_ge (m : R) (l : list R) : nat :=
  match l with [] => 0 | x :: r => (if Rle_dec m x then 1 else 0) + count_ge m r end.

(** [m] is the median: midpoint of the lower and the upper middle value [a] and [b].  Of [k] values,
    at least k/2 are at most [a] and more than k/2 at least [a]; [b] the other way round. *)
Definition is_median (l : list R) (m : R) : Prop :=
  exists a b, In a l /\ In b l /\ m = (a + b) / 2 /\
    (length l <= 2 * count_le a l)%nat /\ (length l < 2 * count_ge a l)%nat /\
    (length l < 2 * count_le b l)%nat /\ (length l <= 2 * count_ge b l)%nat.

(** Error bounds of the kind the program works with: lower at most 0, upper at least 0. *)
Definition proper_errors (vals : list R) (err : list (R * R)) : Prop :=
  length err = length vals /\ forall e, In e err -> fst e <= 0 <= snd e.

(** Clipping takes place: the values span more than the threshold. *)
Definition spans (eps thr fmin fmax : R) : Prop :=
  (eps < Rabs fmin /\ thr < Rabs fmax / Rabs fmin) \/ (Rabs fmin <= eps /\ thr < Rabs fmax).

(** Rational points: equal coordinates; the points (0,...,0) and (1,...,1) of the dimension of [l]. *)
Definition agree (p q : point) : Prop :=
  length p = length q /\ forall j, (j < length p)%nat -> (nth j p 0 == nth j q 0)%Q.
Definition zeros_for (l : point) : point := map (fun _ => 0%Q) l.
Definition ones_for (l : point) : point := map (fun _ => 1%Q) l.
