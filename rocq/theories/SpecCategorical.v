(** * Specification vocabulary for fixed and categorical variables (C23 - C28, C88).

    A black box [b] has [bb_dim b] variables with bounds and types.  A variable is fixed when
    its bounds agree up to [eps] (the setting eps_zero); a free variable is treated as
    categorical when its type is categorical and its range is not 1. *)
From Verif Require Export ModelCategorical.
Open Scope Q_scope.

Definition lower (b : bbox) (i : nat) : Q := nth i (bb_lower b) 0.
Definition upper (b : bbox) (i : nat) : Q := nth i (bb_upper b) 0.
Definition vtype_of (b : bbox) (i : nat) : vtype := nth i (bb_type b) VReal.
(** One bound and one type per variable. *)
Definition well_formed (b : bbox) : Prop :=
  length (bb_upper b) = bb_dim b /\ length (bb_type b) = bb_dim b.
Definition fixedb (eps : Q) (b : bbox) (i : nat) : bool := Qle_bool (Qabs (lower b i - upper b i)) eps.
Definition categoricalb (b : bbox) (i : nat) : bool :=
  match vtype_of b i with VCat => negb (Qeq_bool (upper b i - lower b i) 1) | _ => false end.
(** Variables by kind, in increasing order. *)
Definition free_vars (eps : Q) (b : bbox) : list nat :=
  filter (fun i => negb (fixedb eps b i)) (seq 0 (bb_dim b)).
Definition plain_vars (eps : Q) (b : bbox) : list nat :=
  filter (fun i => negb (categoricalb b i)) (free_vars eps b).
Definition cat_vars (eps : Q) (b : bbox) : list nat := filter (categoricalb b) (free_vars eps b).
(** Number of values of a categorical variable: lower, lower+1, ..., at most upper. *)
Definition num_values (b : bbox) (i : nat) : nat := S (Z.to_nat (Qfloor (upper b i - lower b i))).
Fixpoint total_values (b : bbox) (is : list nat) : nat :=
  match is with [] => 0 | i :: r => num_values b i + total_values b r end.
(** First encoded index of the block of the [k]-th categorical variable. *)
Definition block_start (eps : Q) (b : bbox) (k : nat) : nat :=
  (length (plain_vars eps b) + total_values b (firstn k (cat_vars eps b)))%nat.
Definition encoded_dim (eps : Q) (b : bbox) : nat :=
  (length (plain_vars eps b) + total_values b (cat_vars eps b))%nat.
(** The bounds of every categorical variable are in order. *)
Definition cat_ordered (eps : Q) (b : bbox) : Prop :=
  forall i, In i (cat_vars eps b) -> lower b i <= upper b i.

(** The coordinates of a point at some variables. *)
Definition values_at (idx : list nat) (x : point) : list Q := map (fun i => nth i x 0) idx.
(** Same point up to representation of the rationals. *)
Definition same_point (x y : point) : Prop :=
  length x = length y /\ forall i, (i < length x)%nat -> nth i x 0 == nth i y 0.
(** Exactly one entry of each block is active. *)
Definition one_hot (eps : Q) (b : bbox) (p : point) : Prop :=
  length p = encoded_dim eps b /\
  forall k, (k < length (cat_vars eps b))%nat ->
    exists j, (j < num_values b (nth k (cat_vars eps b) 0%nat))%nat /\
      nth (block_start eps b k + j) p 0 == 1 /\
      forall j', (j' < num_values b (nth k (cat_vars eps b) 0%nat))%nat -> j' <> j ->
        ~ nth (block_start eps b k + j') p 0 == 1.
(** [v] is one of the values [l, l+1, ...] not above [u]. *)
Definition category (l u v : Q) : Prop := exists z : Z, v == l + inject_Z z /\ l <= v /\ v <= u.
(** A point of the original space with the fixed variables at their value and the
    categorical ones in range. *)
Definition representable (eps : Q) (b : bbox) (x : point) : Prop :=
  length x = bb_dim b /\
  (forall i, (i < bb_dim b)%nat -> fixedb eps b i = true -> nth i x 0 == lower b i) /\
  (forall i, In i (cat_vars eps b) -> category (lower b i) (upper b i) (nth i x 0)).
