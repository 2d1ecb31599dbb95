(** * Vocabulary for the statements about the optimization problems. *)
From Verif Require Export ModelPyomo SpecAux.
Open Scope R_scope.

Definition symmetric_mat (q : nat) (M : mat) : Prop :=
  forall i j, (i < q)%nat -> (j < q)%nat -> ent M i j = ent M j i.

(** A valid point of the expanded space: within the bounds, integer where required, one active
    coordinate in each categorical block. *)
Definition valid_point (lo up : rpoint) (ints : list nat) (blocks : list (list nat)) (x : rpoint) : Prop :=
  (forall i, (i < length x)%nat -> nth i lo 0 <= nth i x 0 <= nth i up 0) /\
  (forall i, In i ints -> exists y : Z, nth i x 0 = IZR y) /\
  (forall b, In b blocks -> one_active b x).

(** Bounds and integrality of the expanded categorical coordinates. *)
Definition binary_blocks (lo up : rpoint) (ints : list nat) (blocks : list (list nat)) (n : nat) : Prop :=
  forall b j, In b blocks -> In j b -> (j < n)%nat /\ In j ints /\ nth j lo 0 = 0 /\ nth j up 0 = 1.

(** The model value at each node lies in the error interval of the node. *)
Definition respects_errors (kind : rbf_kind) (gamma : R) (nodes : list rpoint) (vals : list R)
    (errs : list (R * R)) (lam h : list R) : Prop :=
  forall i, (i < length nodes)%nat ->
    nth i vals 0 + fst (nth i errs (0, 0)) <= model_at kind gamma nodes lam h (nth i nodes []) <=
    nth i vals 0 + snd (nth i errs (0, 0)).
(** Error intervals contain the value (the error is (0,0) for accurate nodes). *)
Definition contains_value (errs : list (R * R)) : Prop :=
  forall i, fst (nth i errs (0, 0)) <= 0 <= snd (nth i errs (0, 0)).
Definition side_conditions (kind : rbf_kind) (n : nat) (nodes : list rpoint) (lam : list R) : Prop :=
  forall j, (j < size_P kind n)%nat ->
    rdot (map (fun x => nth j (monomials (degree_polynomial kind) x) 0) nodes) lam = 0.

(** Blocks of the interpolation matrix: [Amat[:k, :k]], [Amat[:k, k:]]. *)
Definition top_left (k : nat) (A : mat) : mat := map (firstn k) (firstn k A).
Definition top_right (k : nat) (A : mat) : mat := map (skipn k) (firstn k A).
