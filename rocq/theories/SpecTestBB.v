(** * Specification vocabulary for the test black boxes. *)
From Verif Require Export ModelTestBB.
From Coq Require Import Permutation.
Open Scope Q_scope.

Definition whole (x : Q) : Prop := exists z : Z, x == inject_Z z.
(** A point respects bounds and variable types. *)
Definition in_domain (lo up : point) (ty : list vtype) (p : point) : Prop :=
  length p = length lo /\
  forall j, (j < length lo)%nat ->
    nth j lo 0 <= nth j p 0 <= nth j up 0 /\ (nth j ty VR <> VR -> whole (nth j p 0)).

(** A test function with meaningful attributes: different bounds, integral bounds for integer
    and categorical variables, nonnegative categories, an optimum in the domain, and a
    value that depends only on the numbers. *)
Record proper_fn (f : fn) : Prop := {
  wf_lo : length (f_lo f) = f_dim f; wf_up : length (f_up f) = f_dim f;
  wf_dim : (0 < f_dim f)%nat;
  wf_bounds : forall j, (j < f_dim f)%nat -> nth j (f_lo f) 0 < nth j (f_up f) 0;
  wf_int : forall j, (j < f_dim f)%nat -> nth j (f_type f) VR <> VR ->
             whole (nth j (f_lo f) 0) /\ whole (nth j (f_up f) 0);
  wf_cat : forall j, (j < f_dim f)%nat -> nth j (f_type f) VR = VC -> 0 <= nth j (f_lo f) 0;
  wf_opt : in_domain (f_lo f) (f_up f) (f_type f) (f_opt f);
  wf_eval : forall p q, Forall2 Qeq p q -> f_eval f p == f_eval f q }.

(** The random draws of the constructor: two permutations of the variables (the second one
    arranged in rows) and integer weights between 1 and 9. *)
Record draws (f : fn) (d : nat) (pm : list nat) (rows : list (list nat)) (ws : list Z) : Prop := {
  dr_perm : Permutation pm (seq 0 (f_dim f * d));
  dr_rows : length rows = f_dim f;
  dr_row : Forall (fun r => length r = d) rows;
  dr_coupling : Permutation (concat rows) (seq 0 (f_dim f * d));
  dr_weights : length ws = d;
  dr_range : Forall (fun w => 1 <= w <= 9)%Z ws }.
