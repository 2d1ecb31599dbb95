(** * Vocabulary for the choice of the surrogate model over a run.

    Everything is stated on the sequence of iterations: what iteration [i] saw ([os i]) and
    which model was in use ([used i]). *)
From Verif Require Import ModelSelect.
Import ListNotations.

(** The beginning of a cycle with enough points, in a run with [rbf = 'auto']. *)
Definition eligible {M} (c : sel_cfg M) (o : sel_in M) : bool :=
  (c_auto c && (c_n c + 2 <? o_k o)%nat && (o_step o <=? c_first c)%nat)%bool.
(** Eligible iterations before [t]. *)
Definition eligible_before {M} (c : sel_cfg M) (os : nat -> sel_in M) (t : nat) : nat :=
  length (filter (fun i => eligible c (os i)) (seq 0 t)).
(** The first [max_cross_validations] eligible iterations. *)
Definition turn {M} (c : sel_cfg M) (os : nat -> sel_in M) (i : nat) : bool :=
  (eligible c (os i) && (eligible_before c os i <? c_maxcv c)%nat)%bool.

(** Iterations that use the local model: from the last global step on. *)
Definition local_side {M} (c : sel_cfg M) (o : sel_in M) : bool := (c_localstep c - 1 <=? o_step o)%nat.
(** The model found by the local (global) cross validation of iteration [i], started from the
    model [prev] in use before. *)
Definition found_local {M} (o : sel_in M) (prev : M) : M := fst (o_local o prev).
Definition found_global {M} (o : sel_in M) (prev : M) : M := fst (o_global o (snd (o_local o prev))).
Definition found_for {M} (loc : bool) (o : sel_in M) (prev : M) : M :=
  if loc then found_local o prev else found_global o prev.
(** The model in use before iteration [i]. *)
Definition previous {M} (c : sel_cfg M) (used : nat -> M) (i : nat) : M :=
  match i with O => c_init c | S j => used j end.

(** The system of iteration [j] could not be solved with the local (global) model. *)
Definition failure {M} (c : sel_cfg M) (loc : bool) (o : sel_in M) : bool :=
  (o_fails o && (o_step o <=? c_localstep c)%nat && Bool.eqb (local_side c o) loc)%bool.
(** A failure before [t] while the choice of iteration [i] was the latest one. *)
Definition spoiled {M} (c : sel_cfg M) (os : nat -> sel_in M) (loc : bool) (i t : nat) : Prop :=
  exists j, (i <= j < t)%nat /\ failure c loc (os j) = true /\ forall l, (i < l <= j)%nat -> turn c os l = false.
(** How often [m] was chosen, among the cross validations up to iteration [t] whose choice has
    not failed before [t]: the list [L] names those iterations. *)
Definition unspoiled {M} (c : sel_cfg M) (os : nat -> sel_in M) (loc : bool) (t : nat) (L : list nat) : Prop :=
  NoDup L /\ forall i, In i L <-> (i <= t)%nat /\ turn c os i = true /\ ~ spoiled c os loc i t.
Definition votes {M} (eqb : M -> M -> bool) (c : sel_cfg M) (os : nat -> sel_in M) (used : nat -> M) (loc : bool)
    (L : list nat) (m : M) : nat :=
  length (filter (fun i => eqb m (found_for loc (os i) (previous c used i))) L).
