(** * Specification vocabulary for the serial optimizer.

    Everything the property theorems of [PropertiesAlg] need beyond the model itself
    ([ModelAlg]); written from the English properties, not from the proofs.

    Observable history: the ghost trace of a state lists, in order, the calls of the black
    box with their answers ([EvAcc p v]: [evaluate(p)] returned [v]; [EvNoisy p v el eu]:
    [evaluate_noisy(p)] returned [(v, el, eu)]), the user-supplied values taken over
    ([EvUser]), the checkpoints written ([EvSave it]), the restarts, and the search steps
    executed. *)
From Verif Require Export ModelAlg.
Open Scope Z_scope.

(** Number of calls made. *)
Fixpoint evaluate_calls (tr : list event) : Z :=
  match tr with
  | [] => 0
  | EvAcc _ _ :: r => 1 + evaluate_calls r
  | _ :: r => evaluate_calls r
  end.
Fixpoint noisy_calls (tr : list event) : Z :=
  match tr with
  | [] => 0
  | EvNoisy _ _ _ _ :: r => 1 + noisy_calls r
  | _ :: r => noisy_calls r
  end.
Fixpoint restarts_in (tr : list event) : Z :=
  match tr with
  | [] => 0
  | EvRestart :: r => 1 + restarts_in r
  | _ :: r => restarts_in r
  end.

(** The black box returned [v] for [p] (accurately or with noise), or the user supplied
    the value [v] for the starting point [p]. *)
Definition produced (tr : list event) (p : point) (v : Q) : Prop :=
  In (EvAcc p v) tr \/ (exists el eu, In (EvNoisy p v el eu) tr) \/ In (EvUser p v) tr.
(** The black box was called at [p]. *)
Definition called_at (tr : list event) (p : point) : Prop :=
  (exists v, In (EvAcc p v) tr) \/ (exists v el eu, In (EvNoisy p v el eu) tr).

(** Componentwise bounds and integrality. *)
Definition within (lo up p : point) : Prop :=
  length p = length lo /\ length p = length up /\
  forall j, (j < length p)%nat -> (nth j lo 0 <= nth j p 0 <= nth j up 0)%Q.
Definition is_integer (x : Q) : Prop := exists z : Z, (x == inject_Z z)%Q.
Definition integer_at (ints : list nat) (p : point) : Prop :=
  forall j, In j ints -> is_integer (nth j p 0%Q).

(** [l] attains its minimum first at position [i]. *)
Definition first_minimum (l : list Q) (i : nat) : Prop :=
  (i < length l)%nat /\
  (forall j, (j < length l)%nat -> (nth i l 0 <= nth j l 0)%Q) /\
  (forall j, (j < i)%nat -> (nth i l 0 < nth j l 0)%Q).

(** Any two different entries are at distance more than [d]. *)
Definition all_apart (d : Q) (ps : list point) : Prop :=
  forall i j, (i < j < length ps)%nat -> (d * d < sqdist (nth i ps []) (nth j ps []))%Q.

(** A call of [optimize] in serial mode ended normally / failed / is still running. *)
Definition ends_normally (r : run_result) : Prop := exists s, r = Done s.
Definition fails (r : run_result) : Prop := exists e, r = Failed e.

(** Extended order on values, [None] is plus infinity. *)
Definition not_worse (a b : option Q) : Prop :=
  match a, b with
  | _, None => True
  | Some x, Some y => (x <= y)%Q
  | None, Some _ => False
  end.
Definition extends {A} (old new : list A) : Prop := exists added, new = old ++ added.

(** Checkpoints in a trace, and the multiples of [m] in 1..it. *)
Fixpoint checkpoints (tr : list event) : list Z :=
  match tr with
  | [] => []
  | EvSave k :: r => k :: checkpoints r
  | _ :: r => checkpoints r
  end.
Definition multiples_upto (m it : Z) : list Z :=
  filter (fun k => k mod m =? 0) (map Z.of_nat (seq 1 (Z.to_nat it))).

(** The last [m] entries. *)
Definition last_entries {A} (m : nat) (l : list A) : list A := skipn (length l - m) l.
