(** * Specification vocabulary for the command line. *)
From Verif Require Export SpecSettings ModelCLI.
Open Scope string_scope.
Open Scope Q_scope.

(** The last occurrence of option [k] on the command line has text [t]. *)
Definition last_given (os : given_options) (k t : string) : Prop :=
  exists a b, os = (a ++ (k, t) :: b)%list /\ ~ In k (map fst b).
Definition never_given (os : given_options) (k : string) : Prop := ~ In k (map fst os).

(** The value the user asked for: the conversion of the last text given, or the documented
    default. *)
Definition requested (conv : converter) (os : given_options) (k : string) (v : pyval) : Prop :=
  (exists t kd, last_given os k t /\ In (k, kd) registered /\ conv kd t = Some v) \/
  (never_given os k /\ In (k, v) documented_defaults).

(** What a points file stands for: rows of [dim] coordinates, each optionally followed by the value. *)
Definition rows_with_values (dim : nat) (rows : list (list Q)) : Prop := Forall (fun r => List.length r = (dim + 1)%nat) rows.
Definition rows_without_values (dim : nat) (rows : list (list Q)) : Prop := Forall (fun r => List.length r = dim) rows.

(** Whether the solution is to be printed: the value given counts as true in Python. *)
Definition asks_to_print (v : pyval) : Prop := v <> PBool false /\ v <> PStr "" /\ forall q, v = PNum q -> ~ q == 0.
