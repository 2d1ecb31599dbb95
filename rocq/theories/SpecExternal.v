(** * Vocabulary of C156. *)
From Verif Require Export ModelExternal SpecLinear.
From Coq Require Import String ZArith List.
Import ListNotations.
Open Scope R_scope.

(** The value of an option. *)
Fixpoint option_of (d : options) (k : string) : option option_value :=
  match d with [] => None | (k', v) :: r => if String.eqb k' k then Some v else option_of r k end.
(** The generator keeps to its ranges. *)
Definition proper_randoms (g : randoms) : Prop :=
  (forall i, 0 <= uni g i < 1) /\ (forall i m, (0 < m)%Z -> (0 <= rint g i m < m)%Z).
(** Options fixed by the code. *)
Definition minlp_fixed : list string :=
  ["bonmin.num_resolve_at_root"; "bonmin.num_retry_unsolved_random_point"; "bonmin.num_resolve_at_infeasibles";
   "bonmin.algorithm"; "bonmin.time_limit"; "acceptable_tol"; "max_cpu_time"; "max_iter"; "bound_relax_factor";
   "bonmin.random_generator_seed"]%string.
Definition nlp_fixed : list string :=
  ["acceptable_tol"; "honor_original_bounds"; "max_cpu_time"; "max_iter"; "bound_relax_factor"]%string.
