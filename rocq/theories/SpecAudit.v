(** * Vocabulary of additions to C14. *)
From Verif Require Export SpecAlg.
Open Scope Z_scope.
(** The error bounds returned by the most recent noisy evaluation made in an iteration (not while a starting sample is
    evaluated): a restart begins a sample, the next search step ends it. *)
Definition note (m : bool * option (Q * Q)) (e : event) : bool * option (Q * Q) :=
  match e with
  | EvRestart => (true, snd m)
  | EvStep _ => (false, snd m)
  | EvNoisy _ _ el eu => if fst m then m else (false, Some (el, eu))
  | _ => m
  end.
Definition latest_bounds (tr : list event) : option (Q * Q) := snd (fold_left note tr (false, None)).
