(** * Waiting for the workers: what a round of the parallel loop can find nothing to do about. *)
From Verif Require Export ModelParallel.
Open Scope Z_scope.

(** The loop finds that tasks are outstanding, and none of them ready: at the end of the
    collection of results, or in the wait for an initial sample. *)
Definition waiting (q : pin) (m : pc) (P : pst) : bool :=
  match m with
  | PcSearches => match ready q (srch (p_k P)) with
                  | None => negb ((length (pend (p_k P)) =? 0)%nat && (length (srch (p_k P)) =? 0)%nat)
                  | Some _ => false end
  | PcWait _ w => match ready q (w_pend w) with None => negb (length (w_pend w) =? 0)%nat | Some _ => false end
  | _ => false
  end.
(** Number of such occasions in a run. *)
Fixpoint waits (pc0 : pcfg) (qs : list pin) (m : pc) (P : pst) : Z :=
  match qs with
  | [] => 0
  | q :: r => (if waiting q m P then 1 else 0) +
              waits pc0 r (fst (pstep pc0 q m P)) (snd (pstep pc0 q m P))
  end.
