(** * The summary line printed at the end of [optimize].

    Models the end of [optimize], rbfopt_algorithm.py 790-812, and [print_summary_line]
    543-567.  Definitions only.

    Simplifications: the line is the record of the printed data (the number format is not
    represented); the two clock times are left out. *)
From Verif Require Export ModelAlg.

(** The data of the line, 557-565; [sm_obj] is [None] for an infinite [fbest]; [sm_mark] is
    the '~'. *)
Record summary := mkSummary {
  sm_iters : Z; sm_evals : Z; sm_noisy_evals : Z; sm_cycles : Z;
  sm_mark : bool; sm_obj : option Q; sm_gap : option Q }.

(** 792-802: [i = all_node_val.argmin()] (ValueError when there is no record); the gap is that
    of [fbest] plus the upper error of record [i]; the value printed is [fbest], the mark that
    of record [i]. *)
Definition summarize (c : cfg) (s : st) : res summary :=
  match all_val (T s) with
  | [] => Fail EValue
  | _ =>
      let i := argmin (all_val (T s)) in
      match nth_error (all_err (T s)) i, nth_error (all_is_noisy (T s)) i with
      | Some e, Some m =>
          Ok (mkSummary (itercount (C s)) (evalcount (C s)) (noisy_evalcount (C s))
                        (cyclecount (C s)) m (fbest (I s))
                        (match fbest (I s) with
                         | None => None
                         | Some f => Some (compute_gap c (f + snd e)%Q) end))
      | _, _ => Fail EIndex
      end
  end.
