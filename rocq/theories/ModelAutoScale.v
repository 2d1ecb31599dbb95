(** * Automatic function scaling and choice of the algorithm during a run.

    Models rbfopt_algorithm.py 884-901 (serial; 1563-1581 parallel): the assignments to
    [l_settings.function_scaling] and [l_settings.algorithm] in the main loop, starting from
    the values of [set_auto_parameters] (rbfopt_settings.py 657-658: 'auto' becomes 'off').
    Definitions only.  Real arithmetic. *)
From Verif Require Export ModelScaling.
Open Scope R_scope.

(** [settings.function_scaling]: [None] is 'auto'. *)
Definition start_scaling (user : option fscaling) : fscaling :=
  match user with Some f => f | None => ScaleOff end.

(** 885-893: at the beginning of a cycle ([current_step <= first_step]), from the values of the
    nodes. *)
Definition auto_scaling (user : option fscaling) (thr : R) (first step : nat) (vals : list R) (cur : fscaling) : fscaling :=
  match user with
  | Some _ => cur
  | None =>
      if (step <=? first)%nat then
        let s := rsort vals in
        if Rltb thr (nth (length s / 2) s 0 - nth 0 s 0) then ScaleLog else ScaleOff
      else cur
  end.

(** The scaling of iteration [t]: [steps i] and [vals i] are [current_step] and [node_val] of
    iteration [i]. *)
Fixpoint scaling_at (user : option fscaling) (thr : R) (first : nat) (steps : nat -> nat) (vals : nat -> list R) (t : nat) : fscaling :=
  auto_scaling user thr first (steps t) (vals t)
    (match t with O => start_scaling user | S u => scaling_at user thr first steps vals u end).

(** 896-897: [settings.algorithm] is Gutmann ([true]) or MSRSM; the algorithm of an iteration
    with [k] nodes in dimension [n]. *)
Definition algorithm_at (gutmann : bool) (n k : nat) : bool :=
  if gutmann then negb (k <=? n)%nat else gutmann.
