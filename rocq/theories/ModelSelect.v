(** * Choice of the surrogate model and of the scaling of the values during a run.

    Models the part of the main loops of [optimize_serial] (rbfopt_algorithm.py 882-990) and
    [optimize_parallel] (1563-1670) that chooses the radial basis function, the function
    scaling and the search algorithm of each iteration, and the part of the constructor
    (336-342) that initializes it.  Definitions only.

    Simplifications: a model (name, shape parameter) is an element of an arbitrary type [M]
    with a Boolean equality (Python's equality of tuples); 'failed' is [None]; the two cross
    validations of an iteration are functions from the current settings to (returned model,
    settings left behind) - [ModelRBF.get_best_rbf_model] is one; whether the linear system
    of an iteration can be solved is an input. *)
From Verif Require Export ModelInit.

(** What an iteration sees: number of nodes, position in the cycle, the two cross
    validations, and whether the computation of the model raises LinAlgError. *)
Record sel_in (M : Type) := mkSelIn {
  o_k : nat; o_step : nat;
  o_local : M -> M * M; o_global : M -> M * M;
  o_fails : bool }.
Arguments mkSelIn {M}. Arguments o_k {M}. Arguments o_step {M}.
Arguments o_local {M}. Arguments o_global {M}. Arguments o_fails {M}.

(** [settings.rbf == 'auto'], n, first_step, local_search_step, max_cross_validations, the
    pair of 339-340 and the pair ('cubic', 0.1) of 936, 941. *)
Record sel_cfg (M : Type) := mkSelCfg {
  c_auto : bool; c_n : nat; c_first : nat; c_localstep : nat; c_maxcv : nat;
  c_init : M; c_fallback : M }.
Arguments mkSelCfg {M}. Arguments c_auto {M}. Arguments c_n {M}. Arguments c_first {M}.
Arguments c_localstep {M}. Arguments c_maxcv {M}. Arguments c_init {M}. Arguments c_fallback {M}.

(** [best_local_rbf], [best_global_rbf], [best_local_rbf_list], [best_global_rbf_list], and
    the pair stored in [l_settings]. *)
Record sel_state (M : Type) := mkSel {
  best_local : M; best_global : M;
  local_list : list (option M); global_list : list (option M);
  current : M }.
Arguments mkSel {M}. Arguments best_local {M}. Arguments best_global {M}.
Arguments local_list {M}. Arguments global_list {M}. Arguments current {M}.

(** 336-342. *)
Definition sel_start {M} (c : sel_cfg M) : sel_state M :=
  mkSel (c_init c) (c_init c) [] [] (c_init c).

(** Python's [==] on entries of the lists: a tuple never equals 'failed'. *)
Definition entry_eqb {M} (eqb : M -> M -> bool) (a b : option M) : bool :=
  match a, b with
  | Some x, Some y => eqb x y
  | None, None => true
  | _, _ => false
  end.

(** 931-941: [get_most_common_element(list, ['failed'])], or ('cubic', 0.1). *)
Definition most_frequent {M} (eqb : M -> M -> bool) (fallback : M) (l : list (option M)) : M :=
  match most_common (entry_eqb eqb) l [None] with Some (Some m) => m | _ => fallback end.

(** 910-914. *)
Definition sel_due {M} (c : sel_cfg M) (s : sel_state M) (o : sel_in M) : bool :=
  (c_auto c && (c_n c + 2 <? o_k o)%nat && (o_step o <=? c_first c)%nat &&
   (length (local_list s) <? c_maxcv c)%nat)%bool.

(** 915-941: the second cross validation starts from the settings left by the first. *)
Definition select {M} (eqb : M -> M -> bool) (c : sel_cfg M) (s : sel_state M) (o : sel_in M)
  : sel_state M :=
  let (bl, after) := o_local o (current s) in
  let (bg, left) := o_global o after in
  let ll := local_list s ++ [Some bl] in
  let gl := global_list s ++ [Some bg] in
  if (length ll =? c_maxcv c)%nat
  then mkSel (most_frequent eqb (c_fallback c) ll) (most_frequent eqb (c_fallback c) gl) ll gl left
  else mkSel bl bg ll gl left.

(** 943-951. *)
Definition use_model {M} (c : sel_cfg M) (s : sel_state M) (o : sel_in M) : sel_state M :=
  mkSel (best_local s) (best_global s) (local_list s) (global_list s)
    (if (c_localstep c - 1 <=? o_step o)%nat then best_local s else best_global s).

(** [l[-1] = 'failed']; IndexError ([None]) on an empty list. *)
Definition fail_last {M} (l : list (option M)) : option (list (option M)) :=
  match l with [] => None | _ => Some (removelast l ++ [None]) end.

(** 953, 978-984 (serial).  Only steps up to the local search compute the model. *)
Definition mark_serial {M} (c : sel_cfg M) (s : sel_state M) (o : sel_in M) : sel_state M :=
  if (o_fails o && (o_step o <=? c_localstep c)%nat)%bool then
    match ((c_localstep c - 1 <=? o_step o)%nat, fail_last (local_list s), fail_last (global_list s)) with
    | (true, Some ll, _) => mkSel (best_local s) (best_global s) ll (global_list s) (current s)
    | (_, _, Some gl) => mkSel (best_local s) (best_global s) (local_list s) gl (current s)
    | _ => s
    end
  else s.

(** 1658-1667 (parallel): reached when the failure is not answered by switching to the
    underdetermined systems ([o_fails] here); [None]: IndexError leaves [optimize]. *)
Definition mark_parallel {M} (c : sel_cfg M) (s : sel_state M) (o : sel_in M) : option (sel_state M) :=
  if o_fails o then
    if (c_localstep c - 1 <=? o_step o)%nat
    then match fail_last (local_list s) with
         | Some ll => Some (mkSel (best_local s) (best_global s) ll (global_list s) (current s))
         | None => None
         end
    else match fail_last (global_list s) with
         | Some gl => Some (mkSel (best_local s) (best_global s) (local_list s) gl (current s))
         | None => None
         end
  else Some s.

(** The state in which the model of the iteration is computed (882-951): [current] is the
    model in use. *)
Definition sel_before {M} (eqb : M -> M -> bool) (c : sel_cfg M) (s : sel_state M) (o : sel_in M)
  : sel_state M :=
  use_model c (if sel_due c s o then select eqb c s o else s) o.
Definition sel_serial {M} eqb (c : sel_cfg M) s o : sel_state M := mark_serial c (sel_before eqb c s o) o.
Definition sel_parallel {M} eqb (c : sel_cfg M) s o : option (sel_state M) := mark_parallel c (sel_before eqb c s o) o.

(** The state at the beginning of iteration [t], for a sequence of iterations (of one or
    several calls of [optimize]: nothing resets these attributes). *)
Fixpoint serial_at {M} eqb (c : sel_cfg M) (os : nat -> sel_in M) (t : nat) : sel_state M :=
  match t with O => sel_start c | S u => sel_serial eqb c (serial_at eqb c os u) (os u) end.
Fixpoint parallel_at {M} eqb (c : sel_cfg M) (os : nat -> sel_in M) (t : nat) : option (sel_state M) :=
  match t with
  | O => Some (sel_start c)
  | S u => match parallel_at eqb c os u with Some s => sel_parallel eqb c s (os u) | None => None end
  end.
(** The model in use in iteration [t], and whether it performs the cross validations. *)
Definition used_at {M} eqb (c : sel_cfg M) os t : M := current (sel_before eqb c (serial_at eqb c os t) (os t)).
Definition validates_at {M} eqb (c : sel_cfg M) os t : bool := sel_due c (serial_at eqb c os t) (os t).
