(** * Specification vocabulary for the parallel optimizer (see [ModelParallel] for the events
    of the log [p_log]).  Written from the English properties. *)
From Verif Require Export ModelParallel SpecAlg.
From Verif Require Import ModelInit.
Open Scope Z_scope.

(** Numbers of the evaluations submitted so far, in order. *)
Fixpoint submitted (log : list pev) : list nat :=
  match log with
  | [] => []
  | PSubmit k _ _ _ :: r => k :: submitted r
  | _ :: r => submitted r
  end.
(** Evaluations whose fate is decided: recorded, superseded or rejected. *)
Fixpoint settled (log : list pev) : list nat :=
  match log with
  | [] => []
  | PRow (Some k) _ _ :: r => k :: settled r
  | PSuperseded k :: r => k :: settled r
  | PTooClose k :: r => k :: settled r
  | _ :: r => settled r
  end.
(** Evaluations still being computed, or (during initialization) received and not yet
    recorded. *)
Definition outstanding (m : pc) (P : pst) : list nat :=
  map t_ticket (pend (p_k P)) ++
  match m with
  | PcWait _ w => map t_ticket (w_pend w) ++ map (fun te => t_ticket (fst te)) (w_got w)
  | _ => []
  end.
(** Number of submissions of each kind. *)
Fixpoint accurate_submissions (log : list pev) : Z :=
  match log with
  | [] => 0
  | PSubmit _ _ false _ :: r => 1 + accurate_submissions r
  | _ :: r => accurate_submissions r
  end.
Fixpoint noisy_submissions (log : list pev) : Z :=
  match log with
  | [] => 0
  | PSubmit _ _ true _ :: r => 1 + noisy_submissions r
  | _ :: r => noisy_submissions r
  end.
(** The history (points and values) that the log describes: rows are appended, and removed by
    their position. *)
Fixpoint replay (log : list pev) (h : list (point * Q)) : list (point * Q) :=
  match log with
  | [] => h
  | PRow _ p v :: r => replay r (h ++ [(p, v)])
  | PUnrow j :: r => replay r (delete_at j h)
  | _ :: r => replay r h
  end.

(** The call has not raised an exception. *)
Definition no_error (m : pc) : Prop := forall e, m <> PcCrash e.
(** The main loop (or the wait for initial points) is still running. *)
Definition in_loop (m : pc) : Prop := m <> PcFinal /\ m <> PcDone.
(** Evaluations of initial points that are still pending. *)
Definition initial_pending (k : ploc) : list task :=
  filter (fun t => match t_id t with SInit => true | _ => false end) (pend k).

(** A workers' schedule respects the domain: sample points lie in the box and proposals
    have the right dimension. *)
Definition proposes (q : pin) (p : point) : Prop :=
  q_ans q = AReeval p 0 \/ (exists ind, q_ans q = AReeval p ind) \/ exists adj, q_ans q = APoint (Some p) adj.

(** States of one call of [optimize] that starts from state [P0] with
    [pause_after_iters = pa]. *)
Inductive pduring (pc0 : pcfg) (ok : pin -> Prop) (pa : Z) (P0 : pst) : pc -> pst -> Prop :=
| pd_start : forall q m P, ok q -> pstart pc0 q pa P0 = (m, P) -> pduring pc0 ok pa P0 m P
| pd_step : forall q m P m' P', ok q -> pduring pc0 ok pa P0 m P ->
    pstep pc0 q m P = (m', P') -> pduring pc0 ok pa P0 m' P'.
(** The optimizer is fresh, or an earlier call returned in this state. *)
Definition may_call (pc0 : pcfg) (ok : pin -> Prop) (P0 : pst) : Prop :=
  P0 = pinit (base pc0) \/ preach pc0 ok PcDone P0.
(** Every initial sample has at most [S] points. *)
Definition samples_upto (S : nat) (q : pin) : Prop :=
  forall pts, i_samples (q_inp q) = Some pts -> (length pts <= S)%nat.
(** Every initial sample has at least the number of points that the restart waits for. *)
Definition samples_from (c : cfg) (q : pin) : Prop :=
  forall pts, i_samples (q_inp q) = Some pts ->
    min_num_init_samples_parallel (init_sample_fraction c) (n c) <= Z.of_nat (length pts).
(** Number of evaluations submitted on behalf of the refinement step. *)
Definition refine_submissions (log : list pev) : nat :=
  length (filter (fun e => match e with PSubmit _ _ _ SRefine => true | _ => false end) log).
(** A refinement search or the evaluation of its point is under way. *)
Definition refining (k : ploc) : Prop :=
  (exists t, In t (pend k) /\ t_id t = SRefine) \/ (exists e, In e (srch k) /\ s_id e = SRefine).
(** The point [p] lies in the box given by the user. *)
Definition inside (c : cfg) (p : point) : Prop :=
  length p = length (var_lower c) /\
  forall j, (j < length (var_lower c))%nat ->
    (nth j (var_lower c) 0 <= nth j p 0 <= nth j (var_upper c) 0)%Q.

(** [later pc0 ok m P m' P']: the optimizer gets from [(m, P)] to [(m', P')] by any number of steps and new calls. *)
Inductive later (pc0 : pcfg) (ok : pin -> Prop) (m0 : pc) (P0 : pst) : pc -> pst -> Prop :=
| lt_same : later pc0 ok m0 P0 m0 P0
| lt_step : forall q m P m' P', ok q -> later pc0 ok m0 P0 m P -> pstep pc0 q m P = (m', P') -> later pc0 ok m0 P0 m' P'
| lt_call : forall q pa P m' P', ok q -> later pc0 ok m0 P0 PcDone P -> pstart pc0 q pa P = (m', P') -> later pc0 ok m0 P0 m' P'.
