(** * Parallel optimizer: the asynchronous main loop.

    Models rbfopt_algorithm.py [optimize_parallel] 1194-1806, the branch of [restart]
    1809-2045 that is used with a worker pool, [refinement_update_parallel] 2269-2324 and
    rbfopt_utils.py [results_ready], [get_one_ready_index] 2200-2255.  Node tables, counters,
    incumbents and the small updates are those of [ModelAlg] (the code shares them).

    Definitions only.

    The program is a step machine: [pstep] advances a program counter [pc] and a state
    [pst] by one loop iteration of one of the nested loops, with an input [pin] that
    contains everything the environment decides: which pending result is found ready
    (none, or any index), the answers of the black box and of the search tasks, sample
    points, success of the linear algebra, the clock.  All schedules of the workers are
    therefore sequences of inputs.
    Simplifications: a result that was ready may appear unready later (more schedules than
    the code has); surrogate predictions are arbitrary numbers ([q_pred]); the linear
    models, function scaling and the cross validation results only influence proposals and
    are not represented, except the number of stored cross-validation results
    ([p_cv]), which the error handling indexes; exceptions raised by the black box
    itself are not modelled; ticket numbers and [p_log] are ghost state. *)
From Verif Require Export ModelAlg.
From Verif Require Import ModelInit.
Open Scope Z_scope.

(** Iteration identifiers (strings in the code). *)
Inductive sid := SInit | SInf | SLocal | SAdj | SRefine | SGlobal.

(** One entry of [res_eval] 1221-1225: the result object (here: a ticket number and the
    point handed to the black box, both ghost), the point, [is_node_noisy], the iteration
    identifier. *)
Record task := mkTask {
  t_ticket : nat; t_at : point; t_pos : point; t_noisy : bool; t_id : sid }.

(** One entry of [res_search] 1226-1229.  [s_bad]: an assertion of the search routine on its
    arguments is violated (2543, 2809, rbfopt_refinement.py), so the worker raises and
    [res.get()] raises again. *)
Record stask := mkStask { s_noisy : bool; s_id : sid; s_bad : bool }.

(** Ghost log of the life of the evaluations, in order. *)
Inductive pev :=
| PSubmit (k : nat) (p : point) (noisy : bool) (id : sid)
                                                (* evaluation k of point p was submitted *)
| PAnswer (k : nat) (v : Q)                     (* its result was fetched, value v *)
| PRow (src : option nat) (p : point) (v : Q)   (* a row (p, v) was appended to the history;
                                                   it holds the result of evaluation src *)
| PUnrow (j : nat)                              (* row j of the history was removed *)
| PSuperseded (k : nat)                         (* result k dropped: an accurate evaluation
                                                   of the point is (said to be) under way *)
| PTooClose (k : nat).                          (* result k dropped: too close to a node *)

(** Local variables of [optimize_parallel] that live across passes. *)
Record ploc := mkPl {
  pend : list task;                              (* res_eval *)
  tpos : list point; tval : list Q; tnoisy : list bool;   (* temp_node_* *)
  srch : list stask;                             (* res_search *)
  tabu : list point;                             (* temp_node_tabu *)
  busy : bool;                                   (* refinement_in_progress *)
  rcount : Q;                                    (* refinement_itercount *)
  iid_set : bool;                                (* iid has been assigned in this call *)
  lc : loc }.                                    (* gap, err_l/err_u, itercount_at_start, pause *)

Record pst := mkP {
  p_s : st; p_cv : nat;       (* length of best_local_rbf_list = of best_global_rbf_list *)
  p_log : list pev; p_next : nat; p_k : ploc }.

(** Settings read only here. *)
Record pcfg := mkPcfg {
  base : cfg; rbf_auto : bool;       (* settings.rbf == 'auto' *)
  max_cross_validations : Z }.

(** Answer of a search task: a point (or none), and for a local search whether it was an
    adjusted one; or the request to evaluate node number [ind] at [p] again (local
    search in the accurate phase, 2455-2638). *)
Inductive sanswer := APoint (p : option point) (adj : bool) | AReeval (p : point) (ind : nat).

Record pin := mkPin {
  q_inp : inp;               (* clock, samples, answers, linear algebra, refinement data *)
  q_pick : option nat;       (* get_one_ready_index: a ready result, None if none is ready *)
  q_ans : sanswer;
  q_pred : Q }.              (* surrogate prediction for a temporary node *)

(** [results_ready] and [get_one_ready_index], rbfopt_utils.py 2200-2255, on a list of pending
    results: the last ready index.  Any index can be the last ready one. *)
Definition ready {A} (q : pin) (l : list A) : option nat :=
  match q_pick q with
  | Some j => if (j <? length l)%nat then Some j else None
  | None => None
  end.

(** Waiting in [restart] for the initial sample 1871-1905 / 1913-1938. *)
Record wait := mkWait {
  w_pend : list task; w_got : list (task * entry); w_need : Z;
  w_prev : list entry; w_inner : bool }.
(** Which call of [restart]: at the beginning 1250-1252, in the loop 1530-1550,
    after a failed linear system 1668-1690. *)
Inductive wkind := WStart (pause_after : Z) | WMid | WRest.

Inductive pc :=
| PcHead                       (* loop condition 1284-1290 *)
| PcEvals (before : Z)         (* while results_ready(res_eval) 1293-1369 *)
| PcSearches                   (* while results_ready(res_search) 1373-1505 *)
| PcPlan                       (* 1514-1529 *)
| PcPlan2                      (* 1552-1786 *)
| PcWait (k : wkind) (w : wait)
| PcFinal                      (* 1790-1805 *)
| PcDone
| PcCrash (e : err).

(** ** Updates *)
Definition set_s (s : st) (P : pst) : pst := mkP s (p_cv P) (p_log P) (p_next P) (p_k P).
Definition set_k (k : ploc) (P : pst) : pst := mkP (p_s P) (p_cv P) (p_log P) (p_next P) k.
Definition note (es : list pev) (P : pst) : pst :=
  mkP (p_s P) (p_cv P) (p_log P ++ es) (p_next P) (p_k P).
Definition set_next (m : nat) (P : pst) : pst := mkP (p_s P) (p_cv P) (p_log P) m (p_k P).
Definition set_cv (m : nat) (P : pst) : pst := mkP (p_s P) m (p_log P) (p_next P) (p_k P).

Definition set_gap (g : option Q) (l : loc) : loc := mkLoc g (errs l) (it_start l) (pause l).
Definition set_errs (e : Q * Q) (l : loc) : loc := mkLoc (gap l) (Some e) (it_start l) (pause l).
Definition k_lc (l : loc) (k : ploc) : ploc :=
  mkPl (pend k) (tpos k) (tval k) (tnoisy k) (srch k) (tabu k) (busy k) (rcount k) (iid_set k) l.
Definition k_tabu (t : list point) (k : ploc) : ploc :=
  mkPl (pend k) (tpos k) (tval k) (tnoisy k) (srch k) t (busy k) (rcount k) (iid_set k) (lc k).
(** End of a refinement: count it and clear the flag (1360-1361, 1432-1433). *)
Definition k_refined (k : ploc) : ploc :=
  mkPl (pend k) (tpos k) (tval k) (tnoisy k) (srch k) (tabu k) false (rcount k + 1)%Q
       (iid_set k) (lc k).
Definition k_busy (k : ploc) : ploc :=
  mkPl (pend k) (tpos k) (tval k) (tnoisy k) (srch k) (tabu k) true (rcount k) (iid_set k) (lc k).
Definition k_srch (l : list stask) (k : ploc) : ploc :=
  mkPl (pend k) (tpos k) (tval k) (tnoisy k) l (tabu k) (busy k) (rcount k) (iid_set k) (lc k).
(** [res_eval.pop(j)] and [np.delete] on the temporary arrays, 1296-1305. *)
Definition k_pop (j : nat) (k : ploc) : ploc :=
  mkPl (delete_at j (pend k)) (delete_at j (tpos k)) (delete_at j (tval k))
       (delete_at j (tnoisy k)) (srch k) (tabu k) (busy k) (rcount k) true (lc k).
(** [res_eval.append] and the appends to the temporary arrays, 1335-1343, 1488-1505. *)
Definition k_push (t : task) (v : Q) (k : ploc) : ploc :=
  mkPl (pend k ++ [t]) (tpos k ++ [t_pos t]) (tval k ++ [v]) (tnoisy k ++ [t_noisy t])
       (srch k) (tabu k) (busy k) (rcount k) (iid_set k) (lc k).
(** [np.clip(v, self.fmin, self.fmax)]. *)
Definition clip_val (v : Q) (s : st) : Q :=
  let v1 := match fmin (I s) with Some f => Qmax v f | None => v end in
  match fmax (I s) with Some f => Qmin v1 f | None => v1 end.

(** Equality of two points as arrays ([np.array_equal], [node_pos == next_p]). *)
Fixpoint same_point (p q : point) : bool :=
  match p, q with
  | [], [] => true
  | x :: p', y :: q' => Qeq_bool x y && same_point p' q'
  | _, _ => false
  end.
(** First matching row, [np.where(np.all(node_pos == next_p, axis=1))[0][0]] 1390-1394. *)
Fixpoint find_point (p : point) (i : nat) (ps : list point) : option nat :=
  match ps with
  | [] => None
  | q :: r => if same_point q p then Some i else find_point p (S i) r
  end.

(** Number of outstanding tasks, 1509. *)
Definition load (k : ploc) : Z := Z.of_nat (length (pend k) + length (srch k)).

(** ** [refinement_update_parallel] 2269-2324 (compare [ModelAlg.refinement_update]) *)
Definition refinement_update_parallel (c : cfg) (i : inp) (s : st) : res st :=
  let r := Rf s in
  let t := T s in
  let last := (length (node_pos t) - 1)%nat in
  let cons := num_cons_refinement r + 1 in
  match ref_radius r, ref_iterate_index r with
  | Some rad, Some it0 =>
      let rad' := new_radius c rad (i_model_impr i) (i_real_impr i) in
      let move := refine_move c (i_model_impr i) (i_real_impr i) in
      match (if move then Some true
             else option_map (fun rep => (rep =? it0)%nat)
                             (nth_error (ref_model_set r) (i_to_replace i))) with
      | None => Fail EIndex
      | Some mv =>
          let it1 := if mv then last else it0 in
          let sel := map (fun j => nth j (node_pos t) []) (ref_model_set r) in
          if mv && stale t (ref_model_set r) then Fail EIndex else
          let torep := if mv then farthest (nth it1 (node_pos t) []) sel
                       else i_to_replace i in
          let stop := Qltb rad' (ref_min_radius c) in
          let rep := nth torep (ref_model_set r) 0%nat in
          if negb stop && negb (i_rank_def i) && stale t [it1; rep] then Fail EIndex else
          let pit := nth it1 (node_pos t) [] in
          let replace := i_rank_def i ||
                         Qle_bool (sqdist (nth last (node_pos t) []) pit)
                                  (sqdist (nth rep (node_pos t) []) pit) in
          let cons' := if stop then 0 else cons in
          let mset := if negb stop && replace then set_at torep last (ref_model_set r)
                      else ref_model_set r in
          let fl := if cons' <? max_consecutive_refinement c then fmin (I s)
                    else fmin_last_refine r in
          Ok (set_R (mkRefs cons' mset (Some rad') (Some it1) (iter_last_refine r) fl) s)
      end
  | _, _ => Fail EIndex
  end.

(** ** A finished evaluation, 1293-1369.  [j] is the index returned by
    [get_one_ready_index]. *)
Definition take_eval (c : cfg) (q : pin) (j : nat) (P : pst) : res pst :=
  match nth_error (pend (p_k P)) j with
  | None => Fail EIndex
  | Some t =>
      let i := q_inp q in
      let '(v, el, eu) := if t_noisy t then i_nval i else (i_val i, 0, 0)%Q in
      let k0 := k_pop j (p_k P) in
      let k1 := if t_noisy t then k_lc (set_errs (el, eu) (lc k0)) k0 else k0 in
      let P1 := note [PAnswer (t_ticket t) v] (set_k k1 P) in
      let s := p_s P in
      match node_pos (T s) with
      | [] => Fail EAssert               (* get_min_distance: other_points.size *)
      | _ =>
        if near (min_dist c) (t_pos t) (node_pos (T s)) then
          Ok (note [PTooClose (t_ticket t)] P1)
        else if t_noisy t && existsb (fun p => same_point p (t_pos t)) (tabu k1) then
          Ok (note [PSuperseded (t_ticket t)]
                   (set_k (k_tabu (delete_at (nearest (t_pos t) (tabu k1)) (tabu k1)) k1) P1))
        else
          let po := to_orig c (t_pos t) in
          bind
            (if t_noisy t && require_accurate c s (v + el)%Q then
               let t' := mkTask (p_next P) po (t_pos t) false (t_id t) in
               Ok (note [PSuperseded (t_ticket t); PSubmit (p_next P) po false (t_id t)]
                     (set_next (S (p_next P))
                       (set_k (k_push t' (clip_val v s) k1)
                         (set_s (set_C (add_evals 1 0 (C s)) s) P1))))
             else
               let s1 := insert_node (t_pos t) po v (t_noisy t)
                                     (if t_noisy t then (el, eu) else (0, 0)%Q) s in
               bind (current_gap c s1) (fun g =>
               let s2 := log_value v g s1 in
               let k2 := k_lc (set_gap g (lc k1)) k1 in
               bind (match t_id t with
                     | SRefine => bind (refinement_update_parallel c i s2)
                                       (fun s3 => Ok (s3, k_refined k2))
                     | _ => Ok (s2, k2)
                     end) (fun sk =>
               Ok (note [PRow (Some (t_ticket t)) po v]
                        (set_k (snd sk) (set_s (fst sk) P1))))))
            (fun P2 => bind (end_of_pass c (p_s P2)) (fun s' => Ok (set_s s' P2)))
      end
  end.

(** ** A finished search task, 1373-1505 *)
(** Local search that asks for a re-evaluation, 1380-1401: remove the node at that
    position if there is one; unless the index was still right, put the point on
    the tabu list. *)
Definition reevaluate (c : cfg) (p : point) (ind : nat) (P : pst) : res pst :=
  let s := p_s P in
  let k := p_k P in
  let drop j := bind (remove_node j s) (fun s' =>
                Ok (note [PUnrow (nodes_at_restart (T s) + j)] (set_s s' P))) in
  let to_tabu Q0 := set_k (k_tabu (tabu (p_k Q0) ++ [p]) (p_k Q0)) Q0 in
  if (ind <? length (node_pos (T s)))%nat && same_point (nth ind (node_pos (T s)) []) p
  then drop ind
  else match find_point p 0 (node_pos (T s)) with
       | Some j => bind (drop j) (fun P1 => Ok (to_tabu P1))
       | None => Ok (to_tabu P)
       end.

(** No usable point: 1425-1437. *)
Definition discard_search (c : cfg) (id : sid) (P : pst) : pst :=
  let s := p_s P in
  let s1 := set_C (set_iter (itercount (C s) + 1)
                     (set_discarded (push_window (window c) (discarded (C s)) true) (C s))) s in
  match id with
  | SRefine => set_k (k_refined (p_k P)) (set_s (set_R (set_cons 0 (Rf s1)) s1) P)
  | _ => set_s s1 P
  end.

(** Reuse of an evaluation made before the last restart, 1448-1479 (the save comes before
    the other updates; [err_l], [err_u] and [iid] are whatever the last evaluation left). *)
Definition reuse_old (c : cfg) (p po : point) (j : nat) (P : pst) : res pst :=
  let s := p_s P in
  let v := nth j (all_val (T s)) 0%Q in
  let noisy := nth j (all_is_noisy (T s)) false in
  bind (if noisy then match errs (lc (p_k P)) with
                      | None => Fail EName
                      | Some e => Ok (insert_node p po v true e s)
                      end
        else Ok (add_node p po v s)) (fun s1 =>
  bind (current_gap c s1) (fun g =>
  if negb (iid_set (p_k P)) then Fail EName else
  let s2 := log_value v g s1 in
  let s3 := set_C (set_iter (itercount (C s2) + 1) (C s2)) s2 in
  if save_state_interval c =? 0 then Fail EZeroDiv else
  let s4 := if itercount (C s3) mod save_state_interval c =? 0
            then emit [EvSave (itercount (C s3))] s3 else s3 in
  Ok (note [PRow None po v]
        (set_k (k_lc (set_gap g (lc (p_k P))) (p_k P))
               (set_s (phase_update c (stalling_update c s4)) P))))).

(** Submission of the point for evaluation, 1480-1505. *)
Definition submit_point (c : cfg) (q : pin) (p po : point) (noisy : bool) (id : sid) (P : pst)
  : pst :=
  let s := p_s P in
  let t := mkTask (p_next P) po p noisy id in
  let k1 := set_discarded (push_window (window c) (discarded (C s)) false)
              (if noisy then add_evals 0 1 (C s) else add_evals 1 0 (C s)) in
  note [PSubmit (p_next P) po noisy id]
    (set_next (S (p_next P))
      (set_k (k_push t (clip_val (q_pred q) s) (p_k P)) (set_s (set_C k1 s) P))).

(** Use of the proposed point (not none), 1419-1505. *)
Definition use_point (c : cfg) (q : pin) (p0 : point) (noisy : bool) (id : sid) (P : pst)
  : res pst :=
  let p := clip p0 (l_lower c) (l_upper c) in
  let s := p_s P in
  match node_pos (T s) with
  | [] => Fail EAssert
  | _ =>
      if near (min_dist c) p (node_pos (T s)) || near (min_dist c) p (tpos (p_k P))
      then Ok (discard_search c id P)
      else
        let po := to_orig c p in
        match lookup_old c (T s) po with
        | Some j =>
            if noisy || negb (nth j (all_is_noisy (T s)) false)
            then reuse_old c p po j P
            else Ok (submit_point c q p po noisy id P)
        | None => Ok (submit_point c q p po noisy id P)
        end
  end.

Definition take_search (c : cfg) (q : pin) (j : nat) (P : pst) : res pst :=
  match nth_error (srch (p_k P)) j with
  | None => Fail EIndex
  | Some e =>
      let P1 := set_k (k_srch (delete_at j (srch (p_k P))) (p_k P)) P in
      if s_bad e then Fail EAssert else
      match q_ans q with
      | APoint None _ => Ok (discard_search c (s_id e) P1)
      | APoint (Some p) adj =>
          let id := match s_id e with SLocal => if adj then SAdj else SLocal | x => x end in
          use_point c q p (s_noisy e) id P1
      | AReeval p ind =>
          match s_id e with
          | SLocal =>
              if has_noisy c && negb (s_noisy e) then
                bind (reevaluate c p ind P1) (fun P2 =>
                use_point c q p (s_noisy e) SLocal P2)
              else use_point c q p (s_noisy e) SLocal P1
          | id => use_point c q p (s_noisy e) id P1
          end
      end
  end.

(** ** Restart with a pool, 1840-2045 *)
Fixpoint submit_from (m : nat) (noisy : bool) (pts : list point) : list task :=
  match pts with
  | [] => []
  | p :: r => mkTask m p p noisy SInit :: submit_from (S m) noisy r
  end.

(** Up to the submission of the sample, 1840-1880 / 1907-1917. *)
Definition restart_begin (c : cfg) (q : pin) (kind : wkind) (P : pst) : res (pc * pst) :=
  let s := p_s P in
  let k1 := set_restarts (num_noisy_restarts (C s) + (if noisy_mode (C s) then 1 else 0)) (C s) in
  let t0 := T s in
  let t1 := mkTabs (node_pos t0) (node_val t0) (node_is_noisy t0) (node_err t0)
                   (all_pos t0) (all_val t0) (all_is_noisy t0) (all_err t0)
                   (length (all_pos t0)) in
  let s1 := mkSt t1 (I s) k1 (Rf s) (trace s ++ [EvRestart]) in
  if (0 <? itercount k1) || do_init_strategy c then
    match i_samples (q_inp q) with
    | None => Fail ERuntime
    | Some pts =>
        let old := firstn (nodes_at_restart t1) (all_pos t1) in
        let (new, prev) :=
          if (nodes_at_restart t1 =? 0)%nat then (pts, [])
          else remove_existing c (noisy_mode k1) t1 old pts in
        let acc := restart_accurate c k1 in
        let ts := submit_from (p_next P) (negb acc) new in
        let m := Z.of_nat (length new) in
        let need := min_num_init_samples_parallel (init_sample_fraction c) (n c) -
                    Z.of_nat (length prev) in
        Ok (PcWait kind (mkWait ts [] need prev false),
            note (map (fun t => PSubmit (t_ticket t) (t_at t) (t_noisy t) (t_id t)) ts)
              (set_next (p_next P + length new)
                (set_s (set_C (if acc then add_evals m 0 k1 else add_evals 0 m k1) s1) P)))
    end
  else Ok (PcWait kind (mkWait [] [] 0 [] false), set_s s1 P).

(** One result arrives during the wait, 1885-1893: the row is stored under the point of
    the task, flagged with the evaluation mode (1940-1941). *)
Definition take_init (q : pin) (j : nat) (w : wait) (P : pst) : res (wait * pst) :=
  match nth_error (w_pend w) j with
  | None => Fail EIndex
  | Some t =>
      let i := q_inp q in
      let '(v, el, eu) := if t_noisy t then i_nval i else (i_val i, 0, 0)%Q in
      let e := (t_pos t, v, noisy_mode (C (p_s P)), (el, eu)) in
      Ok (mkWait (delete_at j (w_pend w)) (w_got w ++ [(t, e)]) (w_need w) (w_prev w) true,
          note [PAnswer (t_ticket t) v] P)
  end.

(** User points, 1950-1995: when their values are not supplied, each is evaluated by
    [pool.map] (submitted, answered and recorded at once). *)
Definition user_log (evaluated : bool) (m : nat) (usr : list entry) : list pev :=
  if evaluated
  then flat_map (fun je => [PSubmit (m + fst je) (e_pos (snd je)) false SInit;
                            PAnswer (m + fst je) (e_val (snd je));
                            PRow (Some (m + fst je)%nat) (e_pos (snd je)) (e_val (snd je))])
                (indexed 0 usr)
  else map (fun e => PRow None (e_pos e) (e_val e)) usr.

(** The rest of [restart], 1895-2044, and what the caller does next: the temporary
    arrays are rebuilt from the unfinished evaluations (1254-1268, 1532-1550,
    1673-1690); the surrogate evaluation there may raise LinAlgError (not caught). *)
Definition restart_finish (c : cfg) (q : pin) (kind : wkind) (w : wait) (P : pst)
  : res (pc * pst) :=
  let s := p_s P in
  let gen := map snd (w_got w) ++ w_prev w in
  let '(usr, _, nu) := restart_user c (C s) gen (q_inp q) in
  let rows := gen ++ usr in
  match rows with
  | [] => Fail EValue
  | _ =>
      let t2 := restart_tabs c (T s) rows in
      let i2 := restart_incs t2 (I s) in
      let k2 := restart_ctrs c (fmin i2) (add_evals nu 0 (C s)) in
      let r2 := restart_refs (fmin i2) (itercount (C s)) (Rf s) in
      let s2 := mkSt t2 i2 k2 r2 (trace s) in
      bind (current_gap c s2) (fun g =>
      if (length rows =? 1)%nat then Fail EAssert else
      if negb (length (w_pend w) =? 0)%nat && negb (i_lin_ok (q_inp q)) then Fail ERuntime else
      let s3 := log_all (node_val t2) g s2 in
      let k := p_k P in
      let ts := w_pend w in
      let evaluated := 0 <? nu in
      let P1 := note (map (fun te => PRow (Some (t_ticket (fst te))) (e_pos (snd te)) (e_val (snd te)))
                          (w_got w) ++
                      map (fun e => PRow None (e_pos e) (e_val e)) (w_prev w) ++
                      user_log evaluated (p_next P) usr)
                     (set_next (if evaluated then p_next P + length usr else p_next P)%nat
                               (set_s s3 P)) in
      let lists := mkPl ts (map t_pos ts) (map (fun _ => clip_val (q_pred q) s3) ts)
                        (map t_noisy ts) (srch k) [] (busy k) (rcount k) (iid_set k) (lc k) in
      match kind with
      | WMid => Ok (PcPlan2, set_k lists P1)
      | WRest => Ok (PcHead, set_k lists P1)
      | WStart pa =>
          (* the gap is computed again from the same data, 1276-1277 *)
          Ok (PcHead, set_k (k_lc (mkLoc g None (itercount (C s3)) pa) lists) P1)
      end)
  end.

Definition wait_step (c : cfg) (q : pin) (kind : wkind) (w : wait) (P : pst) : res (pc * pst) :=
  let enough := w_need w <=? Z.of_nat (length (w_got w)) in
  if enough && negb (w_inner w) then restart_finish c q kind w P
  else match ready q (w_pend w) with
       | Some j => bind (take_init q j w P) (fun wP => Ok (PcWait kind (fst wP), snd wP))
       | None => if enough then restart_finish c q kind w P
                 else Ok (PcWait kind (mkWait (w_pend w) (w_got w) (w_need w) (w_prev w) false), P)
       end.

(** ** Planning *)
(** Restart test 1518-1529; the window is measured with the number of CPUs. *)
Definition must_restart_parallel (c : cfg) (k : ctrs) : bool :=
  (current_step k <=? first_step c) &&
  (((discarded_window_size c * num_cpus c <=? 2 * Z.of_nat (length (discarded k))) &&
    Qle_bool (max_fraction_discarded c * inject_Z (Z.of_nat (length (discarded k))))%Q
             (inject_Z (Z.of_nat (count_true (discarded k))))) ||
   ((max_stalled_iterations c <=? num_stalled_iter k) &&
    (evalcount k + 3 * (Z.of_nat (n c) + 1 + cycle_length c) <? max_evaluations c) &&
    (cyclecount k <? max_cycles c - 1))).
Definition idle (k : ploc) : bool := (length (pend k) =? 0)%nat && (length (srch k) =? 0)%nat.

(** 1514-1529. *)
Definition plan (c : cfg) (q : pin) (P : pst) : res (pc * pst) :=
  let k := C (p_s P) in
  if skip_step c k then Ok (PcHead, set_s (advance_st c (p_s P)) P)
  else if must_restart_parallel c k then
         if idle (p_k P) then restart_begin c q WMid P else Ok (PcHead, P)
       else Ok (PcPlan2, P).

(** Number of nodes including the temporary ones, 1553-1559. *)
Definition n_all (P : pst) : nat := (length (node_pos (T (p_s P))) + length (tpos (p_k P)))%nat.
Definition stale_all (P : pst) (js : list nat) : bool := existsb (fun j => (n_all P <=? j)%nat) js.

(** Cross validation of the RBF type, 1589-1625: effect on the lists. *)
Definition cross_validate (pc0 : pcfg) (P : pst) : pst :=
  let c := base pc0 in
  if rbf_auto pc0 && (Z.of_nat (n c) + 2 <? Z.of_nat (n_all P)) &&
     (current_step (C (p_s P)) <=? first_step c) &&
     (Z.of_nat (p_cv P) <? max_cross_validations pc0)
  then set_cv (S (p_cv P)) P else P.

(** 1637-1672: linear algebra and its failure. *)
Inductive lin := LGo (P : pst) | LNext (P : pst) | LFail (e : err).
Definition linear_phase (c : cfg) (q : pin) (P : pst) : lin :=
  let s := p_s P in
  let k := C s in
  if i_lin_ok (q_inp q) then LGo P
  else if (Z.of_nat (n c) + 1 <=? Z.of_nat (n_all P)) && negb (solve_underdetermined k)
       then LNext (set_s (set_C (set_underdet true k) s) P)
       else if (p_cv P =? 0)%nat then LFail EIndex    (* list[-1] of an empty list *)
            else LGo (set_s (set_C (set_step (restoration_step c) k) s) P).

(** A search is submitted, 1716-1776. *)
Definition submit_search (id : sid) (bad : bool) (P : pst) : pst :=
  let e := mkStask (noisy_mode (C (p_s P))) id bad in
  set_k (k_srch (srch (p_k P) ++ [e]) (p_k P)) P.

(** [node_val[ref_iterate_index]] in the list with temporary nodes. *)
Definition value_all (P : pst) (j : nat) : option Q :=
  nth_error (node_val (T (p_s P)) ++ tval (p_k P)) j.

(** Start or continue refinement, 1697-1735. *)
Definition plan_refinement (c : cfg) (q : pin) (P : pst) : res (pc * pst) :=
  let s := p_s P in
  let r := Rf s in
  let i := q_inp q in
  let first := num_cons_refinement r =? 0 in
  bind (if first then Ok true
        else match ref_iterate_index r with
             | None => Fail EIndex
             | Some j => match value_all P j with
                         | None => Fail EIndex
                         | Some v => Ok (match fmin (I s) with
                                         | None => false
                                         | Some f => improves (eps_impr c) f v
                                         end)
                         end
             end) (fun init =>
  if init && stale (T s) [fmin_index (I s)] then Fail EIndex
  else if init && (length (node_pos (T s)) <? 2)%nat then Fail EAssert else
  let s1 := if init
            then set_R (mkRefs (num_cons_refinement r) (i_ref_set i) (Some (i_ref_radius i))
                               (Some (fmin_index (I s)))
                               (iter_last_refine r) (fmin_last_refine r)) s
            else s in
  let P1 := set_s s1 P in
  if stale_all P (ref_model_set (Rf s1)) then Fail EIndex
  else if negb (i_ref_ok i) then Ok (PcHead, set_s (advance_st c s1) P1)
  else let bad := match ref_iterate_index (Rf s1) with
                  | Some j => stale_all P [j] | None => true end in
       let P2 := submit_search SRefine bad P1 in
       Ok (PcHead, set_k (k_busy (p_k P2)) P2)).

(** 1552-1786. *)
Definition plan2 (pc0 : pcfg) (q : pin) (P0 : pst) : res (pc * pst) :=
  let c := base pc0 in
  match linear_phase c q (cross_validate pc0 P0) with
  | LFail e => Fail e
  | LNext P => Ok (PcHead, P)
  | LGo P =>
      let s := p_s P in
      let k := C s in
      let z := current_step k in
      if z =? restoration_step c then
        if idle (p_k P)
        then restart_begin c q WRest (set_s (set_C (set_underdet false k) s) P)
        else Ok (PcHead, P)
      else if negb (busy (p_k P)) &&
              Qle_bool (rcount (p_k P))
                       (inject_Z (itercount k) / inject_Z (refinement_frequency c))%Q
      then plan_refinement c q P
      else
        let bad := stale_all P [fmin_index (I s)] in
        let P1 := if z =? inf_step then submit_search SInf false P
                  else if z =? local_search_step c then submit_search SLocal bad P
                  else submit_search SGlobal bad P in
        Ok (PcHead, set_s (advance_st c (p_s P1)) P1)
  end.

(** ** Shutdown, 1790-1805: each evaluation that is still pending is waited for and
    recorded, in order.  For a noisy one [next_val] is the triple returned by
    [evaluate_noisy], and [max(self.fmax, value)] in [add_noisy_node] raises (before
    that, unassigned [err_l] raises). *)
Definition final_step (c : cfg) (q : pin) (P : pst) : res (pc * pst) :=
  match pend (p_k P) with
  | [] => Ok (PcDone, P)
  | t :: r =>
      let s := p_s P in
      let k := p_k P in
      match node_pos (T s) with
      | [] => Fail EAssert
      | _ =>
          if t_noisy t then
            match errs (lc k) with None => Fail EName | Some _ => Fail EValue end
          else
            let v := i_val (q_inp q) in
            let po := to_orig c (t_pos t) in
            let s1 := add_node (t_pos t) po v s in
            bind (current_gap c s1) (fun g =>
            let s2 := log_value v g s1 in
            let s3 := set_C (set_iter (itercount (C s2) + 1) (C s2)) s2 in
            let k1 := mkPl r (tpos k) (tval k) (tnoisy k) (srch k) (tabu k) (busy k)
                           (rcount k) (iid_set k) (set_gap g (lc k)) in
            Ok (PcFinal, note [PAnswer (t_ticket t) v; PRow (Some (t_ticket t)) po v]
                              (set_k k1 (set_s s3 P))))
      end
  end.

(** ** One step of the machine *)
Definition finish_step (r : res (pc * pst)) (P : pst) : pc * pst :=
  match r with Ok x => x | Fail e => (PcCrash e, P) end.

Definition pstep (pc0 : pcfg) (q : pin) (m : pc) (P : pst) : pc * pst :=
  let c := base pc0 in
  match m with
  | PcHead =>
      if loop_cond c (p_s P) (lc (p_k P)) (i_clock_ok (q_inp q))
      then (PcEvals (itercount (C (p_s P))), P) else (PcFinal, P)
  | PcEvals b =>
      match ready q (pend (p_k P)) with
      | Some j => finish_step (bind (take_eval c q j P) (fun P' => Ok (PcEvals b, P'))) P
      | None => if b <? itercount (C (p_s P)) then (PcHead, P) else (PcSearches, P)
      end
  | PcSearches =>
      match ready q (srch (p_k P)) with
      | Some j => finish_step (bind (take_search c q j P) (fun P' => Ok (PcSearches, P'))) P
      | None => if num_cpus c <=? load (p_k P) then (PcHead, P) else (PcPlan, P)
      end
  | PcPlan => finish_step (plan c q P) P
  | PcPlan2 => finish_step (plan2 pc0 q P) P
  | PcWait kind w => finish_step (wait_step c q kind w P) P
  | PcFinal => finish_step (final_step c q P) P
  | PcDone => (PcDone, P)
  | PcCrash e => (PcCrash e, P)
  end.

(** Beginning of a call, 1211-1281. *)
Definition empty_loc (c : cfg) (s : st) (pa : Z) : ploc :=
  mkPl [] [] [] [] [] [] false (inject_Z (itercount (C s)) / inject_Z (refinement_frequency c))%Q
       false (mkLoc None None (itercount (C s)) pa).
Definition pstart (pc0 : pcfg) (q : pin) (pa : Z) (P : pst) : pc * pst :=
  let c := base pc0 in
  let P1 := set_k (empty_loc c (p_s P) pa) P in
  if refinement_frequency c =? 0 then (PcCrash EZeroDiv, P)
  else if itercount (C (p_s P)) =? 0
       then finish_step (restart_begin c q (WStart pa) P1) P
       else match current_gap c (p_s P) with
            | Fail e => (PcCrash e, P)
            | Ok g => (PcHead, set_k (k_lc (mkLoc g None (itercount (C (p_s P))) pa) (p_k P1)) P1)
            end.

(** A fresh optimizer. *)
Definition pinit (c : cfg) : pst :=
  mkP (init_st c) 0 [] 0 (empty_loc c (init_st c) 0).

(** Machine runs on a list of inputs. *)
Fixpoint prun (pc0 : pcfg) (qs : list pin) (m : pc) (P : pst) : pc * pst :=
  match qs with
  | [] => (m, P)
  | q :: r => let '(m', P') := pstep pc0 q m P in prun pc0 r m' P'
  end.

(** Every state a sequence of [optimize] calls can pass through, for every schedule; a new
    call starts where an earlier one returned.  [ok] restricts the environment. *)
Inductive preach (pc0 : pcfg) (ok : pin -> Prop) : pc -> pst -> Prop :=
| pr_start : forall q pa m P, ok q ->
    pstart pc0 q pa (pinit (base pc0)) = (m, P) -> preach pc0 ok m P
| pr_again : forall q pa P0 m P, ok q ->
    preach pc0 ok PcDone P0 -> pstart pc0 q pa P0 = (m, P) -> preach pc0 ok m P
| pr_step : forall q m0 P0 m P, ok q ->
    preach pc0 ok m0 P0 -> pstep pc0 q m0 P0 = (m, P) -> preach pc0 ok m P.
Definition any_pin : pin -> Prop := fun _ => True.
