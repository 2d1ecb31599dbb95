(** * Why [optimize] stops: C146.  Vocabulary: [SpecStop]. *)
From Verif Require Import StopProofs ParStop.
From Verif Require Import WitnessAlg.
From Verif Require Import PropertiesPar WitnessPar.
From Coq Require Import Lia Lqa.
Open Scope Z_scope.

(** ** C146: the loop condition *)
(** The main loop is left exactly when a limit is reached or the gap last computed is at most [eps_opt]. *)
Theorem C146_stops_iff : forall c i s l, pass c i s l = Stop <->
  limit_reached c (it_start l) (pause l) s (i_clock_ok i) \/ (exists g, gap l = Some g /\ (g <= eps_opt c)%Q).
Proof. intros c i s l. rewrite pass_stop. apply loop_cond_false. Qed.
Print Assumptions C146_stops_iff.

(** ** C146: a call returns only for a limit or because its result is within the target *)
Theorem C146_reason_to_stop : forall c (ok : inp -> Prop) i0 pa is s0 l0 s',
  has_noisy c = false -> (0 <= min_dist c)%Q -> (0 < eps_zero c)%Q ->
  ok i0 -> Forall ok is -> s0 = init_st c \/ reach c ok s0 l0 -> call c i0 pa is s0 = Done s' ->
  exists i, In i is /\ (limit_reached c (itercount (C s0)) pa s' (i_clock_ok i) \/ target_met c s').
Proof. exact call_stops. Qed.
Print Assumptions C146_reason_to_stop.
Definition is_hit : list inp := [prop [4%Q] 3%Q (nz 0); prop [6%Q] (-(199#2))%Q (nz 0); dflt_inp].
Definition s_hit : st := at_state (wcfg kn0) (call0 kn0 dflt_inp is_hit).
Example C146_reason_case : has_noisy (wcfg kn0) = false /\ (0 <= min_dist (wcfg kn0))%Q /\ (0 < eps_zero (wcfg kn0))%Q /\
  call (wcfg kn0) dflt_inp 1000 is_hit (init_st (wcfg kn0)) = Done s_hit /\
  result s_hit = Some (-(199#2), [6%Q])%Q /\ target_met (wcfg kn0) s_hit /\
  ~ limit_reached (wcfg kn0) 0 1000 s_hit true.
Proof.
  split; [reflexivity|]. split; [discriminate|]. split; [reflexivity|]. split; [vm_compute; reflexivity|].
  split; [vm_compute; reflexivity|]. split.
  - exists (-(199#2))%Q, [6%Q]. split; [vm_compute; reflexivity|].
    split; intros H; [discriminate|]. exfalso. revert H. vm_compute. discriminate.
  - unfold limit_reached. intros [H|[H|[H|[(z & H & _)|[H|H]]]]]; try discriminate H; revert H; vm_compute; congruence.
Qed.

(** ** C146: and once the result is within the target, the optimizer stops *)
(** A call on an optimizer that has met the target returns at once, without any evaluation. *)
Theorem C146_later_calls_return : forall c (ok : inp -> Prop) i0 pa i is s0 l0,
  has_noisy c = false -> (0 <= min_dist c)%Q -> (0 < eps_zero c)%Q -> ok i0 ->
  reach c ok s0 l0 -> itercount (C s0) <> 0 -> target_met c s0 -> call c i0 pa (i :: is) s0 = Done s0.
Proof. exact call_at_target. Qed.
Print Assumptions C146_later_calls_return.
(** An iteration that evaluates a point (and no restart) and has the target met is the last. *)
Theorem C146_evaluation_then_stop : forall c (ok : inp -> Prop) i s l s' l' j,
  has_noisy c = false -> (0 <= min_dist c)%Q -> (0 < eps_zero c)%Q ->
  ok i -> reach c ok s l -> pass c i s l = Cont s' l' -> restarts_in (trace s') = restarts_in (trace s) ->
  all_pos (T s') <> all_pos (T s) -> target_met c s' -> pass c j s' l' = Stop.
Proof. exact eval_then_stop. Qed.
Print Assumptions C146_evaluation_then_stop.
(** In a call without a restart after its initialization: nothing is done once the target is met. *)
Theorem C146_no_restart_then_stop : forall c (ok : inp -> Prop) i0 pa s0 l0 s l is sm lm j,
  has_noisy c = false -> (0 <= min_dist c)%Q -> (0 < eps_zero c)%Q ->
  ok i0 -> Forall ok is -> s0 = init_st c \/ reach c ok s0 l0 ->
  start_call c i0 pa s0 = Ok (s, l) -> run c is s l = Running sm lm -> restarts_in (trace sm) = restarts_in (trace s) ->
  target_met c sm -> pass c j sm lm = Stop.
Proof. exact no_restart_then_stop. Qed.
Print Assumptions C146_no_restart_then_stop.
Example C146_then_case : let x := call0 kn0 dflt_inp (firstn 1 is_hit) in let y := call0 kn0 dflt_inp (firstn 2 is_hit) in
  let c := wcfg kn0 in reach c any_inp (at_state c x) (at_loc x) /\
  pass c (nth 1 is_hit dflt_inp) (at_state c x) (at_loc x) = Cont (at_state c y) (at_loc y) /\
  restarts_in (trace (at_state c y)) = restarts_in (trace (at_state c x)) /\
  length (all_pos (T (at_state c x))) = 3%nat /\ length (all_pos (T (at_state c y))) = 4%nat /\
  itercount (C (at_state c y)) = 2 /\ result (at_state c y) = Some (-(199#2), [6%Q])%Q /\
  pass c dflt_inp (at_state c y) (at_loc y) = Stop.
Proof.
  cbv zeta. split; [apply running_reach; vm_compute; reflexivity|]. split; [vm_compute; reflexivity|].
  split; [vm_compute; reflexivity|]. split; [vm_compute; reflexivity|]. split; [vm_compute; reflexivity|].
  split; [vm_compute; reflexivity|]. split; vm_compute; reflexivity.
Qed.
(** Not so when the sample of a restart meets the target: here the run goes on and evaluates another point. *)
Theorem C146_restart_sample_refuted : exists c i s l s' l', reach c any_inp s l /\ has_noisy c = false /\
  (0 <= min_dist c)%Q /\ (0 < eps_zero c)%Q /\ target_met c s /\ pass c i s l = Cont s' l' /\
  evaluate_calls (trace s) < evaluate_calls (trace s').
Proof.
  set (c := wcfg k_rst). set (s := at_state c run_rst). set (l := at_loc run_rst).
  exists c, i_next, s, l.
  destruct (pass c i_next s l) as [s' l'| |e] eqn:E; [|exfalso; revert E; vm_compute; discriminate|exfalso; revert E; vm_compute; discriminate].
  exists s', l'. split; [apply running_reach; vm_compute; reflexivity|]. split; [reflexivity|]. split; [discriminate|].
  split; [reflexivity|]. split.
  - exists (-100)%Q, [2%Q]. split; [vm_compute; reflexivity|].
    split; intros H; [discriminate|]. exfalso. revert H. vm_compute. discriminate.
  - split; [reflexivity|]. revert E. vm_compute. intros E. injection E as <- <-. reflexivity.
Qed.
Print Assumptions C146_restart_sample_refuted.

(** ** C146: with error bounds *)
(** When the gap of the incumbent [v] with error bounds [el, eu] is small enough, every value in its interval is within the target. *)
Theorem C146_error_interval : forall c s g v el eu x, (0 < eps_zero c)%Q -> current_gap c s = Ok (Some g) -> (g <= eps_opt c)%Q ->
  fbest (I s) = Some v -> nth_error (all_err (T s)) (fbest_index (I s)) = Some (el, eu) ->
  (v + el <= x)%Q -> (x <= v + eu)%Q -> within_target c x.
Proof. intros c s g v el eu x H1 H2 H3 H4 H5 _ H6. exact (gap_with_errors c s g v el eu x H1 H2 H3 H4 H5 H6). Qed.
Print Assumptions C146_error_interval.
(** Noisy sample of value -99.6 +- 1/2 at target -100, tolerance 1: within; -99.4 +- 1/2: not. *)
Definition noisy_sample (v : Q) : inp :=
  mkInp true (Some [[0%Q]; [10%Q]]) (i_rs_acc dflt_inp) (fun _ => (v, -(1#2), 1#2)%Q) (i_rs_user dflt_inp)
        true true [0%nat; 1%nat] 1%Q None None (fun _ => None) 1%Q 1%Q 0%nat false false 3%Q (4, -(1#4), 1#4)%Q.
Definition s_noisy_start (v : Q) : st := at_state (wcfg k_two) (call0 k_two (noisy_sample v) []).
Example C146_error_case : let c := wcfg k_two in
  (exists g, current_gap c (s_noisy_start (-(498#5))%Q) = Ok (Some g) /\ (g <= eps_opt c)%Q) /\
  nth_error (all_err (T (s_noisy_start (-(498#5))%Q))) (fbest_index (I (s_noisy_start (-(498#5))%Q))) = Some (-(1#2), 1#2)%Q /\
  (exists g, current_gap c (s_noisy_start (-(497#5))%Q) = Ok (Some g) /\ (eps_opt c < g)%Q).
Proof.
  cbv zeta. split; [|split; [vm_compute; reflexivity|]].
  - eexists. split; [vm_compute; reflexivity|]. vm_compute. discriminate.
  - eexists. split; [vm_compute; reflexivity|]. vm_compute. reflexivity.
Qed.

(** ** C146: parallel mode *)
Theorem C146_parallel_stops_iff : forall pc0 q P, pstep pc0 q PcHead P = (PcFinal, P) <->
  limit_reached (base pc0) (it_start (lc (p_k P))) (pause (lc (p_k P))) (p_s P) (i_clock_ok (q_inp q)) \/
  (exists g, gap (lc (p_k P)) = Some g /\ (g <= eps_opt (base pc0))%Q).
Proof.
  intros pc0 q P. rewrite <- loop_cond_false. cbn [pstep]. destruct (loop_cond _ _ _ _); split; try discriminate; reflexivity.
Qed.
Print Assumptions C146_parallel_stops_iff.
Theorem C146_parallel_reason : forall pc0 ok q P, has_noisy (base pc0) = false -> (0 < eps_zero (base pc0))%Q ->
  preach pc0 ok PcHead P -> pstep pc0 q PcHead P = (PcFinal, P) ->
  limit_reached (base pc0) (it_start (lc (p_k P))) (pause (lc (p_k P))) (p_s P) (i_clock_ok (q_inp q)) \/
  target_met (base pc0) (p_s P).
Proof. exact par_stop_real. Qed.
Print Assumptions C146_parallel_reason.
(** When the collection of finished evaluations ends with at least one recorded and the target is met, the loop is left. *)
Theorem C146_parallel_evaluation_then_stop : forall pc0 (ok : pin -> Prop) q b P P' q',
  has_noisy (base pc0) = false -> (0 < eps_zero (base pc0))%Q -> ok q ->
  preach pc0 ok (PcEvals b) P -> pstep pc0 q (PcEvals b) P = (PcHead, P') -> target_met (base pc0) (p_s P') ->
  pstep pc0 q' PcHead P' = (PcFinal, P').
Proof. exact par_eval_then_stop. Qed.
Print Assumptions C146_parallel_evaluation_then_stop.
(** A call on an optimizer that has met the target submits nothing and returns. *)
Theorem C146_parallel_later_calls : forall pc0 (ok : pin -> Prop) q pa P0 q',
  has_noisy (base pc0) = false -> (0 < eps_zero (base pc0))%Q -> ok q -> preach pc0 ok PcDone P0 ->
  itercount (C (p_s P0)) <> 0 -> refinement_frequency (base pc0) <> 0 -> target_met (base pc0) (p_s P0) ->
  exists P, pstart pc0 q pa P0 = (PcHead, P) /\ p_s P = p_s P0 /\ p_log P = p_log P0 /\
    pstep pc0 q' PcHead P = (PcFinal, P) /\ pstep pc0 q' PcFinal P = (PcDone, P).
Proof. exact par_call_at_target. Qed.
Print Assumptions C146_parallel_later_calls.
Definition x_hit : pc * pst := pcall (w_c3 30 100) two_points 1000 (w_three ++ [go; go; ev 2 (-(199#2))%Q]).
Definition y_hit : pc * pst := pcall (w_c3 30 100) two_points 1000 (w_three ++ [go; go; ev 2 (-(199#2))%Q; go; go; ev 0 3; ev 0 2; go]).
Example C146_parallel_case : let P := at_pst x_hit in let pc0 := w_c3 30 100 in
  preach pc0 any_pin (PcEvals 0) P /\ has_noisy (base pc0) = false /\ (0 < eps_zero (base pc0))%Q /\
  pstep pc0 go (PcEvals 0) P = (PcHead, P) /\ result (p_s P) = Some (-(199#2), [8%Q])%Q /\
  pstep pc0 go PcHead P = (PcFinal, P) /\ length (pend (p_k P)) = 2%nat /\
  preach pc0 any_pin PcDone (at_pst y_hit) /\ itercount (C (p_s (at_pst y_hit))) = 3 /\
  result (p_s (at_pst y_hit)) = Some (-(199#2), [8%Q])%Q.
Proof.
  cbv zeta. split; [apply reached; vm_compute; reflexivity|]. split; [reflexivity|]. split; [reflexivity|].
  split; [vm_compute; reflexivity|]. split; [vm_compute; reflexivity|]. split; [vm_compute; reflexivity|].
  split; [vm_compute; reflexivity|]. split; [apply reached; vm_compute; reflexivity|].
  split; vm_compute; reflexivity.
Qed.
