(** * Properties of the serial optimizer (C01 - C16, C18, C20 - C22, C78, C79, C86 - C89).

    Only statements, each closed by a lemma proved elsewhere; beside each an [Example]
    showing that a concrete run meets the hypotheses.  Vocabulary: [SpecAlg]; model:
    [ModelAlg]; scenarios: [WitnessAlg].

    [reach c ok s l]: [s] is the state of the optimizer at the head of the main loop after
    any sequence of [optimize] calls, paused anywhere, under any answers of the environment
    satisfying [ok] (black box, samples, proposals, linear algebra, clock).  When a call
    returns, its state is such a state ([C00_calls_reach]). *)
From Verif Require Import WitnessAlg.
Open Scope Z_scope.

(** Every state in which a call of [optimize] returns (or is paused) is covered. *)
Theorem C00_calls_reach : forall c (ok : inp -> Prop) i0 pa is s0 l0 s', ok i0 -> Forall ok is ->
  s0 = init_st c \/ reach c ok s0 l0 ->
  call c i0 pa is s0 = Done s' \/ (exists l', call c i0 pa is s0 = Running s' l') ->
  exists l', reach c ok s' l'.
Proof. exact calls_reach. Qed.
Print Assumptions C00_calls_reach.
Example C00_case : exists s, call (wcfg k_small) dflt_inp 1000 [dflt_inp] (init_st (wcfg k_small)) = Done s.
Proof. eexists. vm_compute. reflexivity. Qed.

(** ** C01 *)
Theorem C01_evaluation_accounting : forall c ok s l, reach c ok s l ->
  evalcount (C s) = evaluate_calls (trace s) /\ noisy_evalcount (C s) = noisy_calls (trace s).
Proof. exact counted_spec. Qed.
Print Assumptions C01_evaluation_accounting.
Example C01_case : reach (wcfg kn0) any_inp s_ord l_ord /\ evalcount (C s_ord) = 5 /\
  evaluate_calls (trace s_ord) = 5.
Proof. split; [apply running_reach; vm_compute; reflexivity|vm_compute; auto]. Qed.
Example C01_case_noisy : let s := at_state (wcfg k_two) run_two in
  reach (wcfg k_two) any_inp s (at_loc run_two) /\ evaluate_calls (trace s) = 1 /\ noisy_calls (trace s) = 4.
Proof. split; [apply running_reach; vm_compute; reflexivity|vm_compute; auto]. Qed.

(** ** C02 *)
Theorem C02_no_iteration_at_the_limit : forall c i s l s' l',
  pass c i s l = Cont s' l' -> evalcount (C s) < max_evaluations c.
Proof. exact pass_within_budget. Qed.
Print Assumptions C02_no_iteration_at_the_limit.
(** [S] bounds the number of points of an initial sample. *)
Theorem C02_budget : forall c i0 pa is s0 s' S,
  0 <= S -> (forall i pts, In i (i0 :: is) -> i_samples i = Some pts -> Z.of_nat (length pts) <= S) ->
  call c i0 pa is s0 = Done s' \/ (exists l', call c i0 pa is s0 = Running s' l') ->
  evalcount (C s') <= Z.max (evalcount (C s0) + S + Z.of_nat (length (init_node_pos c)))
    (max_evaluations c - 1 + Z.max (2 * (S + Z.of_nat (length (init_node_pos c))))
                                   (S + Z.of_nat (length (init_node_pos c)) + 1)).
Proof. exact call_budget. Qed.
Print Assumptions C02_budget.
Example C02_case : exists s l, call0 kn0 dflt_inp is_ord = Running s l /\
  forall i pts, In i (dflt_inp :: is_ord) -> i_samples i = Some pts -> Z.of_nat (length pts) <= 2.
Proof.
  exists s_ord, l_ord. split; [vm_compute; reflexivity|].
  intros i pts Hi. unfold is_ord in Hi. cbn [In] in Hi.
  repeat (destruct Hi as [Hi|Hi]; [subst i; cbn; intros H; inversion H; cbn; discriminate|]); destruct Hi.
Qed.
(** "At most max_evaluations evaluations" is false. *)
Theorem C02_strict_refuted : exists c i0 is s, call c i0 1000 is (init_st c) = Done s /\
  max_evaluations c < evaluate_calls (trace s).
Proof. exists (wcfg k_small), dflt_inp, [dflt_inp], (at_state (wcfg k_small) run_small). vm_compute. auto. Qed.
Print Assumptions C02_strict_refuted.

(** ** C03 *)
Theorem C03_serial_termination : forall c i0 pa is s0, 0 <= num_global_searches c ->
  2 * (Z.max 0 (max_iterations c - itercount (C s0)) + Z.max 0 (max_cycles c - cyclecount (C s0))) + 1
    < Z.of_nat (length is) ->
  ends_normally (call c i0 pa is s0) \/ fails (call c i0 pa is s0).
Proof. exact call_terminates. Qed.
Print Assumptions C03_serial_termination.
Example C03_case : let c := wcfg kn0 in let is := repeat dflt_inp 200 in
  0 <= num_global_searches c /\
  2 * (Z.max 0 (max_iterations c - itercount (C (init_st c))) + Z.max 0 (max_cycles c - cyclecount (C (init_st c)))) + 1
    < Z.of_nat (length is) /\ ends_normally (call c dflt_inp 1000 is (init_st c)).
Proof. vm_compute. split; [discriminate|]. split; [reflexivity|]. eexists. reflexivity. Qed.

(** ** C04 *)
Theorem C04_result_is_authentic : forall c ok s l v p,
  reach c ok s l -> result s = Some (v, p) -> produced (trace s) p v.
Proof. exact result_exact. Qed.
Print Assumptions C04_result_is_authentic.
Example C04_case : reach (wcfg kn0) any_inp s_ord l_ord /\ result s_ord = Some (1%Q, [6%Q]).
Proof. split; [apply running_reach; vm_compute; reflexivity|vm_compute; reflexivity]. Qed.

(** ** C05 *)
Theorem C05_result_is_best : forall c ok s l v p, has_noisy c = false /\ (0 <= min_dist c)%Q ->
  reach c ok s l -> result s = Some (v, p) ->
  forall q w, In (EvAcc q w) (trace s) \/ In (EvUser q w) (trace s) -> (v <= w)%Q.
Proof. exact result_optimal. Qed.
Print Assumptions C05_result_is_best.
Example C05_case : (has_noisy (wcfg kn0) = false /\ (0 <= min_dist (wcfg kn0))%Q) /\
  reach (wcfg kn0) any_inp s_ord l_ord /\ result s_ord = Some (1%Q, [6%Q]).
Proof. split; [vm_compute; split; [reflexivity|discriminate]|exact C04_case]. Qed.
(** With two-phase evaluation the claim is false: [evaluate_noisy([0])] returned 5, the result
    is 6 (the record of the point was deleted when it was evaluated again). *)
Theorem C05_two_phase_refuted : exists c s l v p q w el eu, reach c any_inp s l /\
  result s = Some (v, p) /\ In (EvNoisy q w el eu) (trace s) /\ (w < v)%Q.
Proof.
  exists (wcfg k_two), (at_state (wcfg k_two) run_two), (at_loc run_two), 6%Q, [10%Q], [0%Q], 5%Q, (-(1#2))%Q, (1#2)%Q.
  split; [apply running_reach; vm_compute; reflexivity|].
  split; [vm_compute; reflexivity|]. split; [vm_compute; tauto|vm_compute; reflexivity].
Qed.
Print Assumptions C05_two_phase_refuted.

(** ** C06 *)
Theorem C06_incumbents : forall c ok s l, has_noisy c = false -> (0 <= min_dist c)%Q -> reach c ok s l ->
  (first_minimum (node_val (T s)) (fmin_index (I s)) /\
   fmin (I s) = Some (nth (fmin_index (I s)) (node_val (T s)) 0%Q)) /\
  (first_minimum (all_val (T s)) (fbest_index (I s)) /\
   fbest (I s) = Some (nth (fbest_index (I s)) (all_val (T s)) 0%Q)) /\
  (exists w, fmax (I s) = Some w /\ (exists x, In x (node_val (T s)) /\ (x == w)%Q) /\
             forall x, In x (node_val (T s)) -> (x <= w)%Q).
Proof. exact incumbents_spec. Qed.
Print Assumptions C06_incumbents.
Example C06_case : has_noisy (wcfg kn0) = false /\ (0 <= min_dist (wcfg kn0))%Q /\
  reach (wcfg kn0) any_inp s_ord l_ord /\ fmin_index (I s_ord) = 3%nat.
Proof.
  split; [reflexivity|]. split; [vm_compute; discriminate|].
  split; [apply running_reach; vm_compute; reflexivity|vm_compute; reflexivity].
Qed.
(** After a re-evaluation: the incumbent value is recorded nowhere, and the index designates a
    node with another value. *)
Theorem C06_two_phase_refuted : exists c s l f, reach c any_inp s l /\ fmin (I s) = Some f /\
  ~ In f (node_val (T s)) /\ nth (fmin_index (I s)) (node_val (T s)) f <> f.
Proof.
  exists (wcfg k_two), (at_state (wcfg k_two) run_two), (at_loc run_two), 5%Q.
  split; [apply running_reach; vm_compute; reflexivity|].
  split; [vm_compute; reflexivity|]. split; [|vm_compute; discriminate].
  vm_compute. intros H. repeat (destruct H as [H|H]; [discriminate|]). exact H.
Qed.
Print Assumptions C06_two_phase_refuted.

(** ** C07 *)
Theorem C07_tables_aligned : forall c ok s l, reach c ok s l ->
  let t := T s in
  (length (node_val t) = length (node_pos t) /\ length (node_is_noisy t) = length (node_pos t) /\
   length (node_err t) = length (node_pos t) /\
   length (all_val t) = length (all_pos t) /\ length (all_is_noisy t) = length (all_pos t) /\
   length (all_err t) = length (all_pos t)) /\
  length (all_pos t) = (nodes_at_restart t + length (node_pos t))%nat /\
  node_val t = skipn (nodes_at_restart t) (all_val t) /\
  node_is_noisy t = skipn (nodes_at_restart t) (all_is_noisy t) /\
  node_err t = skipn (nodes_at_restart t) (all_err t) /\
  forall j, (j < length (node_pos t))%nat ->
    let p := nth j (node_pos t) [] in let po := nth (nodes_at_restart t + j) (all_pos t) [] in
    po = to_orig c p \/ p = to_scaled c po.
Proof. exact aligned_spec. Qed.
Print Assumptions C07_tables_aligned.
Example C07_case : let s := at_state (wcfg k_again) run_again in
  reach (wcfg k_again) any_inp s (at_loc run_again) /\ nodes_at_restart (T s) = 5%nat /\
  length (node_pos (T s)) = 3%nat.
Proof. split; [apply running_reach; vm_compute; reflexivity|vm_compute; auto]. Qed.

(** ** C08 *)
Theorem C08_inside_the_box : forall c (ok : inp -> Prop) s l p,
  length (var_lower c) = length (var_upper c) ->
  (forall j, (j < length (var_lower c))%nat -> (nth j (var_lower c) 0 <= nth j (var_upper c) 0)%Q) ->
  (affine c = true -> integer_vars c = []) -> (0 <= min_dist c)%Q ->
  (forall q, In q (init_node_pos c) -> within (var_lower c) (var_upper c) q) ->
  (forall i, ok i ->
     (forall pts q, i_samples i = Some pts -> In q pts -> within (var_lower c) (var_upper c) q) /\
     (forall q, i_prop i = Some q -> length q = length (var_lower c))) ->
  reach c ok s l -> called_at (trace s) p -> within (var_lower c) (var_upper c) p.
Proof. exact box_spec. Qed.
Print Assumptions C08_inside_the_box.
(** The proposal 12 of the third pass is outside [0,10]; the samples and lengths are as required. *)
Definition ok_box (c : cfg) (i : inp) : Prop :=
  (forall pts q, i_samples i = Some pts -> In q pts -> within (var_lower c) (var_upper c) q) /\
  (forall q, i_prop i = Some q -> length q = length (var_lower c)).
Example C08_case : reach (wcfg kn0) (ok_box (wcfg kn0)) s_ord l_ord /\
  ok_box (wcfg kn0) (prop [12%Q] 3%Q (nz 0)) /\ called_at (trace s_ord) [6%Q].
Proof.
  assert (W : forall pts q, Some [[0%Q]; [10%Q]] = Some pts -> In q pts ->
              within (var_lower (wcfg kn0)) (var_upper (wcfg kn0)) q).
  { intros pts q H Hq. inversion H; subst. cbn in Hq.
    destruct Hq as [<-|[<-|[]]]; (split; [reflexivity|]; split; [reflexivity|]; cbn; intros [|j] Hj;
      [split; discriminate|exfalso; Lia.lia]). }
  assert (P : forall p v nv, length p = 1%nat -> ok_box (wcfg kn0) (prop p v nv)).
  { intros p v nv Hp. split; cbn; [exact W|]. intros q H; inversion H; subst; exact Hp. }
  split.
  - apply running_reach_ok; [split; [exact W|intros q H; discriminate]| |vm_compute; reflexivity].
    unfold is_ord. repeat (apply Forall_cons; [apply P; reflexivity|]); apply Forall_nil.
  - split; [apply P; reflexivity|]. left. exists 1%Q. vm_compute. tauto.
Qed.
(** Affine scaling forced with an integer variable in [5,10]: evaluation at 1. *)
Theorem C08_affine_with_integers_refuted : exists c s l p, reach c any_inp s l /\
  var_lower c = [5%Q] /\ var_upper c = [10%Q] /\ affine c = true /\
  called_at (trace s) p /\ ~ within (var_lower c) (var_upper c) p.
Proof.
  exists (wcfg k_aff), (at_state (wcfg k_aff) run_aff), (at_loc run_aff), [1%Q].
  split; [apply running_reach; vm_compute; reflexivity|].
  split; [reflexivity|]. split; [reflexivity|]. split; [reflexivity|].
  split; [left; exists 3%Q; vm_compute; tauto|].
  intros (_ & _ & H). destruct (H 0%nat) as [H1 _]; [cbn; Lia.lia|]. vm_compute in H1. apply H1. reflexivity.
Qed.
Print Assumptions C08_affine_with_integers_refuted.

(** ** C09 *)
Theorem C09_integrality : forall c (ok : inp -> Prop) s l p,
  integer_at (integer_vars c) (var_lower c) -> integer_at (integer_vars c) (var_upper c) ->
  (0 <= min_dist c)%Q -> (forall q, In q (init_node_pos c) -> integer_at (integer_vars c) q) ->
  (forall i, ok i ->
     (forall pts q, i_samples i = Some pts -> In q pts -> integer_at (integer_vars c) q) /\
     (forall q, i_prop i = Some q -> integer_at (integer_vars c) q)) ->
  reach c ok s l -> called_at (trace s) p -> integer_at (integer_vars c) p.
Proof. exact int_spec. Qed.
Print Assumptions C09_integrality.
Definition k_int := mkKnobs false false [0%nat] [0%Q] [10%Q] 30 40 (1#1000000) (1#1000) (-100) [] [] 2 20 2 false true 10 2 100 true.
Definition ok_int (c : cfg) (i : inp) : Prop :=
  (forall pts q, i_samples i = Some pts -> In q pts -> integer_at (integer_vars c) q) /\
  (forall q, i_prop i = Some q -> integer_at (integer_vars c) q).
Example C09_case : let c := wcfg k_int in let s := at_state c (call0 k_int dflt_inp is_ord) in
  integer_at (integer_vars c) (var_lower c) /\ integer_at (integer_vars c) (var_upper c) /\
  reach c (ok_int c) s (at_loc (call0 k_int dflt_inp is_ord)) /\ called_at (trace s) [6%Q].
Proof.
  assert (N : forall z, integer_at [0%nat] [inject_Z z]).
  { intros z j [<-|[]]. exists z. reflexivity. }
  assert (W : forall pts q, Some [[0%Q]; [10%Q]] = Some pts -> In q pts -> integer_at [0%nat] q).
  { intros pts q H Hq. inversion H; subst. destruct Hq as [<-|[<-|[]]]; [exact (N 0)|exact (N 10)]. }
  assert (P : forall z v nv, ok_int (wcfg k_int) (prop [inject_Z z] v nv)).
  { intros z v nv. split; cbn; [exact W|]. intros q H; inversion H; subst; apply N. }
  split; [exact (N 0)|]. split; [exact (N 10)|]. split.
  - apply running_reach_ok; [split; [exact W|intros q H; discriminate]| |vm_compute; reflexivity].
    unfold is_ord. repeat (apply Forall_cons;
      [exact (P 4 _ _) || exact (P 12 _ _) || exact (P 6 _ _) || exact (P 7 _ _)|]); apply Forall_nil.
  - left. exists 1%Q. vm_compute. tauto.
Qed.

(** ** C10 *)
Theorem C10_node_separation : forall c (ok : inp -> Prop) s l,
  scaling_on (affine c) (integer_vars c) = false ->
  length (var_upper c) = length (var_lower c) -> (0 <= min_dist c)%Q -> (0 <= eps_zero c)%Q ->
  (forall p, In p (init_node_pos c) -> length p = length (var_lower c)) ->
  (forall i, ok i ->
     (forall pts, i_samples i = Some pts -> all_apart (min_dist c + 2 * eps_zero c) pts /\
        forall p, In p pts -> length p = length (var_lower c)) /\
     (forall q, i_prop i = Some q -> length q = length (var_lower c))) ->
  reach c ok s l -> all_apart (min_dist c) (node_pos (T s)).
Proof. exact sep_spec. Qed.
Print Assumptions C10_node_separation.
Definition ok_sep (c : cfg) (i : inp) : Prop :=
  (forall pts, i_samples i = Some pts -> all_apart (min_dist c + 2 * eps_zero c) pts /\
     forall p, In p pts -> length p = length (var_lower c)) /\
  (forall q, i_prop i = Some q -> length q = length (var_lower c)).
Example C10_case : let c := wcfg kn0 in reach c (ok_sep c) s_ord l_ord /\
  scaling_on (affine c) (integer_vars c) = false /\ length (node_pos (T s_ord)) = 5%nat.
Proof.
  assert (W : forall pts, Some [[0%Q]; [10%Q]] = Some pts ->
     all_apart (min_dist (wcfg kn0) + 2 * eps_zero (wcfg kn0)) pts /\ forall p, In p pts -> length p = 1%nat).
  { intros pts H. inversion H; subst. split.
    - intros i j Hij. cbn in Hij. assert (i = 0%nat /\ j = 1%nat) as [-> ->] by Lia.lia. vm_compute. reflexivity.
    - intros p [<-|[<-|[]]]; reflexivity. }
  assert (P : forall p v nv, length p = 1%nat -> ok_sep (wcfg kn0) (prop p v nv)).
  { intros p v nv Hp. split; cbn; [exact W|]. intros q H; inversion H; subst; exact Hp. }
  split; [|vm_compute; auto].
  apply running_reach_ok; [split; [exact W|intros q H; discriminate]| |vm_compute; reflexivity].
  unfold is_ord. repeat (apply Forall_cons; [apply P; reflexivity|]); apply Forall_nil.
Qed.

(** ** C11: an evaluation right after a search step (main loop) is never within [eps_zero] of
    an earlier evaluation. *)
Theorem C11_no_repeated_evaluation : forall c ok s l, has_noisy c = false /\ (0 <= min_dist c)%Q ->
  scaling_on (affine c) (integer_vars c) = false -> (eps_zero c <= min_dist c)%Q -> reach c ok s l ->
  forall before z p v after, trace s = before ++ EvStep z :: EvAcc p v :: after ->
  forall q w, In (EvAcc q w) before -> dist_lt p q (eps_zero c) = false.
Proof. exact no_repeat_reach. Qed.
Print Assumptions C11_no_repeated_evaluation.
(** In [run_again] the point 4, evaluated before the restarts, is proposed after them: the value
    3 is taken over, no evaluation is made. *)
Example C11_case : let c := wcfg k_again in let s := at_state c run_again in
  (has_noisy c = false /\ (0 <= min_dist c)%Q) /\ scaling_on (affine c) (integer_vars c) = false /\
  (eps_zero c <= min_dist c)%Q /\ reach c any_inp s (at_loc run_again) /\
  last (all_pos (T s)) [] = [4%Q] /\ last (all_val (T s)) 0%Q = 3%Q /\ evaluate_calls (trace s) = 5.
Proof.
  split; [vm_compute; split; [reflexivity|discriminate]|]. split; [reflexivity|].
  split; [vm_compute; discriminate|].
  split; [apply running_reach; vm_compute; reflexivity|vm_compute; auto].
Qed.

(** ** C12 *)
Theorem C12_single_phase_never_noisy : forall c ok s l, reach c ok s l -> has_noisy c = false ->
  noisy_calls (trace s) = 0.
Proof. exact phase_spec. Qed.
Print Assumptions C12_single_phase_never_noisy.
Theorem C12_switch_is_final : forall c ok i0 pa is s l s', reach c ok s l -> noisy_mode (C s) = false ->
  (call c i0 pa is s = Done s' \/ (exists l', call c i0 pa is s = Running s' l')) ->
  noisy_mode (C s') = false /\ noisy_calls (trace s') = noisy_calls (trace s).
Proof. exact switch_spec. Qed.
Print Assumptions C12_switch_is_final.
Example C12_case : let c := wcfg k_two in
  let r := call0 k_two dflt_inp (firstn 2 is_two) in let s := at_state c r in
  reach c any_inp s (at_loc r) /\ has_noisy c = true /\ noisy_mode (C s) = false /\ noisy_calls (trace s) = 4 /\
  exists s' l', call c dflt_inp 1000 (skipn 2 is_two) s = Running s' l'.
Proof.
  split; [apply running_reach; vm_compute; reflexivity|].
  split; [reflexivity|]. split; [vm_compute; reflexivity|]. split; [vm_compute; reflexivity|].
  eexists. eexists. vm_compute. reflexivity.
Qed.

(** ** C13 *)
Theorem C13_accurate_records_have_no_error : forall c ok s l j, reach c ok s l ->
  (j < length (all_pos (T s)))%nat ->
  nth j (all_is_noisy (T s)) true = false -> nth j (all_err (T s)) (1, 1)%Q = (0, 0)%Q.
Proof. exact flags_spec. Qed.
Print Assumptions C13_accurate_records_have_no_error.
Theorem C13_single_phase_records_are_accurate : forall c ok s l j,
  has_noisy c = false -> (0 <= min_dist c)%Q -> reach c ok s l ->
  (j < length (all_pos (T s)))%nat -> nth j (all_is_noisy (T s)) true = false.
Proof. exact single_phase_spec. Qed.
Print Assumptions C13_single_phase_records_are_accurate.
Example C13_case : let s := at_state (wcfg k_two) run_two in
  reach (wcfg k_two) any_inp s (at_loc run_two) /\ (3 < length (all_pos (T s)))%nat /\
  nth 3 (all_is_noisy (T s)) true = false.
Proof. split; [apply running_reach; vm_compute; reflexivity|vm_compute; auto]. Qed.
(** "A node evaluated with evaluate() is recorded as accurate" is false. *)
Theorem C13_accurate_recorded_noisy_refuted : exists c s l j p v, reach c any_inp s l /\
  In (EvAcc p v) (trace s) /\ noisy_calls (trace s) = 0 /\
  nth j (all_pos (T s)) [] = p /\ nth j (all_val (T s)) 0%Q = v /\ nth j (all_is_noisy (T s)) false = true.
Proof.
  exists (wcfg k_lim), (at_state (wcfg k_lim) run_lim), (at_loc run_lim), 0%nat, [0%Q], 5%Q.
  split; [apply running_reach; vm_compute; reflexivity|]. vm_compute. tauto.
Qed.
Print Assumptions C13_accurate_recorded_noisy_refuted.

(** ** C14: refuted in two ways. *)
(** The point 4 was evaluated once, with errors (-1/4, 1/4); reused after the restart, it is
    recorded with errors (-1/8, 1/8). *)
Theorem C14_reused_errors_refuted : exists c s l j p v e, reach c any_inp s l /\
  nth j (all_pos (T s)) [] = p /\ nth j (all_val (T s)) 0%Q = v /\ nth j (all_err (T s)) (0, 0)%Q = e /\
  (exists el eu, In (EvNoisy p v el eu) (trace s)) /\
  forall v' el eu, In (EvNoisy p v' el eu) (trace s) -> ~ (snd e == eu)%Q.
Proof.
  exists (wcfg k_res), (at_state (wcfg k_res) run_stale), (at_loc run_stale), 6%nat, [4%Q], 30%Q, (-(1#8), 1#8)%Q.
  split; [apply running_reach; vm_compute; reflexivity|].
  split; [vm_compute; reflexivity|]. split; [vm_compute; reflexivity|]. split; [vm_compute; reflexivity|].
  split; [exists (-(1#4))%Q, (1#4)%Q; vm_compute; tauto|].
  intros v' el eu H.
  let tr := eval vm_compute in (trace (at_state (wcfg k_res) run_stale)) in
    replace (trace (at_state (wcfg k_res) run_stale)) with tr in H by (vm_compute; reflexivity).
  cbn [In] in H. repeat (destruct H as [H|H]; [inversion H; subst; vm_compute; discriminate|]). destruct H.
Qed.
Print Assumptions C14_reused_errors_refuted.
(** No noisy evaluation in this call before the reuse: NameError. *)
Theorem C14_reuse_fails_refuted : exists c i0 is, call c i0 1000 is (init_st c) = Failed EName.
Proof. exists (wcfg k_res), dflt_inp, is_name. vm_compute. reflexivity. Qed.
Print Assumptions C14_reuse_fails_refuted.

(** ** C15 *)
Theorem C15_user_points : forall c i s s', restart c i s = Ok s' -> itercount (C s) = 0 ->
  length (init_node_val c) = length (init_node_pos c) -> (0 <= min_dist c)%Q ->
  exists gen genv ge chosen tr,
    all_pos (T s') = all_pos (T s) ++ gen ++ map (fun j => nth j (init_node_pos c) []) chosen /\
    all_val (T s') = all_val (T s) ++ genv ++ map (fun j => nth j (init_node_val c) 0%Q) chosen /\
    all_is_noisy (T s') = all_is_noisy (T s) ++ ge ++ map (fun _ => false) chosen /\
    length genv = length gen /\ length ge = length gen /\
    trace s' = trace s ++ tr ++
      map (fun j => EvUser (nth j (init_node_pos c) []) (nth j (init_node_val c) 0%Q)) chosen /\
    (forall p v, ~ In (EvUser p v) tr) /\
    (forall e p, In e tr -> (exists v, e = EvAcc p v) \/ (exists v el eu, e = EvNoisy p v el eu) ->
        exists pts, i_samples i = Some pts /\ In p pts) /\
    (forall j, In j chosen <-> (j < length (init_node_pos c))%nat /\
       (forall q, In q gen -> (min_dist c * min_dist c < sqdist (nth j (init_node_pos c) []) q)%Q) /\
       (forall k, (k < j)%nat -> (min_dist c * min_dist c < sqdist (nth j (init_node_pos c) [])
                                                          (nth k (init_node_pos c) []))%Q)).
Proof. exact user_points_spec. Qed.
Print Assumptions C15_user_points.
(** Of the user points 3, 0, 3, 8 only the first and the last are taken over. *)
Example C15_case : exists s', restart (wcfg k_usr) dflt_inp (init_st (wcfg k_usr)) = Ok s' /\
  length (init_node_val (wcfg k_usr)) = length (init_node_pos (wcfg k_usr)) /\
  all_pos (T s') = [[0%Q]; [10%Q]; [3%Q]; [8%Q]] /\ all_val (T s') = [5%Q; 6%Q; 7%Q; 2%Q] /\
  evaluate_calls (trace s') = 2.
Proof. eexists. split; [vm_compute; reflexivity|]. vm_compute. auto. Qed.

(** ** C16 *)
Theorem C16_checkpoint_cadence : forall c ok s l, reach c ok s l ->
  checkpoints (trace s) = multiples_upto (save_state_interval c) (itercount (C s)).
Proof. exact cadence_spec. Qed.
Print Assumptions C16_checkpoint_cadence.
Example C16_case : reach (wcfg kn0) any_inp s_ord l_ord /\ itercount (C s_ord) = 5 /\
  checkpoints (trace s_ord) = [2; 4].
Proof. split; [apply running_reach; vm_compute; reflexivity|vm_compute; auto]. Qed.

(** ** C18 *)
Theorem C18_pause_resume : forall c i0 i1 a b is1 is2 s0 s l sm lm,
  has_noisy c = false -> noisy_mode (C s0) = false -> 0 <= b ->
  start_call c i0 a s0 = Ok (s, l) ->             (* optimize(pause_after_iters=a) ... *)
  run c is1 s l = Running sm lm ->                (* ... runs ... *)
  itercount (C sm) - itercount (C s0) = a ->      (* ... until the pause *)
  itercount (C sm) <> 0 ->
  current_gap c sm = Ok (gap lm) ->               (* the stopping gap is up to date *)
  same_res (call c i1 b is2 sm) (call c i0 (a + b) (is1 ++ is2) s0).
Proof. exact pause_resume. Qed.
Print Assumptions C18_pause_resume.
(** The gap is up to date unless a restart happened since the beginning of the call. *)
Theorem C18_gap_up_to_date : forall c i0 pa s0 s l is sm lm, has_noisy c = false /\ (0 <= min_dist c)%Q ->
  start_call c i0 pa s0 = Ok (s, l) -> run c is s l = Running sm lm ->
  restarts_in (trace sm) = restarts_in (trace s) -> current_gap c sm = Ok (gap lm).
Proof. exact gap_up_to_date. Qed.
Print Assumptions C18_gap_up_to_date.
Example C18_case : let c := wcfg kn0 in exists s l sm lm,
  start_call c dflt_inp 3 (init_st c) = Ok (s, l) /\ run c (firstn 3 is_ord) s l = Running sm lm /\
  itercount (C sm) - itercount (C (init_st c)) = 3 /\ current_gap c sm = Ok (gap lm) /\
  restarts_in (trace sm) = restarts_in (trace s) /\
  exists sf lf, call c dflt_inp 2 (skipn 3 is_ord) sm = Running sf lf /\ evaluate_calls (trace sf) = 5.
Proof.
  do 4 eexists. split; [vm_compute; reflexivity|]. split; [vm_compute; reflexivity|].
  split; [vm_compute; reflexivity|]. split; [vm_compute; reflexivity|]. split; [vm_compute; reflexivity|].
  do 2 eexists. split; [vm_compute; reflexivity|vm_compute; reflexivity].
Qed.
(** Pause before the first iteration: the second call draws and evaluates a new sample. *)
Theorem C18_pause_at_zero_refuted : exists c i0 i1 is s1 s2 s12,
  call c i0 0 [i0] (init_st c) = Done s1 /\ call c i1 2 is s1 = Done s2 /\
  call c i0 2 is (init_st c) = Done s12 /\ evaluate_calls (trace s12) < evaluate_calls (trace s2) /\
  length (all_pos (T s12)) <> length (all_pos (T s2)).
Proof.
  exists (wcfg kn0), dflt_inp, (resample dflt_inp), [prop [4%Q] 3%Q (nz 0); prop [5%Q] 3%Q (nz 0); prop [6%Q] 3%Q (nz 0);prop [6%Q] 3%Q (nz 0)].
  do 3 eexists. split; [vm_compute; reflexivity|]. split; [vm_compute; reflexivity|].
  split; [vm_compute; reflexivity|]. vm_compute. split; [reflexivity|discriminate].
Qed.
Print Assumptions C18_pause_at_zero_refuted.
(** A restart inside the call that reaches the target: the uninterrupted run goes on evaluating,
    a run paused at that point stops. *)
Theorem C18_stale_gap_refuted : exists c i0 is i s l s1, call c i0 1000 is (init_st c) = Running s l /\
  call c i0 1000 [i] s = Done s /\
  call c i0 1000 (is ++ [i]) (init_st c) = Running s1 (at_loc (call c i0 1000 (is ++ [i]) (init_st c))) /\
  evaluate_calls (trace s) < evaluate_calls (trace s1).
Proof.
  exists (wcfg k_rst), dflt_inp, is_rst, i_next. do 3 eexists.
  split; [vm_compute; reflexivity|]. split; [vm_compute; reflexivity|].
  split; [vm_compute; reflexivity|]. vm_compute. reflexivity.
Qed.
Print Assumptions C18_stale_gap_refuted.

(** ** C20 *)
Theorem C20_restart_keeps_history : forall c i s s', restart c i s = Ok s' ->
  extends (all_pos (T s)) (all_pos (T s')) /\ extends (all_val (T s)) (all_val (T s')) /\
  extends (all_is_noisy (T s)) (all_is_noisy (T s')) /\ extends (all_err (T s)) (all_err (T s')).
Proof. exact restart_spec. Qed.
Print Assumptions C20_restart_keeps_history.
Theorem C20_history_only_grows : forall c is s l s', has_noisy c = false -> (0 <= min_dist c)%Q ->
  run c is s l = Done s' \/ (exists l', run c is s l = Running s' l') ->
  extends (all_pos (T s)) (all_pos (T s')) /\ extends (all_val (T s)) (all_val (T s')) /\
  extends (all_is_noisy (T s)) (all_is_noisy (T s')) /\ extends (all_err (T s)) (all_err (T s')).
Proof. exact history_spec. Qed.
Print Assumptions C20_history_only_grows.
Theorem C20_monotone_counters : forall c is s l s',
  run c is s l = Done s' \/ (exists l', run c is s l = Running s' l') ->
  extends (trace s) (trace s') /\ evalcount (C s) <= evalcount (C s') /\
  noisy_evalcount (C s) <= noisy_evalcount (C s') /\ itercount (C s) <= itercount (C s') /\
  cyclecount (C s) <= cyclecount (C s') /\ not_worse (fbest (I s')) (fbest (I s)).
Proof. exact monotone_spec. Qed.
Print Assumptions C20_monotone_counters.
Example C20_case : let c := wcfg k_again in
  restarts_in (trace (at_state c run_again)) = 3 /\
  (exists s', restart c dflt_inp (at_state c run_again) = Ok s') /\
  exists s l s' l', start_call c dflt_inp 1000 (init_st c) = Ok (s, l) /\ run c is_again s l = Running s' l'.
Proof.
  split; [vm_compute; reflexivity|]. split; [eexists; vm_compute; reflexivity|].
  do 4 eexists. split; [vm_compute; reflexivity|vm_compute; reflexivity].
Qed.

(** ** C21 *)
Theorem C21_steps_are_defined : forall c ok s l, 0 <= num_global_searches c -> reach c ok s l ->
  0 <= current_step (C s) <= num_global_searches c + 3 /\
  (forall z, In (EvStep z) (trace s) -> 0 <= z <= num_global_searches c + 3 /\
     ((num_global_searches c <> 0 \/ do_infstep c = true \/ do_local_search c = true) ->
      (z = 0 -> do_infstep c = true) /\ (z = num_global_searches c + 1 -> do_local_search c = true))).
Proof. exact steps_spec. Qed.
Print Assumptions C21_steps_are_defined.
Theorem C21_cyclic_advance : forall c i s l s' l', 0 <= num_global_searches c ->
  pass c i s l = Cont s' l' -> 0 <= current_step (C s) <= num_global_searches c + 1 ->
  must_restart c (C s) = false -> i_lin_ok i = true ->
  (current_step (C s) < num_global_searches c + 1 /\
   current_step (C s') = current_step (C s) + 1 /\ cyclecount (C s') = cyclecount (C s)) \/
  (current_step (C s) = num_global_searches c + 1 /\
   current_step (C s') = 0 /\ cyclecount (C s') = cyclecount (C s) + 1) \/
  (current_step (C s') = num_global_searches c + 2 /\ cyclecount (C s') = cyclecount (C s) /\
   (current_step (C s) = num_global_searches c + 1 \/
    current_step (C s) = num_global_searches c /\ do_local_search c = false)).
Proof. exact advance_spec. Qed.
Print Assumptions C21_cyclic_advance.
Theorem C21_refinement_ends_in_a_new_cycle : forall c i s l s' l', 0 <= num_global_searches c ->
  pass c i s l = Cont s' l' -> current_step (C s) = num_global_searches c + 2 ->
  (current_step (C s') = num_global_searches c + 2 /\ cyclecount (C s') = cyclecount (C s)) \/
  (cyclecount (C s') = cyclecount (C s) + 1 /\
   (current_step (C s') = first_step c \/ current_step (C s') = 1)).
Proof. exact pass_refinement. Qed.
Print Assumptions C21_refinement_ends_in_a_new_cycle.
Example C21_case : 0 <= num_global_searches (wcfg kn0) /\ reach (wcfg kn0) any_inp s_ord l_ord /\
  current_step (C s_ord) = 3 /\ must_restart (wcfg kn0) (C s_ord) = false /\
  (exists s' l', pass (wcfg kn0) i_next s_ord l_ord = Cont s' l' /\ current_step (C s') = 0).
Proof.
  split; [vm_compute; discriminate|]. split; [apply running_reach; vm_compute; reflexivity|].
  split; [vm_compute; reflexivity|]. split; [vm_compute; reflexivity|].
  do 2 eexists. split; [vm_compute; reflexivity|vm_compute; reflexivity].
Qed.
(** A refinement phase exists: local step evaluated at a late iteration switches to refinement, a
    discarded proposal then leads to step 1 although the infinity step 0 is enabled. *)
Theorem C21_back_to_first_step_refuted : exists c s l i s' l', reach c any_inp s l /\
  current_step (C s) = num_global_searches c + 2 /\ do_infstep c = true /\
  pass c i s l = Cont s' l' /\ current_step (C s') = 1.
Proof. exact refinement_discard_witness. Qed.
Print Assumptions C21_back_to_first_step_refuted.

(** ** C22 *)
Theorem C22_stalling : forall c ok s0 l0 fs s l, reach c ok s0 l0 -> iterations c s0 fs s l ->
  exists moved after ref,
    fs = moved ++ after /\
    fmin_stall_check (C s) = Some ref /\
    last moved (fmin_stall_check (C s0)) = Some ref /\
    num_stalled_iter (C s) =
      match moved with [] => num_stalled_iter (C s0) | _ => 0 end + Z.of_nat (length after) /\
    Forall (fun f => exists x, f = Some x /\ (ref - eps_impr c * Qmax 1 (Qabs ref) < x)%Q) after.
Proof. exact stalling_spec. Qed.
Print Assumptions C22_stalling.
Theorem C22_restart_resets : forall c i s s', restart c i s = Ok s' ->
  num_stalled_iter (C s') = 0 /\ fmin_stall_check (C s') = fmin (I s').
Proof. exact restart_stall_spec. Qed.
Print Assumptions C22_restart_resets.
Example C22_case : let c := wcfg kn0 in exists s0 l0, reach c any_inp s0 l0 /\
  iterations c s0 [Some 3%Q; Some 3%Q; Some 3%Q; Some 1%Q; Some 1%Q] s_ord l_ord /\
  num_stalled_iter (C s_ord) = 1.
Proof. exact iterations_witness. Qed.

(** ** C78 *)
Theorem C78_window_bounded : forall c ok s l, reach c ok s l ->
  (length (discarded (C s)) <= Z.to_nat (discarded_window_size c * num_cpus c))%nat.
Proof. exact window_reach. Qed.
Print Assumptions C78_window_bounded.
Theorem C78_window_holds_last_outcomes : forall c i s l s' l', pass c i s l = Cont s' l' ->
  restarts_in (trace s') = restarts_in (trace s) -> has_noisy c = false -> (0 <= min_dist c)%Q ->
  itercount (C s') = itercount (C s) /\ discarded (C s') = discarded (C s) /\ T s' = T s \/
  itercount (C s') = itercount (C s) + 1 /\
  exists b, discarded (C s') = last_entries (Z.to_nat (discarded_window_size c * num_cpus c)) (discarded (C s) ++ [b]) /\
    (if b then T s' = T s
     else exists p v noisy e, T s' = tabs_add p (to_orig c p) v noisy e (T s)).
Proof. exact window_spec. Qed.
Print Assumptions C78_window_holds_last_outcomes.
(** A restart inside the loop has one of three reasons: too many discards, stalling, or failed
    linear algebra. *)
Theorem C78_restart_reasons : forall c i s l s' l', pass c i s l = Cont s' l' ->
  restarts_in (trace s') <> restarts_in (trace s) ->
  let d := discarded (C s) in
  (current_step (C s) <= first_step c /\
   ((discarded_window_size c <= 2 * Z.of_nat (length d) /\
     (max_fraction_discarded c * inject_Z (Z.of_nat (length d)) <= inject_Z (Z.of_nat (count_true d)))%Q) \/
    (max_stalled_iterations c <= num_stalled_iter (C s) /\
     evalcount (C s) + 3 * (Z.of_nat (n c) + 1 + (num_global_searches c + 2)) < max_evaluations c /\
     cyclecount (C s) < max_cycles c - 1))) \/
  (i_lin_ok i = false /\ current_step (C s) <= num_global_searches c + 1) \/
  current_step (C s) = num_global_searches c + 3.
Proof. exact restart_reason_spec. Qed.
Print Assumptions C78_restart_reasons.
Example C78_case : let c := wcfg k_rst in let s := at_state c (call0 k_rst dflt_inp (firstn 3 is_rst)) in
  reach c any_inp s (at_loc (call0 k_rst dflt_inp (firstn 3 is_rst))) /\ discarded (C s) = [true; true] /\
  (exists s' l', pass c (nth 3 is_rst dflt_inp) s (at_loc (call0 k_rst dflt_inp (firstn 3 is_rst))) = Cont s' l' /\
     restarts_in (trace s') <> restarts_in (trace s)).
Proof.
  split; [apply running_reach; vm_compute; reflexivity|]. split; [vm_compute; reflexivity|].
  do 2 eexists. split; [vm_compute; reflexivity|vm_compute; discriminate].
Qed.

(** ** C79 *)
Theorem C79_star : forall v g i, log_star v g i = true <->
  exists x f, g = Some x /\ fbest i = Some f /\ (v == f)%Q /\
    match best_gap_shown i with Some b => (x < b)%Q | None => True end.
Proof. exact log_star_iff. Qed.
Print Assumptions C79_star.
Theorem C79_displayed_gap_never_increases : forall c is s l s',
  run c is s l = Done s' \/ (exists l', run c is s l = Running s' l') ->
  not_worse (best_gap_shown (I s')) (best_gap_shown (I s)).
Proof. exact run_shown. Qed.
Print Assumptions C79_displayed_gap_never_increases.
Example C79_case : let c := wcfg kn0 in exists s l s' l' g g',
  start_call c dflt_inp 1000 (init_st c) = Ok (s, l) /\ run c is_ord s l = Running s' l' /\
  best_gap_shown (I s) = Some g /\ best_gap_shown (I s') = Some g' /\ (g' < g)%Q /\
  log_star 5%Q (Some g') (I s) = true.
Proof.
  do 6 eexists. split; [vm_compute; reflexivity|]. split; [vm_compute; reflexivity|].
  split; [vm_compute; reflexivity|]. split; [vm_compute; reflexivity|]. split; [vm_compute; reflexivity|vm_compute; reflexivity].
Qed.

(** ** C86: a noisy restart whose sample points were all evaluated before fails (IndexError). *)
Theorem C86_noisy_restart_fails_refuted : exists c i0 is, call c i0 1000 is (init_st c) = Failed EIndex.
Proof. exists (wcfg k_res), dflt_inp, is_index. vm_compute. reflexivity. Qed.
Print Assumptions C86_noisy_restart_fails_refuted.

(** ** C87: starting from a single point (no generated sample, one user point) fails. *)
Theorem C87_single_start_point_fails : forall c i s s', restart c i s = Ok s' ->
  (2 <= length (node_pos (T s')))%nat.
Proof. exact two_nodes_after_restart. Qed.
Print Assumptions C87_single_start_point_fails.
Theorem C87_single_start_point_refuted : exists c i0, init_node_pos c = [[3%Q]] /\ init_node_val c = [7%Q] /\
  do_init_strategy c = false /\ call c i0 1000 [] (init_st c) = Failed EAssert.
Proof. exact single_point_witness. Qed.
Print Assumptions C87_single_start_point_refuted.
