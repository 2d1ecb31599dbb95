(** * C154: when refinement phases of a serial run begin, go on and end.

    Vocabulary: [SpecSerialRefine].  Step [num_global_searches c + 2] is the refinement. *)
From Verif Require Import WitnessAlg RefineRun SerialRefineRun.
From Coq Require Import Lia Lqa.
Open Scope Z_scope.

(** ** C154 *)
Theorem C154_begins : forall c i s l s' l', 0 <= num_global_searches c -> (1 <= window c)%nat ->
  pass c i s l = Cont s' l' -> must_restart c (C s) = false -> current_step (C s) <> num_global_searches c + 2 ->
  (current_step (C s') = num_global_searches c + 2 <->
   last_of_cycle c (current_step (C s)) /\ i_lin_ok i = true /\ accepted s s' /\
   (due c s \/ lifted c (itercount (C s)) (evalcount (C s')) (i_time_unl i) (num_stalled_iter (C s)))).
Proof. exact begins_spec. Qed.
Print Assumptions C154_begins.

(** Consecutive refinement steps never exceed the limit while it is in force, whatever happens. *)
Theorem C154_limit : forall c (ok : inp -> Prop) i s l s' l', 0 <= num_global_searches c -> reach c ok s l ->
  pass c i s l = Cont s' l' -> current_step (C s) = num_global_searches c + 2 -> current_step (C s') = num_global_searches c + 2 ->
  streak c (trace s') = streak c (trace s) + 1 /\
  (streak c (trace s') < max_consecutive_refinement c \/
   lifted c (itercount (C s)) (evalcount (C s')) (i_time_unl i) (num_stalled_iter (C s))).
Proof.
  intros c ok i s l s' l' Hg R H E E'. destruct (phase_reach _ _ _ _ Hg R) as (_ & P & _). destruct (P E) as (P1 & _).
  destruct (pass_at_refinement _ _ _ _ _ _ Hg H E) as [(_ & _ & A & _)|(A & B)].
  - exfalso. rewrite A in E'. pose proof (first_step_range c Hg). unfold local_search_step in *. lia.
  - split; [exact A|]. cbv zeta in B. destruct B as [((_ & B) & _)|(_ & B & _)]; [|contradiction].
    destruct B as [B|B]; [left; lia|right; exact B].
Qed.
Print Assumptions C154_limit.

(** When the linear models can be built, an evaluated refinement step is followed by another exactly
    when the radius is still large enough and the limit is not reached or lifted. *)
Theorem C154_continues : forall c (ok : inp -> Prop) i s l s' l', 0 <= num_global_searches c -> (1 <= window c)%nat ->
  (forall i, ok i -> i_ref_ok i = true) -> ok i -> reach c ok s l -> pass c i s l = Cont s' l' ->
  current_step (C s) = num_global_searches c + 2 ->
  (current_step (C s') = num_global_searches c + 2 <->
   accepted s s' /\ (exists r, ref_radius (Rf s') = Some r /\ (ref_min_radius c <= r)%Q) /\
   (streak c (trace s) + 1 < max_consecutive_refinement c \/
    lifted c (itercount (C s)) (evalcount (C s')) (i_time_unl i) (num_stalled_iter (C s)))).
Proof.
  intros c ok i s l s' l' Hg Hw Hok Hi R H E. destruct (phase_reach _ _ _ _ Hg R) as (_ & P & _).
  destruct (P E) as (_ & P1). specialize (P1 Hok). rewrite P1.
  destruct (pass_at_refinement _ _ _ _ _ _ Hg H E) as [(A & _)|(_ & B)]; [specialize (Hok i Hi); congruence|].
  cbv zeta in B. destruct B as [(B1 & B2 & B3 & _)|(B1 & B2 & _)].
  - split; [|intros _; exact B3]. intros _. split; [exact (B2 Hw)|exact B1].
  - split; [intros X; contradiction|]. intros (X & Y). exfalso. exact (B1 X Hw Y).
Qed.
Print Assumptions C154_continues.

(** A discarded point, and a linear model that cannot be built, end the phase at once. *)
Theorem C154_ends : forall c i s l s' l', 0 <= num_global_searches c -> (1 <= window c)%nat ->
  pass c i s l = Cont s' l' -> current_step (C s) = num_global_searches c + 2 -> ~ accepted s s' ->
  current_step (C s') <> num_global_searches c + 2 /\
  (num_cons_refinement (Rf s') = 0 \/ i_ref_ok i = false /\ trace s' = trace s).
Proof.
  intros c i s l s' l' Hg Hw H E N. destruct (pass_at_refinement _ _ _ _ _ _ Hg H E) as [(A & A1 & A2 & _)|(_ & B)].
  - split; [|auto]. rewrite A2. pose proof (first_step_range c Hg). unfold local_search_step in *. lia.
  - cbv zeta in B. destruct B as [(_ & B & _)|(_ & B1 & B2)]; [exfalso; exact (N (B Hw))|auto].
Qed.
Print Assumptions C154_ends.

(** ** Witness runs: one-dimensional problem, steps 0, 1, 2 of a cycle and refinement 3, every new
    point has the value 3. *)
Definition with_limits (f m : Z) (c : cfg) : cfg :=
  mkCfg (n c) (var_lower c) (var_upper c) (integer_vars c) (affine c) (max_iterations c) (max_evaluations c)
    (max_cycles c) (search_space_size c) (max_noisy_evaluations c) (max_noisy_restarts c) (max_noisy_iterations c)
    (eps_opt c) (eps_zero c) (eps_impr c) (min_dist c) (target_objval c) (do_infstep c) (do_local_search c)
    (num_global_searches c) (discarded_window_size c) (num_cpus c) (max_fraction_discarded c) (max_stalled_iterations c)
    f m (thresh_unlimited_refinement c) (thresh_unlimited_refinement_stalled c)
    (ref_min_radius c) (ref_shrink c) (ref_enlarge c) (ref_movethr c) (max_consecutive_restoration c)
    (init_sample_fraction c) (save_state_interval c) (has_noisy c) (init_node_pos c) (init_node_val c) (do_init_strategy c).
Definition flat_pts (k : nat) : list inp := map (fun j => prop [(inject_Z (Z.of_nat j) / 4)%Q] 3%Q (nz 0)) (seq 1 k).
Definition c_flat : cfg := with_limits 3 1 c_ref.
Definition flat (k : nat) : run_result := call c_flat dflt_inp 1000 (flat_pts k) (init_st c_flat).
Definition s_flat (k : nat) : st := at_state c_flat (flat k).
Lemma flat_reach k : is_running (flat k) = true -> reach c_flat (fun i => i_ref_ok i = true) (s_flat k) (at_loc (flat k)).
Proof.
  intros H. unfold s_flat. destruct (flat k) as [s l|s|e] eqn:E; try discriminate.
  cbn [at_state at_loc]. apply (reach_call c_flat (fun i => i_ref_ok i = true) dflt_inp 1000 (flat_pts k)); [reflexivity| |exact E].
  unfold flat_pts. rewrite Forall_forall. intros i Hi. apply in_map_iff in Hi as (j & <- & _). reflexivity.
Qed.
Definition steps_of (es : list event) : list Z := flat_map (fun e => match e with EvStep z => [z] | _ => [] end) es.

Example C154_case : 0 <= num_global_searches c_flat /\ (1 <= window c_flat)%nat /\
  reach c_flat (fun i => i_ref_ok i = true) (s_flat 8) (at_loc (flat 8)) /\ must_restart c_flat (C (s_flat 8)) = false /\
  last_of_cycle c_flat (current_step (C (s_flat 8))) /\ due c_flat (s_flat 8) /\ ~ due c_flat (s_flat 5) /\
  pass c_flat (prop [(9 # 4)%Q] 3%Q (nz 0)) (s_flat 8) (at_loc (flat 8)) = Cont (s_flat 9) (at_loc (flat 9)) /\
  accepted (s_flat 8) (s_flat 9) /\ current_step (C (s_flat 9)) = num_global_searches c_flat + 2 /\
  pass c_flat (prop [(10 # 4)%Q] 3%Q (nz 0)) (s_flat 9) (at_loc (flat 9)) = Cont (s_flat 10) (at_loc (flat 10)) /\
  current_step (C (s_flat 10)) = 0 /\ streak c_flat (trace (s_flat 10)) = 1.
Proof.
  split; [vm_compute; discriminate|]. split; [vm_compute; lia|].
  split; [apply flat_reach; vm_compute; reflexivity|]. split; [vm_compute; reflexivity|].
  split; [vm_compute; reflexivity|]. split; [vm_compute; discriminate|].
  split; [vm_compute; intros X; apply X; reflexivity|]. split; [vm_compute; reflexivity|].
  split; [split; [vm_compute; reflexivity|exists (repeat false 8); vm_compute; reflexivity]|].
  split; [vm_compute; reflexivity|]. split; [vm_compute; reflexivity|]. split; vm_compute; reflexivity.
Qed.
(** A phase that goes on: limit 5. *)
Definition c_long : cfg := with_limits 0 5 c_ref.
Example C154_continues_case :
  let s := at_state c_long (call c_long dflt_inp 1000 (flat_pts 4) (init_st c_long)) in
  let l := at_loc (call c_long dflt_inp 1000 (flat_pts 4) (init_st c_long)) in
  reach c_long any_inp s l /\ current_step (C s) = num_global_searches c_long + 2 /\ streak c_long (trace s) = 1 /\
  exists s' l', pass c_long (prop [(5 # 4)%Q] 3%Q (nz 0)) s l = Cont s' l' /\
    current_step (C s') = num_global_searches c_long + 2 /\ streak c_long (trace s') = 2.
Proof.
  cbv zeta. split.
  { apply (reach_call c_long any_inp dflt_inp 1000 (flat_pts 4)); [exact Logic.I|apply any_all|vm_compute; reflexivity]. }
  split; [vm_compute; reflexivity|]. split; [vm_compute; reflexivity|].
  do 2 eexists. split; [vm_compute; reflexivity|]. split; vm_compute; reflexivity.
Qed.

(** The documentation of [refinement_frequency] promises a number of full search cycles after which
    the refinement is performed in case a better solution has been found in the meantime.  Here the
    frequency is 3, two full cycles without any better value follow a refinement, and the next
    refinement begins (no share of the budget is used up). *)
Theorem C154_frequency_refuted : exists c s0 l0 s l i s' l', reach c any_inp s0 l0 /\ reach c any_inp s l /\
  refinement_frequency c = 3 /\
  last (steps_of (trace s0)) 0 = num_global_searches c + 2 /\
  (exists es, trace s' = (trace s0 ++ es)%list /\ steps_of es = [0; 1; 2; 0; 1; 2] /\
     (forall z, In (EvStep z) es -> z <= num_global_searches c + 1) /\
     (forall p v, In (EvAcc p v) es -> v = 3%Q)) /\
  num_global_searches c = 1 /\ do_infstep c = true /\ do_local_search c = true /\
  fmin (I s0) = Some 3%Q /\ fmin (I s') = Some 3%Q /\
  pass c i s l = Cont s' l' /\ current_step (C s') = num_global_searches c + 2 /\
  ~ lifted c (itercount (C s)) (evalcount (C s')) (i_time_unl i) (num_stalled_iter (C s)).
Proof.
  assert (W : forall k, is_running (flat k) = true -> reach c_flat any_inp (s_flat k) (at_loc (flat k))).
  { intros k Hk. unfold s_flat. destruct (flat k) as [s l|s|e] eqn:E; try discriminate.
    cbn [at_state at_loc]. apply (reach_call c_flat any_inp dflt_inp 1000 (flat_pts k)); [exact Logic.I|apply any_all|exact E]. }
  exists c_flat, (s_flat 10), (at_loc (flat 10)), (s_flat 15), (at_loc (flat 15)), (prop [(16 # 4)%Q] 3%Q (nz 0)), (s_flat 16), (at_loc (flat 16)).
  split; [apply W; vm_compute; reflexivity|]. split; [apply W; vm_compute; reflexivity|]. split; [reflexivity|].
  split; [vm_compute; reflexivity|].
  split.
  { exists (skipn (length (trace (s_flat 10))) (trace (s_flat 16))). split; [vm_compute; reflexivity|].
    split; [vm_compute; reflexivity|]. split.
    - vm_compute. intros z Hz. repeat (destruct Hz as [Hz|Hz]; [try discriminate Hz; injection Hz as <-; discriminate|]). destruct Hz.
    - vm_compute. intros p v Hv. repeat (destruct Hv as [Hv|Hv]; [try discriminate Hv; injection Hv as _ <-; reflexivity|]). destruct Hv. }
  split; [reflexivity|]. split; [reflexivity|]. split; [reflexivity|]. split; [vm_compute; reflexivity|].
  split; [vm_compute; reflexivity|]. split; [vm_compute; reflexivity|]. split; [vm_compute; reflexivity|].
  vm_compute. intros [X|[X|[X|X]]]; try (apply X; reflexivity). discriminate X.
Qed.
Print Assumptions C154_frequency_refuted.
