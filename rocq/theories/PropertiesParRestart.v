(** * Properties: parallel initialization that never ends (C76) and parallel restarts with a known sample (C86) *)
From Coq Require Import Lia Lqa.
From Verif Require Import SampleSize ParRestart ParStuck BaseLemmas InitProofs InitSample ModelInit PropertiesPar.
From Verif Require Import ModelParallel SpecParallel WitnessPar.
Open Scope Z_scope.

(** ** C76 *)
(** Whatever the sample, its size decides: if it has fewer points than the restart waits for, a first call of
    [optimize] never gets past the wait for it, for every schedule of the workers and every duration of the run. *)
Theorem C76_small_sample_never_starts : forall pc0 q pa pts,
  do_init_strategy (base pc0) = true -> refinement_frequency (base pc0) <> 0 -> i_samples (q_inp q) = Some pts ->
  Z.of_nat (length pts) < Z.max 2 (round_half_even (inject_Z (Z.of_nat (n (base pc0)) + 1) * init_sample_fraction (base pc0))%Q) ->
  forall qs, exists w P, pcall pc0 q pa qs = (PcWait (WStart pa) w, P).
Proof.
  intros pc0 q pa pts Hi Hf Hs Hl qs. destruct (start_waits pc0 q pa pts Hs Hi Hf) as (w & P & E).
  pose proof (start_short pc0 q pa _ _ _ _ pts Hs Hi Hl E) as L. unfold pcall. rewrite E. apply wait_forever. exact L.
Qed.
Print Assumptions C76_small_sample_never_starts.
(** A restart in the course of a run is no different. *)
Theorem C76_small_sample_never_resumes : forall pc0 q m P kind w P' pts,
  do_init_strategy (base pc0) = true -> i_samples (q_inp q) = Some pts ->
  Z.of_nat (length pts) < Z.max 2 (round_half_even (inject_Z (Z.of_nat (n (base pc0)) + 1) * init_sample_fraction (base pc0))%Q) ->
  (forall k w0, m <> PcWait k w0) -> pstep pc0 q m P = (PcWait kind w, P') ->
  forall qs, exists w' P2, prun pc0 qs (PcWait kind w) P' = (PcWait kind w', P2).
Proof.
  intros pc0 q m P kind w P' pts Hi Hs Hl NW H qs. apply wait_forever. exact (step_short pc0 q m P kind w P' pts NW Hs Hi Hl H).
Qed.
Print Assumptions C76_small_sample_never_resumes.
(** The settings that lead there: the strategies 'lower_corners' and 'rand_corners' with an init_sample_fraction of
    at least 2, whatever the problem (of at least one variable): the parallel optimizer never evaluates a point of its own. *)
Theorem C76_corner_strategies_refuted : forall pc0 q pa ic s lo up ints attempts pts,
  do_init_strategy (base pc0) = true -> refinement_frequency (base pc0) <> 0 ->
  (i_strategy ic = LowerCorners \/ i_strategy ic = RandCorners) -> (2 <= init_sample_fraction (base pc0))%Q ->
  (1 <= n (base pc0))%nat -> length lo = n (base pc0) -> length up = n (base pc0) ->
  initialize_nodes ic s lo up ints attempts = InitOk pts -> i_samples (q_inp q) = Some pts ->
  forall qs, exists w P, pcall pc0 q pa qs = (PcWait (WStart pa) w, P).
Proof.
  intros pc0 q pa ic s lo up ints attempts pts Hi Hf HS HF HN HL HU H Hs. apply C76_small_sample_never_starts with (pts := pts); try assumption.
  assert (LU : length up = length lo) by lia.
  pose proof (corner_count ic s lo up ints attempts pts HS LU H) as C1.
  pose proof (awaited_big (init_sample_fraction (base pc0)) (n (base pc0)) HF HN) as C2. unfold min_num_init_samples_parallel in C2.
  eapply Z.le_lt_trans; [|exact C2]. rewrite HL in C1. lia.
Qed.
Print Assumptions C76_corner_strategies_refuted.
(** One variable on [0, 10], init_sample_fraction 2, the lower corners and the midpoint: three points, four are awaited. *)
Definition c_two : pcfg := pw kn0 2 2 3 true.
Definition ic_two : init_cfg := mkInit LowerCorners 2 (1#10) 2 true (1#1000) 5.
Definition att_two : attempt := mkAttempt [] [] 0 (fun _ => true).
Definition s_two : setup := mkSetup [] [0%Q] [10%Q] [] [] [] [].
Example C76_corner_case :
  initialize_nodes ic_two s_two [0%Q] [10%Q] [] [att_two] = InitOk [[0%Q]; [10%Q]; [10#2]] /\
  i_samples (q_inp (sample [[0%Q]; [10%Q]; [10#2]])) = Some [[0%Q]; [10%Q]; [10#2]] /\
  do_init_strategy (base c_two) = true /\ refinement_frequency (base c_two) <> 0 /\ (2 <= init_sample_fraction (base c_two))%Q /\
  n (base c_two) = 1%nat.
Proof. vm_compute. repeat split; discriminate. Qed.

(** The Latin hypercube strategies (the default) lead there too when the problem has a single variable before categorical
    variables are expanded and more than three points are awaited: only the two bounds and the midpoint are sampled. *)
Theorem C76_single_variable_refuted : forall pc0 q pa ic s lo up ints attempts pts,
  do_init_strategy (base pc0) = true -> refinement_frequency (base pc0) <> 0 ->
  (i_strategy ic = LhdMaximin \/ i_strategy ic = LhdCorr) ->
  length (match s_expansion s with [] => lo | _ => compress_bounds s lo end) = 1%nat ->
  3 < Z.max 2 (round_half_even (inject_Z (Z.of_nat (n (base pc0)) + 1) * init_sample_fraction (base pc0))%Q) ->
  initialize_nodes ic s lo up ints attempts = InitOk pts -> i_samples (q_inp q) = Some pts ->
  forall qs, exists w P, pcall pc0 q pa qs = (PcWait (WStart pa) w, P).
Proof.
  intros pc0 q pa ic s lo up ints attempts pts Hi Hf HS HL HA H Hs. apply C76_small_sample_never_starts with (pts := pts); try assumption.
  assert (HD : is_lhd (i_strategy ic) = true) by (destruct HS as [-> | ->]; reflexivity).
  assert (H1 : length (drawn_lower ic s lo) = 1%nat) by (unfold drawn_lower, compressed; rewrite HD; cbn [andb]; destruct (s_expansion s); exact HL).
  pose proof (one_variable_count ic s lo up ints attempts pts HD H1 H) as L. lia.
Qed.
Print Assumptions C76_single_variable_refuted.
(** One categorical variable with three values, the default strategy and the fraction 1 that the automatic setting selects with more
    than two CPUs: three points, four are awaited. *)
Definition k_cat : knobs :=
  mkKnobs false false [0%nat; 1%nat; 2%nat] [0%Q; 0%Q; 0%Q] [1%Q; 1%Q; 1%Q] 30 40 (1#1000000) (1#1000) (-100) [] [] 2 20 2 false true 10 2 100 true.
Definition c_cat : pcfg := pw k_cat 4 1 3 true.
Definition ic_cat : init_cfg := mkInit LhdMaximin 1 (1#5) 4 true (1#1000) 5.
Definition s_cat3 : setup := mkSetup [] [0%Q; 0%Q; 0%Q] [1%Q; 1%Q; 1%Q] [0%nat; 1%nat; 2%nat] [0%nat] [] [(0%nat, 0%Q, [0%nat; 1%nat; 2%nat])].
Example C76_single_variable_case :
  compress_bounds s_cat3 [0%Q; 0%Q; 0%Q] = [0%Q] /\
  (exists pts, initialize_nodes ic_cat s_cat3 [0%Q; 0%Q; 0%Q] [1%Q; 1%Q; 1%Q] [0%nat; 1%nat; 2%nat] [att_two] = InitOk pts /\
     pts = [[1; 0; 0]; [0; 0; 1]; [0; 1; 0]]%Q) /\
  3 < Z.max 2 (round_half_even (inject_Z (Z.of_nat (n (base c_cat)) + 1) * init_sample_fraction (base c_cat))%Q).
Proof. split; [vm_compute; reflexivity|]. split; [eexists; split; [vm_compute; reflexivity|reflexivity]|vm_compute; reflexivity]. Qed.
(** With an init_sample_fraction of at most 1 (every automatic value is) and any strategy, all other problems have samples that
    are large enough, so that [C76_progress] applies. *)
Theorem C76_sample_large_enough : forall ic s lo up ints attempts pts,
  (0 <= i_frac ic <= 1)%Q -> (0 <= i_incr ic)%Q -> (1 <= length lo)%nat -> length up = length lo ->
  (s_expansion s = [] \/ length (compress_bounds s lo) <> 1%nat \/ (i_strategy ic <> LhdMaximin /\ i_strategy ic <> LhdCorr)) ->
  (forall a, In a attempts -> a_trials a <> [] /\ (a_corr a < length (a_trials a))%nat) ->
  initialize_nodes ic s lo up ints attempts = InitOk pts ->
  Z.max 2 (round_half_even (inject_Z (Z.of_nat (length lo) + 1) * i_frac ic)%Q) <= Z.of_nat (length pts).
Proof.
  intros ic s lo up ints attempts pts (F0 & F1) HI HN HU HC HA H. apply (sample_suffices ic s lo up ints attempts pts F0 F1 HI HN HU); [|exact HA|exact H].
  intros HD. unfold drawn_lower, compressed. rewrite HD. cbn [andb]. destruct HC as [E|[E|(E1 & E2)]].
  - rewrite E. destruct (Nat.eq_dec (length lo) 1); auto.
  - destruct (s_expansion s); [|left; exact E]. destruct (Nat.eq_dec (length lo) 1); auto.
  - destruct (i_strategy ic); congruence || discriminate.
Qed.
Print Assumptions C76_sample_large_enough.
Definition att_lhd : attempt := mkAttempt [] [([[1%nat; 0%nat; 2%nat]; [0%nat; 2%nat; 1%nat]], [[1#2; 1#2]; [1#2; 1#2]; [1#2; 1#2]]%Q)] 0 (fun _ => true).
Example C76_large_enough_case :
  exists pts, initialize_nodes (mkInit LhdMaximin 1 (1#5) 1 true (1#1000) 5) (mkSetup [] [0%Q; 0%Q] [10%Q; 10%Q] [] [] [] []) [0%Q; 0%Q] [10%Q; 10%Q] [] [att_lhd] = InitOk pts /\
  length pts = 4%nat.
Proof. eexists. split; [vm_compute; reflexivity|reflexivity]. Qed.

(** ** C86 *)
(** In a parallel run a noisy restart whose sample was evaluated before does not fail: it submits nothing, and the next step,
    whatever happens meanwhile, goes on with one node for every sample point. *)
Theorem C86_parallel_known_sample : forall pc0 q P w P1 pts, 0 < itercount (C (p_s P)) -> all_pos (T (p_s P)) <> [] ->
  length (all_err (T (p_s P))) = length (all_pos (T (p_s P))) -> (fbest_index (I (p_s P)) < length (all_err (T (p_s P))))%nat ->
  i_samples (q_inp q) = Some pts -> (2 <= length pts)%nat -> samples_from (base pc0) q -> noisy_mode (C (p_s P)) = true ->
  (forall p, In p pts -> exists p', In p' (all_pos (T (p_s P))) /\ (0 <= eps_zero (base pc0) /\ sqdist p p' <= eps_zero (base pc0) * eps_zero (base pc0))%Q) ->
  pstep pc0 q PcPlan P = (PcWait WMid w, P1) ->
  p_log P1 = p_log P /\
  forall q', exists P2, pstep pc0 q' (PcWait WMid w) P1 = (PcPlan2, P2) /\ length (node_pos (T (p_s P2))) = length pts /\
    evalcount (C (p_s P2)) = evalcount (C (p_s P)) /\ noisy_evalcount (C (p_s P2)) = noisy_evalcount (C (p_s P)).
Proof.
  intros pc0 q P w P1 pts H1 H2 H3 H4 H5 H6 H7 H8 H9 H. cbn [pstep] in H. unfold plan in H.
  destruct (skip_step _ _); [discriminate|]. destruct (must_restart_parallel _ _); [|discriminate]. destruct (idle _); [|discriminate].
  destruct (restart_begin (base pc0) q WMid P) as [[m Pb]|e] eqn:E; cbn [finish_step] in H; [|discriminate]. injection H as -> ->.
  assert (K : forall p, In p pts -> near (eps_zero (base pc0)) p (all_pos (T (p_s P))) = true) by (intros p Hp; apply near_true; auto).
  destruct (known_sample _ _ _ _ _ _ pts H1 H2 H3 H4 H5 H6 (H7 pts H5) H8 K E) as (w' & EW & L & G). injection EW as <-. split; [exact L|].
  intros q'. destruct (G q') as (m' & P2 & A & -> & B & _ & D & F). exists P2. cbn [pstep]. rewrite A. cbn [finish_step]. auto.
Qed.
Print Assumptions C86_parallel_known_sample.
(** Two workers' noisy run: after one evaluation without improvement the restart is due, with the sample evaluated before. *)
Definition c_known : pcfg :=
  pw (mkKnobs false true [] [0%Q] [10%Q] 30 400 (1#1000000) (1#1000) (-100) [] [] 2 20 0 false true 100 20 1 true) 1 (1#2) 1000 true.
Definition x_known : pc * pst := pcall c_known two_points 1000
  [ev 0 5; ev 0 6; go; go; go; go; go; go; go; go; go; go; go; WitnessPar.found 0 [4%Q]; go; go; ev 0 7; go; go; go; go].
Example C86_parallel_case : let P := at_pst x_known in
  at_pc x_known = PcPlan /\ 0 < itercount (C (p_s P)) /\ all_pos (T (p_s P)) = [[0%Q]; [10%Q]; [4%Q]] /\ length (all_err (T (p_s P))) = 3%nat /\
  (fbest_index (I (p_s P)) < 3)%nat /\ i_samples (q_inp two_points) = Some [[0%Q]; [10%Q]] /\ samples_from (base c_known) two_points /\
  noisy_mode (C (p_s P)) = true /\ (exists w, fst (pstep c_known two_points PcPlan P) = PcWait WMid w).
Proof.
  cbv zeta. assert (X : samples_from (base c_known) two_points) by (intros pts H; injection H as <-; vm_compute; discriminate).
  split; [vm_compute; reflexivity|]. split; [vm_compute; reflexivity|]. split; [vm_compute; reflexivity|]. split; [vm_compute; reflexivity|].
  split; [vm_compute; repeat constructor|]. split; [reflexivity|]. split; [exact X|]. split; [vm_compute; reflexivity|].
  vm_compute. eexists. reflexivity.
Qed.
Example C86_parallel_reached : preach c_known any_pin PcPlan (at_pst x_known).
Proof. preached. Qed.
