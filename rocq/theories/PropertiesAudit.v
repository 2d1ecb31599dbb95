(** * Additions to C10, C14 and C22. *)
From Verif Require Import WitnessAlg.
From Verif Require Import AuditProofs.
From Coq Require Import Lia Lqa.
Open Scope Z_scope.

(** ** C10 *)
(** Whatever the domain scaling: iterations never bring two nodes within [min_dist]; only a starting sample can. *)
Theorem C10_any_scaling : forall c (ok : inp -> Prop) s l, (0 <= min_dist c)%Q ->
  (forall i s1 s2, ok i -> restart c i s1 = Ok s2 -> all_apart (min_dist c) (node_pos (T s2))) ->
  reach c ok s l -> all_apart (min_dist c) (node_pos (T s)).
Proof. exact separation_any. Qed.
Print Assumptions C10_any_scaling.
(** ... and it does when distances between starting points are measured before scaling: points two apart in [0, 10000] are
    closer than a minimum distance of 1/1000 in the scaled space. *)
Definition k_wide := mkKnobs true false [] [0%Q] [10000%Q] 30 40 (1#1000000) (1#1000) (-100) [] [] 2 20 2 false true 10 2 100 true.
Definition i_wide := with_samples (Some [[0%Q]; [2%Q]]) (fun j => inject_Z (Z.of_nat j)) dflt_inp.
Theorem C10_affine_sample_refuted : exists c s l pts, reach c any_inp s l /\ affine c = true /\ integer_vars c = [] /\
  pts = [[0%Q]; [2%Q]] /\ all_apart (min_dist c + 2 * eps_zero c) pts /\ i_samples i_wide = Some pts /\
  all_pos (T s) = pts /\ length (node_pos (T s)) = 2%nat /\ ~ all_apart (min_dist c) (node_pos (T s)).
Proof.
  pose (r := call0 k_wide i_wide []).
  exists (wcfg k_wide), (at_state (wcfg k_wide) r), (at_loc r), [[0%Q]; [2%Q]].
  split; [apply running_reach; vm_compute; reflexivity|]. split; [reflexivity|]. split; [reflexivity|].
  split; [reflexivity|]. split.
  { intros i j Hij. cbn in Hij. assert (i = 0%nat /\ j = 1%nat) as [-> ->] by lia. vm_compute. reflexivity. }
  split; [reflexivity|]. split; [vm_compute; reflexivity|]. split; [vm_compute; reflexivity|].
  intros H. specialize (H 0%nat 1%nat). cbv [r] in H.
  assert (X : (0 < 1 < length (node_pos (T (at_state (wcfg k_wide) (call0 k_wide i_wide [])))))%nat) by (vm_compute; lia).
  specialize (H X). vm_compute in H. discriminate.
Qed.
Print Assumptions C10_affine_sample_refuted.
(** A run on an affinely scaled problem all of whose starting samples are apart. *)
Definition k_sc := mkKnobs true false [] [0%Q] [10%Q] 30 40 (1#1000000) (1#1000) (-100) [] [] 2 20 2 false true 10 2 100 true.
Definition run_sc := call0 k_sc dflt_inp [prop [(1#2)%Q] 3%Q (nz 0); prop [(1#4)%Q] 3%Q (nz 0); prop [(1#4)%Q] 3%Q (nz 0)].
Example C10_any_case : affine (wcfg k_sc) = true /\ integer_vars (wcfg k_sc) = [] /\ is_running run_sc = true /\
  length (node_pos (T (at_state (wcfg k_sc) run_sc))) = 4%nat /\
  exists s1, restart (wcfg k_sc) dflt_inp (init_st (wcfg k_sc)) = Ok s1 /\ all_apart (min_dist (wcfg k_sc)) (node_pos (T s1)).
Proof.
  split; [reflexivity|]. split; [reflexivity|]. split; [vm_compute; reflexivity|]. split; [vm_compute; reflexivity|].
  eexists. split; [vm_compute; reflexivity|]. intros i j Hij. cbn in Hij.
  assert (i = 0%nat /\ j = 1%nat) as [-> ->] by lia. vm_compute. reflexivity.
Qed.

(** ** C14 *)
(** What is recorded: a noisy node always gets the bounds of the most recent noisy evaluation made in an iteration of the
    current call, whether or not that was an evaluation of the same point; when there was none no noisy node is recorded. *)
Theorem C14_recorded_bounds : forall c (ok : inp -> Prop) i0 pa is s0 l0 s l i s' l' mine e,
  s0 = init_st c \/ reach c ok s0 l0 -> ok i0 -> Forall ok is -> ok i ->
  call c i0 pa is s0 = Running s l -> pass c i s l = Cont s' l' ->
  restarts_in (trace s') = restarts_in (trace s) ->
  all_is_noisy (T s') = all_is_noisy (T s) ++ [true] -> all_err (T s') = all_err (T s) ++ [e] ->
  trace s' = trace s0 ++ mine -> latest_bounds mine = Some e.
Proof. exact recorded_bounds. Qed.
Print Assumptions C14_recorded_bounds.
(** The stale bounds of C14_reused_errors_refuted: restart, sample, then the reuse. *)
Example C14_latest : latest_bounds
  [EvRestart; EvNoisy [0%Q] 1 (-(1#2)) (1#2); EvStep 1; EvNoisy [4%Q] 30 (-(1#4)) (1#4); EvStep 2;
   EvNoisy [5%Q] 31 (-(1#8)) (1#8); EvRestart; EvNoisy [2%Q] 5 (-(1#3)) (1#3); EvStep 1] = Some (-(1#8), 1#8)%Q.
Proof. reflexivity. Qed.
Definition s_noisy1 := at_state (wcfg k_res) (call0 k_res dflt_inp (firstn 1 is_stale)).
Example C14_recorded_case : exists s l s' l', call (wcfg k_res) dflt_inp 1000 (firstn 1 is_stale) (init_st (wcfg k_res)) = Running s l /\
  pass (wcfg k_res) (nth 1 is_stale dflt_inp) s l = Cont s' l' /\
  restarts_in (trace s') = restarts_in (trace s) /\
  all_is_noisy (T s') = all_is_noisy (T s) ++ [true] /\ all_err (T s') = all_err (T s) ++ [(-(1#8), 1#8)%Q].
Proof.
  do 4 eexists. split; [vm_compute; reflexivity|]. split; [vm_compute; reflexivity|].
  repeat split; vm_compute; reflexivity.
Qed.

(** ** C22 *)
(** One iteration, exactly: an improvement by at least the threshold resets the count and moves the reference; anything less
    adds one to the count and keeps the reference; a pass that completes no iteration changes neither. *)
Theorem C22_iteration : forall c ok i s l s' l', reach c ok s l -> pass c i s l = Cont s' l' ->
  restarts_in (trace s') = restarts_in (trace s) ->
  (itercount (C s') = itercount (C s) /\ num_stalled_iter (C s') = num_stalled_iter (C s) /\
   fmin_stall_check (C s') = fmin_stall_check (C s)) \/
  (itercount (C s') = itercount (C s) + 1 /\
   exists best ref, fmin (I s') = Some best /\ fmin_stall_check (C s) = Some ref /\
    ((best <= ref - eps_impr c * Qmax 1 (Qabs ref))%Q /\
       num_stalled_iter (C s') = 0 /\ fmin_stall_check (C s') = Some best \/
     (ref - eps_impr c * Qmax 1 (Qabs ref) < best)%Q /\
       num_stalled_iter (C s') = num_stalled_iter (C s) + 1 /\ fmin_stall_check (C s') = Some ref)).
Proof. exact iteration_exact. Qed.
Print Assumptions C22_iteration.
Example C22_iteration_case : exists s' l', reach (wcfg kn0) any_inp s_ord l_ord /\
  pass (wcfg kn0) (prop [9%Q] 0%Q (nz 0)) s_ord l_ord = Cont s' l' /\
  restarts_in (trace s') = restarts_in (trace s_ord) /\
  num_stalled_iter (C s_ord) = 1 /\ num_stalled_iter (C s') = 0.
Proof.
  do 2 eexists. split; [apply running_reach; vm_compute; reflexivity|]. split; [vm_compute; reflexivity|].
  split; [vm_compute; reflexivity|]. split; vm_compute; reflexivity.
Qed.
