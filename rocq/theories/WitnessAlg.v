(** * Concrete scenarios for the serial optimizer: used by the examples and refutations of
    [PropertiesAlg].  All are small runs on a one-dimensional problem. *)
From Verif Require Export AlgGlue.
Open Scope Z_scope.
Definition nz (v : Q) : Q * Q * Q := (v, -(1#2), 1#2)%Q.
Definition at_state (c : cfg) (r : run_result) : st :=
  match r with Running s _ => s | Done s => s | Failed _ => init_st c end.
Definition at_loc (r : run_result) : loc :=
  match r with Running _ l => l | _ => mkLoc None None 0 0 end.
Definition is_running (r : run_result) : bool := match r with Running _ _ => true | _ => false end.
Lemma running_reach k i0 is :
  is_running (call0 k i0 is) = true ->
  reach (wcfg k) any_inp (at_state (wcfg k) (call0 k i0 is)) (at_loc (call0 k i0 is)).
Proof.
  intros H. destruct (call0 k i0 is) as [s l|s|e] eqn:E; try discriminate.
  cbn. eapply reach_call; [exact Logic.I|apply any_all|exact E].
Qed.
(** The same with restricted inputs. *)
Lemma running_reach_ok k (ok : inp -> Prop) i0 is :
  ok i0 -> Forall ok is -> is_running (call0 k i0 is) = true ->
  reach (wcfg k) ok (at_state (wcfg k) (call0 k i0 is)) (at_loc (call0 k i0 is)).
Proof.
  intros H0 HF H. destruct (call0 k i0 is) as [s l|s|e] eqn:E; try discriminate.
  cbn. eapply reach_call; [exact H0|exact HF|exact E].
Qed.

(** An ordinary run: six passes with three evaluations, two discards and a skipped step. *)
Definition is_ord : list inp :=
  [prop [4%Q] 3%Q (nz 0); prop [4%Q] 3%Q (nz 0); prop [12%Q] 3%Q (nz 0);
   prop [6%Q] 1%Q (nz 0); prop [6%Q] 1%Q (nz 0); prop [7%Q] 2%Q (nz 0)].
Definition run_ord := call0 kn0 dflt_inp is_ord.
Definition s_ord := at_state (wcfg kn0) run_ord.
Definition l_ord := at_loc run_ord.

(** Small budget: one evaluation allowed, the initial sample makes two. *)
Definition k_small := mkKnobs false false [] [0%Q] [10%Q] 30 1 (1#1000000) (1#1000) (-100) [] [] 2 20 2 false true 10 2 100 true.
Definition run_small := call0 k_small dflt_inp [dflt_inp].

(** Two-phase run: the best noisy node is evaluated again after the switch. *)
Definition k_two := mkKnobs false true [] [0%Q] [10%Q] 30 40 (1#1000000) (1#1000) (-100) [] [] 2 20 1 false true 4 2 100 true.
Definition is_two : list inp :=
  [prop [4%Q] 30%Q (nz 20%Q); prop [5%Q] 30%Q (nz 21%Q); prop [5%Q] 50%Q (nz 21%Q);
   prop [5%Q] 50%Q (nz 21%Q); with_reeval 0 (prop [5%Q] 50%Q (nz 21%Q))].
Definition run_two := call0 k_two dflt_inp is_two.

(** Affine scaling forced on a problem with an integer variable in [5,10]. *)
Definition k_aff := mkKnobs true false [0%nat] [5%Q] [10%Q] 30 40 (1#1000000) (1#1000) (-100) [] [] 2 20 2 false true 10 2 100 true.
Definition i_aff := with_samples (Some [[5%Q]; [10%Q]]) (fun j => inject_Z (Z.of_nat j)) dflt_inp.
Definition run_aff := call0 k_aff i_aff [prop [7%Q] 3%Q (nz 0)].

(** A noisy limit reached already at the initialization. *)
Definition k_lim := mkKnobs false true [] [0%Q] [10%Q] 30 40 (1#1000000) (1#1000) (-100) [] [] 2 20 2 false true 2 2 100 true.
Definition run_lim := call0 k_lim dflt_inp [].

(** Noisy mode with a discard window of 2: restarts after two discards. *)
Definition k_res := mkKnobs false true [] [0%Q] [10%Q] 30 40 (1#1000000) (1#1000) (-100) [] [] 2 2 1 false true 100 20 100 true.
Definition resample (i : inp) : inp := with_samples (Some [[2%Q]; [9%Q]]) (i_rs_acc dflt_inp) i.
Definition is_stale : list inp :=
  [prop [4%Q] 3%Q (30%Q, -(1#4), 1#4)%Q; prop [5%Q] 3%Q (31%Q, -(1#8), 1#8)%Q;
   prop [0%Q] 3%Q (nz 0); prop [0%Q] 3%Q (nz 0); prop [0%Q] 3%Q (nz 0);
   prop [0%Q] 3%Q (nz 0); resample (prop [4%Q] 3%Q (nz 0))].
Definition run_stale := call0 k_res dflt_inp is_stale.
Definition is_name : list inp :=
  [prop [0%Q] 3%Q (nz 0); prop [0%Q] 3%Q (nz 0); prop [0%Q] 3%Q (nz 0);
   resample (prop [0%Q] 3%Q (nz 0))].
Definition is_index : list inp :=
  [prop [0%Q] 3%Q (nz 0); prop [0%Q] 3%Q (nz 0); prop [0%Q] 3%Q (nz 0);
   prop [0%Q] 3%Q (nz 0)].

(** Accurate mode with a discard window of 2; the sample of the second restart reaches the
    target. *)
Definition k_rst := mkKnobs false false [] [0%Q] [10%Q] 30 40 (1#100) (1#1000) (-100) [] [] 2 2 1 false true 10 2 100 true.
Definition is_rst : list inp :=
  [prop [0%Q] 3%Q (nz 0); prop [0%Q] 3%Q (nz 0); prop [0%Q] 3%Q (nz 0);
   with_samples (Some [[2%Q]; [9%Q]]) (fun _ => (-100)%Q) (prop [2%Q] 3%Q (nz 0))].
Definition run_rst := call0 k_rst dflt_inp is_rst.
Definition i_next : inp := prop [7%Q] 33%Q (nz 0).

(** A run with user-supplied points and values: the third is too close to the first. *)
Definition k_usr := mkKnobs false false [] [0%Q] [10%Q] 30 40 (1#1000000) (1#1000) (-100)
  [[3%Q]; [0%Q]; [3%Q]; [8%Q]] [7%Q; 1%Q; 7%Q; 2%Q] 2 20 2 false true 10 2 100 true.
Definition run_usr := call0 k_usr dflt_inp [].

(** A run in which a point evaluated before a restart is proposed again. *)
Definition is_again : list inp :=
  [prop [4%Q] 3%Q (nz 0); prop [0%Q] 3%Q (nz 0); prop [0%Q] 3%Q (nz 0); prop [0%Q] 3%Q (nz 0);
   prop [0%Q] 3%Q (nz 0); prop [0%Q] 3%Q (nz 0);
   with_samples (Some [[2%Q]; [9%Q]]) (fun j => inject_Z (8 + Z.of_nat j)) (prop [4%Q] 99%Q (nz 0))].
Definition k_again := mkKnobs false false [] [0%Q] [10%Q] 30 40 (1#1000) (1#1000) (-100) [] [] 2 2 1 false true 10 2 100 true.
Definition run_again := call0 k_again dflt_inp is_again.

(** Stretch of the ordinary run. *)
Definition r_start (c : cfg) : st * loc :=
  match start_call c dflt_inp 1000 (init_st c) with Ok x => x | Fail _ => (init_st c, mkLoc None None 0 0) end.
Lemma iterations_witness : let c := wcfg kn0 in exists s0 l0, reach c any_inp s0 l0 /\
  iterations c s0 [Some 3%Q; Some 3%Q; Some 3%Q; Some 1%Q; Some 1%Q] s_ord l_ord /\
  num_stalled_iter (C s_ord) = 1.
Proof.
  cbv zeta. exists (fst (r_start (wcfg kn0))), (snd (r_start (wcfg kn0))).
  split; [apply (reach_start (wcfg kn0) any_inp dflt_inp 1000); [exact Logic.I|vm_compute; reflexivity]|].
  split; [|vm_compute; reflexivity].
  set (c := wcfg kn0). set (s0 := fst (r_start c)).
  assert (G : forall is s l fs, iterations c s0 fs s l ->
    forall fs' s' l', (fix go (js : list inp) (a : st) (b : loc) (acc : list (option Q)) : option (list (option Q) * st * loc) :=
       match js with
       | [] => Some (acc, a, b)
       | i :: r => match pass c i a b with
                   | Cont a' b' => if restarts_in (trace a') =? restarts_in (trace a)
                                   then go r a' b' (acc ++ (if itercount (C a') =? itercount (C a) then [] else [fmin (I a')]))
                                   else None
                   | _ => None end end) is s l fs = Some (fs', s', l') -> iterations c s0 fs' s' l').
  { induction is as [|i is IH]; intros s l fs H fs' s' l' E.
    - inversion E; subst; exact H.
    - cbn -[pass Z.eqb restarts_in] in E. destruct (pass c i s l) as [s1 l1| |] eqn:Ep; try discriminate.
      destruct (restarts_in (trace s1) =? restarts_in (trace s)) eqn:Er; [|discriminate].
      apply Z.eqb_eq in Er. eapply IH; [|exact E]. econstructor; eauto. }
  eapply (G is_ord s0 (snd (r_start c)) []); [constructor|]. vm_compute. reflexivity.
Qed.

(** Refinement frequency 0: the first local step with an evaluation starts a refinement; the next
    proposal is discarded. *)
Definition c_ref : cfg :=
  let c := wcfg (mkKnobs false false [] [0%Q] [10%Q] 30 40 (1#1000000) (1#1000) (-100) [] [] 2 20 1 true true 10 2 100 true) in
  mkCfg (n c) (var_lower c) (var_upper c) (integer_vars c) (affine c) (max_iterations c) (max_evaluations c)
    (max_cycles c) (search_space_size c) (max_noisy_evaluations c) (max_noisy_restarts c) (max_noisy_iterations c)
    (eps_opt c) (eps_zero c) (eps_impr c) (min_dist c) (target_objval c) (do_infstep c) (do_local_search c)
    (num_global_searches c) (discarded_window_size c) (num_cpus c) (max_fraction_discarded c) (max_stalled_iterations c)
    0 (max_consecutive_refinement c) (thresh_unlimited_refinement c) (thresh_unlimited_refinement_stalled c)
    (ref_min_radius c) (ref_shrink c) (ref_enlarge c) (ref_movethr c) (max_consecutive_restoration c)
    (init_sample_fraction c) (save_state_interval c) (has_noisy c) (init_node_pos c) (init_node_val c) (do_init_strategy c).
Definition is_ref : list inp := [prop [4%Q] 3%Q (nz 0); prop [5%Q] 3%Q (nz 0); prop [6%Q] 3%Q (nz 0)].
Definition run_ref := call c_ref dflt_inp 1000 is_ref (init_st c_ref).
Lemma refinement_discard_witness : exists c s l i s' l', reach c any_inp s l /\
  current_step (C s) = num_global_searches c + 2 /\ do_infstep c = true /\
  pass c i s l = Cont s' l' /\ current_step (C s') = 1.
Proof.
  exists c_ref, (at_state c_ref run_ref), (at_loc run_ref), (prop [6%Q] 3%Q (nz 0)). do 2 eexists.
  split.
  { apply (reach_call c_ref any_inp dflt_inp 1000 is_ref); [exact Logic.I|apply any_all|vm_compute; reflexivity]. }
  split; [vm_compute; reflexivity|]. split; [reflexivity|]. split; [vm_compute; reflexivity|vm_compute; reflexivity].
Qed.
Lemma single_point_witness : exists c i0, init_node_pos c = [[3%Q]] /\ init_node_val c = [7%Q] /\
  do_init_strategy c = false /\ call c i0 1000 [] (init_st c) = Failed EAssert.
Proof.
  exists (wcfg (mkKnobs false false [] [0%Q] [10%Q] 30 40 (1#1000000) (1#1000) (-100) [[3%Q]] [7%Q] 2 20 2 false true 10 2 100 false)), dflt_inp.
  vm_compute. auto.
Qed.
