(** * Concrete parallel runs used by the examples and refutations. *)
From Verif Require Export ParSep Witness.
From Verif Require Import ModelInit.
Open Scope Z_scope.

(** The configuration of [Witness], with other numbers for the parallel optimizer. *)
Definition pwcfg (k : knobs) (cpus : Z) (frac : Q) (freq : Z) : cfg :=
  let c := wcfg k in
  mkCfg (n c) (var_lower c) (var_upper c) (integer_vars c) (affine c)
        (max_iterations c) (max_evaluations c) (max_cycles c) (search_space_size c)
        (max_noisy_evaluations c) (max_noisy_restarts c) (max_noisy_iterations c)
        (eps_opt c) (eps_zero c) (eps_impr c) (min_dist c) (target_objval c)
        (do_infstep c) (do_local_search c) (num_global_searches c)
        (discarded_window_size c) cpus (max_fraction_discarded c) (max_stalled_iterations c)
        freq (max_consecutive_refinement c)
        (thresh_unlimited_refinement c) (thresh_unlimited_refinement_stalled c)
        (ref_min_radius c) (ref_shrink c) (ref_enlarge c) (ref_movethr c)
        (max_consecutive_restoration c) frac (save_state_interval c) (has_noisy c)
        (init_node_pos c) (init_node_val c) (do_init_strategy c).
Definition pw (k : knobs) (cpus : Z) (frac : Q) (freq : Z) (auto : bool) : pcfg :=
  mkPcfg (pwcfg k cpus frac freq) auto 5.

(** Inputs of one step. *)
Definition go : pin := mkPin dflt_inp None (APoint None false) 0%Q.      (* nothing is ready *)
Definition stop : pin :=
  mkPin (mkInp false (i_samples dflt_inp) (i_rs_acc dflt_inp) (i_rs_noisy dflt_inp) (i_rs_user dflt_inp)
        true true [0%nat; 1%nat] 1%Q None None (fun _ => None) 1%Q 1%Q 0%nat false false 3%Q (4, -(1#4), 1#4)%Q)
        None (APoint None false) 0%Q.                                     (* time limit reached *)
Definition ev (j : nat) (v : Q) : pin := mkPin (prop [] v (v, -(1#4), 1#4)%Q) (Some j) (APoint None false) 0%Q.
Definition found (j : nat) (p : point) : pin := mkPin dflt_inp (Some j) (APoint (Some p) false) 5%Q.
Definition nothing (j : nat) : pin := mkPin dflt_inp (Some j) (APoint None false) 5%Q.
Definition again (j : nat) (p : point) (ind : nat) : pin := mkPin dflt_inp (Some j) (AReeval p ind) 5%Q.
Definition lin_fails : pin := mkPin (with_lin false dflt_inp) None (APoint None false) 0%Q.
Definition sample (pts : list point) : pin := mkPin (with_samples (Some pts) (i_rs_acc dflt_inp) dflt_inp) None (APoint None false) 0%Q.

Definition pcall (pc0 : pcfg) (q0 : pin) (pa : Z) (qs : list pin) : pc * pst :=
  let '(m, P) := pstart pc0 q0 pa (pinit (base pc0)) in prun pc0 qs m P.
Lemma reach_prun pc0 (ok : pin -> Prop) : forall qs m P m' P', preach pc0 ok m P -> Forall ok qs ->
  prun pc0 qs m P = (m', P') -> preach pc0 ok m' P'.
Proof.
  induction qs as [|q r IH]; intros m P m' P' HR HF H; cbn in H; [injection H as <- <-; exact HR|].
  inversion HF; subst. destruct (pstep pc0 q m P) as [m1 P1] eqn:E.
  eapply IH; [|eassumption|exact H]. eapply pr_step; eauto.
Qed.
Lemma reach_pcall pc0 (ok : pin -> Prop) q0 pa qs m P : ok q0 -> Forall ok qs ->
  pcall pc0 q0 pa qs = (m, P) -> preach pc0 ok m P.
Proof.
  intros H0 HF H. unfold pcall in H. destruct (pstart _ _ _ _) as [m1 P1] eqn:E.
  eapply reach_prun; [eapply pr_start; eauto|exact HF|exact H].
Qed.
Lemma any_pins qs : Forall any_pin qs.
Proof. apply Forall_forall. intros; exact Logic.I. Qed.
