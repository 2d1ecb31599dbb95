(** * When exactly the optimizer restarts (C147); which record a re-evaluation removes (C148); exact forms of parts of C61,
    C69 and C72.  Vocabulary: [SpecExact]. *)
From Verif Require Import ExactProofs ParRefine.
From Verif Require Import AlgHist AlgGlue AlgFrame.
From Verif Require Import WitnessAlg.
From Verif Require Import PropertiesPar WitnessPar.
From Coq Require Import Lia Lqa.
Open Scope Z_scope.

(** ** C147, serial *)
(** A pass at a step that is not disabled restarts whenever a restart is due. *)
Theorem C147_due : forall c i s l s' l', pass c i s l = Cont s' l' -> ~ disabled c s ->
  restart_due c (discarded_window_size c) s -> restarts_in (trace s) < restarts_in (trace s').
Proof. intros c i s l s' l' H ND D. rewrite !restarts_in_eq. exact (pass_due c i s l s' l' H ND D). Qed.
Print Assumptions C147_due.
(** When the linear algebra succeeds, it restarts exactly then; a pass at a disabled step never restarts. *)
Theorem C147_iff : forall c i s l s' l', pass c i s l = Cont s' l' -> i_lin_ok i = true ->
  current_step (C s) <> num_global_searches c + 3 ->
  (restarts_in (trace s) <> restarts_in (trace s') <-> ~ disabled c s /\ restart_due c (discarded_window_size c) s).
Proof.
  intros c i s l s' l' H L E. split.
  - intros R. rewrite !restarts_in_eq in R. assert (ND : ~ disabled c s).
    { intros D. apply disabled_iff in D. unfold pass in H. destruct (negb _); [discriminate|]. rewrite D in H. injection H as <- _.
      apply R. unfold advance_st. reflexivity. }
    split; [exact ND|]. destruct (pass_restart_reason c i s l s' l' H) as [A|[A|A]]; [congruence| | |].
    + now apply serial_due_iff.
    + destruct A as [A _]. congruence.
    + unfold restoration_step in A. congruence.
  - intros [ND D]. pose proof (C147_due c i s l s' l' H ND D). lia.
Qed.
Print Assumptions C147_iff.
Example C147_case : let c := wcfg k_rst in let s := at_state c (call0 k_rst dflt_inp (firstn 3 is_rst)) in
  reach c any_inp s (at_loc (call0 k_rst dflt_inp (firstn 3 is_rst))) /\ ~ disabled c s /\
  restart_due c (discarded_window_size c) s /\
  (exists s' l', pass c (nth 3 is_rst dflt_inp) s (at_loc (call0 k_rst dflt_inp (firstn 3 is_rst))) = Cont s' l').
Proof.
  split; [apply running_reach; vm_compute; reflexivity|]. split; [rewrite <- disabled_iff; vm_compute; discriminate|].
  split; [apply serial_due_iff; vm_compute; reflexivity|]. do 2 eexists. vm_compute. reflexivity.
Qed.

(** ** C147, parallel *)
(** What happens when a worker is free.  A disabled step is passed over.  When no restart is due, a new search is planned.
    When one is due, it waits until no task is outstanding, and submits nothing meanwhile; then it restarts. *)
Theorem C147_parallel : forall pc0 q P, let c := base pc0 in let s := p_s P in
  let due := restart_due c (discarded_window_size c * num_cpus c) s in
  (disabled c s -> pstep pc0 q PcPlan P = (PcHead, set_s (advance_st c s) P)) /\
  (~ disabled c s -> ~ due -> pstep pc0 q PcPlan P = (PcPlan2, P)) /\
  (~ disabled c s -> due -> ~ nobody_working P -> pstep pc0 q PcPlan P = (PcHead, P)) /\
  (~ disabled c s -> due -> nobody_working P ->
     (exists w, fst (pstep pc0 q PcPlan P) = PcWait WMid w /\
        restarts_in (trace (p_s (snd (pstep pc0 q PcPlan P)))) = restarts_in (trace s) + 1) \/
     (fst (pstep pc0 q PcPlan P) = PcCrash ERuntime /\ i_samples (q_inp q) = None)).
Proof.
  intros pc0 q P c s due. destruct (plan_exact c q P) as (A & B & D & E). fold s in A, B, D, E. fold due in B, D, E.
  cbn [pstep]. fold c. split; [intros X; rewrite (A X); reflexivity|]. split; [intros X Y; rewrite (B X Y); reflexivity|].
  split; [intros X Y Z; rewrite (D X Y Z); reflexivity|]. intros X Y Z. rewrite (E X Y Z).
  assert (RA : forall t, restarts_in (t ++ [EvRestart]) = restarts_in t + 1).
  { induction t as [|e t IH]; [reflexivity|]. destruct e; cbn [app restarts_in]; lia. }
  unfold restart_begin. cbv zeta. destruct (_ || _).
  - destruct (i_samples (q_inp q)) as [pts|]; [|right; split; reflexivity].
    match goal with |- context [let (_, _) := ?x in _] => destruct x as [new prev] end.
    left. eexists. split; [reflexivity|]. cbn [finish_step snd p_s note set_next set_s set_C trace]. apply RA.
  - left. eexists. split; [reflexivity|]. cbn [finish_step snd p_s set_s trace]. apply RA.
Qed.
Print Assumptions C147_parallel.
(** No other step begins a restart during a call, except the one after a failed solve with no task outstanding. *)
Theorem C147_parallel_only : forall pc0 q m P kind w P', pstep pc0 q m P = (PcWait kind w, P') ->
  (exists w', m = PcWait kind w') \/
  (m = PcPlan /\ kind = WMid /\ nobody_working P /\ ~ disabled (base pc0) (p_s P) /\
   restart_due (base pc0) (discarded_window_size (base pc0) * num_cpus (base pc0)) (p_s P)) \/
  (m = PcPlan2 /\ kind = WRest /\ nobody_working P /\
   (i_lin_ok (q_inp q) = false \/ current_step (C (p_s P)) = num_global_searches (base pc0) + 3)).
Proof.
  intros pc0 q m P kind w P' H. set (c := base pc0).
  assert (FS : forall r, finish_step r P = (PcWait kind w, P') -> r = Ok (PcWait kind w, P')).
  { intros [x|e] E; cbn in E; [congruence|discriminate]. }
  destruct m as [|b| | | |k0 w0| | |e]; cbn [pstep] in H; fold c in H.
  - destruct (loop_cond _ _ _ _); discriminate.
  - destruct (ready q (pend (p_k P))); [apply FS in H; destruct (take_eval _ _ _ _); discriminate|]. destruct (_ <? _); discriminate.
  - destruct (ready q (srch (p_k P))); [apply FS in H; destruct (take_search _ _ _ _); discriminate|]. destruct (_ <=? _); discriminate.
  - apply FS in H. right. left. unfold plan in H. cbv zeta in H.
    destruct (skip_step c (C (p_s P))) eqn:E1; [discriminate|]. destruct (must_restart_parallel c (C (p_s P))) eqn:E2; [|discriminate].
    destruct (idle (p_k P)) eqn:E3; [|discriminate]. split; [reflexivity|].
    apply ParEffects.restart_begin_eff in H. destruct H as (w1 & H & _). injection H as -> ->. split; [reflexivity|].
    split; [now apply nobody_iff|]. split; [rewrite <- disabled_iff; congruence|now apply parallel_due_iff].
  - apply FS in H. right. right. unfold plan2 in H. cbv zeta in H. fold c in H. split; [reflexivity|].
    pose proof (ParEffects.cross_fields pc0 P) as (X1 & _ & _ & X2). set (P1 := cross_validate pc0 P) in *. clearbody P1.
    destruct (linear_phase c q P1) as [P2|P2|] eqn:L; [|discriminate|discriminate].
    assert (Y : p_k P2 = p_k P /\ (current_step (C (p_s P2)) = current_step (C (p_s P)) \/ i_lin_ok (q_inp q) = false)).
    { unfold linear_phase in L. cbv zeta in L. destruct (i_lin_ok (q_inp q)).
      - injection L as <-. split; [exact X2|]. left. congruence.
      - destruct (_ && _); [discriminate|]. destruct (_ =? _)%nat; [discriminate|]. injection L as <-. split; [exact X2|]. auto. }
    destruct Y as (Yk & Ys). destruct (Z.eqb_spec (current_step (C (p_s P2))) (restoration_step c)) as [Es|Es].
    + destruct (idle (p_k P2)) eqn:E3; [|discriminate].
      apply ParEffects.restart_begin_eff in H. destruct H as (w1 & H & _). injection H as -> ->. split; [reflexivity|].
      split; [apply nobody_iff; congruence|]. destruct Ys as [Ys|Ys]; [right; unfold restoration_step in Es; congruence|auto].
    + destruct (_ && _); [|discriminate]. unfold plan_refinement in H. cbv zeta in H.
      match type of H with bind ?x _ = _ => destruct x as [b|] end; cbn [bind] in H; [|discriminate].
      destruct (_ && stale _ _); [discriminate|]. destruct (_ && _)%bool; [discriminate|].
      destruct (stale_all _ _); [discriminate|]. destruct (negb _); discriminate.
  - apply FS in H. left. unfold wait_step in H. cbv zeta in H.
    assert (RF : restart_finish c q k0 w0 P <> Ok (PcWait kind w, P')).
    { intros E. apply ParEffects.restart_finish_eff in E. pose proof (ParEffects.fe_m _ _ _ _ _ _ _ E) as F. destruct k0; discriminate. }
    destruct (_ && _); [contradiction|]. destruct (ready q (w_pend w0)).
    + destruct (take_init _ _ _ _); cbn [bind] in H; [|discriminate]. injection H as -> _ _. eauto.
    + destruct (_ <=? _); [contradiction|]. injection H as -> _ _. eauto.
  - apply FS in H. unfold final_step in H. destruct (pend (p_k P)) as [|t r]; [discriminate|]. cbv zeta in H.
    destruct (node_pos _); [discriminate|]. destruct (t_noisy t); [destruct (errs _); discriminate|].
    destruct (current_gap _ _); cbn [bind] in H; discriminate.
  - discriminate.
  - discriminate.
Qed.
Print Assumptions C147_parallel_only.
(** A run with two workers: one search found nothing, the other is outstanding; the restart is due but waits. *)
Definition k_one := mkKnobs false false [] [0%Q] [10%Q] 30 40 (1#1000000) (1#1000) (-100) [] [] 2 1 0 false true 10 20 100 true.
Definition c_one : pcfg := pw k_one 2 (1#2) 1000 true.
Definition P_due : pst := snd (pcall c_one two_points 1000 (w_s0 ++ w_plan ++ [go; go; nothing 0; go])).
Definition P_busy : pst := snd (pcall c_one two_points 1000 (w_s0 ++ w_plan ++ w_plan ++ [go; go; nothing 0; go; go; go; go; go])).
Example C147_parallel_case :
  (preach c_one any_pin PcPlan P_due /\ nobody_working P_due /\ ~ disabled (base c_one) (p_s P_due) /\
   restart_due (base c_one) (discarded_window_size (base c_one) * num_cpus (base c_one)) (p_s P_due)) /\
  (preach c_one any_pin PcPlan P_busy /\ ~ nobody_working P_busy /\ ~ disabled (base c_one) (p_s P_busy) /\
   restart_due (base c_one) (discarded_window_size (base c_one) * num_cpus (base c_one)) (p_s P_busy)).
Proof.
  split; (split; [apply reached; vm_compute; reflexivity|]); rewrite <- disabled_iff, <- nobody_iff, <- parallel_due_iff.
  - split; [vm_compute; reflexivity|]. split; [vm_compute; discriminate|]. vm_compute. reflexivity.
  - split; [vm_compute; discriminate|]. split; [vm_compute; discriminate|]. vm_compute. reflexivity.
Qed.

(** ** C148 *)
(** When a local search of the accurate phase asks to evaluate node [ind], at [p], again, then exactly the row that is meant
    is removed, or none when no row holds [p]. *)
Theorem C148_row_removed : forall pc0 q P m' P' j0 e p ind,
  pstep pc0 q PcSearches P = (m', P') -> no_error m' -> q_pick q = Some j0 -> nth_error (srch (p_k P)) j0 = Some e ->
  q_ans q = AReeval p ind -> s_id e = SLocal -> s_noisy e = false -> has_noisy (base pc0) = true ->
  exists es, no_removal_in es /\
  ((exists j, row_meant (node_pos (T (p_s P))) ind p j /\
      p_log P' = p_log P ++ PUnrow (nodes_at_restart (T (p_s P)) + j) :: es) \/
   ((forall j, ~ holds_point (node_pos (T (p_s P))) j p) /\ p_log P' = p_log P ++ es)).
Proof. exact reeval_step. Qed.
Print Assumptions C148_row_removed.
(** No other step removes a row. *)
Theorem C148_nothing_else : forall pc0 q P m m' P', pstep pc0 q m P = (m', P') -> no_error m' ->
  (has_noisy (base pc0) = false \/ m <> PcSearches) -> exists es, p_log P' = p_log P ++ es /\ no_removal_in es.
Proof. exact other_no_removal. Qed.
Print Assumptions C148_nothing_else.
Definition c_again : pcfg := pw (w_kz 3) 2 (1#2) 1000 true.
Definition P_again : pst := snd (pcall c_again two_points 1000
  (w_s0 ++ w_plan ++ w_plan ++ [go; go; found 0 [4%Q]; found 0 [7%Q]; go] ++ [go; ev 1 8; go] ++ [go; go; go; go] ++ w_plan ++ [go; go])).
(** The index is out of date: row 0 holds [0], the point [10] is in row 1, which is removed. *)
Example C148_case : preach c_again any_pin PcSearches P_again /\
  nth_error (srch (p_k P_again)) 0 = Some (mkStask false SLocal false) /\ has_noisy (base c_again) = true /\
  row_meant (node_pos (T (p_s P_again))) 0 [10%Q] 1 /\
  fst (pstep c_again (again 0 [10%Q] 0) PcSearches P_again) = PcSearches /\
  In (PUnrow 1) (p_log (snd (pstep c_again (again 0 [10%Q] 0) PcSearches P_again))).
Proof.
  split; [apply reached; vm_compute; reflexivity|]. split; [vm_compute; reflexivity|]. split; [reflexivity|]. split.
  - assert (E : node_pos (T (p_s P_again)) = [[0%Q]; [10%Q]; [7%Q]]) by (vm_compute; reflexivity). rewrite E.
    assert (N0 : ~ holds_point [[0%Q]; [10%Q]; [7%Q]] 0 [10%Q]).
    { intros [_ H]. cbn in H. inversion H as [|? ? ? ? X]. discriminate X. }
    right. split; [exact N0|]. split.
    + split; [cbn; lia|]. cbn. constructor; [reflexivity|constructor].
    + intros b Hb. replace b with 0%nat by lia. exact N0.
  - split; [vm_compute; reflexivity|]. vm_compute. tauto.
Qed.

(** ** C69: the failed solve in detail *)
(** With a failed linear solve (and no restart due) the candidates are computed one node less at a time; the call ends with an
    assertion error exactly when one of the attempts gives no candidate; otherwise the other linear solve is tried if that was
    not done before and there are enough nodes, and else the optimizer restarts. *)
Theorem C69_failed_solve_exact : forall c i s l, (0 <= min_dist c)%Q -> (0 <= init_sample_fraction c)%Q ->
  pass c i s l <> Stop -> ~ disabled c s -> ~ restart_due c (discarded_window_size c) s ->
  current_step (C s) <= num_global_searches c + 1 -> i_lin_ok i = false ->
  let k := length (node_pos (T s)) in
  let no_candidate := exists a, attempted c k a /\ i_restore i a = None in
  let retry := Z.of_nat (n c) + 1 <= Z.of_nat k /\ solve_underdetermined (C s) = false in
  (no_candidate -> pass c i s l = Crash EAssert) /\
  (~ no_candidate -> retry -> exists s', pass c i s l = Cont s' l /\ T s' = T s /\ I s' = I s /\ Rf s' = Rf s /\
     solve_underdetermined (C s') = true /\ itercount (C s') = itercount (C s) /\ evalcount (C s') = evalcount (C s) /\
     current_step (C s') = (num_global_searches c + 4) mod (num_global_searches c + 2)) /\
  (~ no_candidate -> ~ retry ->
     (exists s', pass c i s l = Cont s' l /\ restarts_in (trace s') = restarts_in (trace s) + 1) \/ exists e, pass c i s l = Crash e).
Proof.
  intros c i s l Hd Hf NS ND NR Hs Hl k noc retry.
  assert (E1 : skip_step c (C s) = false) by (apply not_true_iff_false; now rewrite disabled_iff).
  assert (E2 : must_restart c (C s) = false) by (apply not_true_iff_false; now rewrite serial_due_iff).
  unfold pass in NS |- *. destruct (negb (loop_cond _ _ _ _)); [congruence|]. rewrite E1, E2 in *. clear NS.
  unfold prepare. rewrite (proj2 (Z.leb_le _ (local_search_step c)) Hs), Hl.
  set (s3 := emit _ _). assert (G : search_guard c s3 = true).
  { unfold search_guard, s3. cbv zeta. cbn [C emit set_C set_step current_step]. rewrite Z.eqb_refl, orb_true_r. reflexivity. }
  rewrite G. cbn [negb]. unfold search. cbv zeta.
  assert (Es : current_step (C s3) = restoration_step c) by reflexivity. rewrite Es, Z.eqb_refl.
  pose proof (restoration_result c i s3 Hd Hf) as R. change (length (node_pos (T s3))) with k in R.
  change (length (node_pos (T s3))) with k.
  assert (ER : restarts s3 = restarts s).
  { unfold s3, restarts, emit. cbn [trace set_C]. unfold count_ev. rewrite filter_app, app_length. cbn. lia. }
  destruct (restoration_search c i s3) as [x|e].
  - destruct R as [-> R]. assert (NC : ~ noc) by (intros (a & A & B); exact (R a A B)).
    split; [intros X; contradiction|].
    assert (RT : (Z.of_nat (n c) + 1 <=? Z.of_nat k) && negb (solve_underdetermined (C s3)) = true <-> retry).
    { unfold retry, s3. cbn [C emit set_C set_step solve_underdetermined]. rewrite andb_true_iff, Z.leb_le, negb_true_iff. tauto. }
    destruct (_ && _)%bool.
    + split; [|intros _ X; exfalso; apply X, RT; reflexivity]. intros _ _. eexists. split; [reflexivity|].
      unfold s3, advance. cbn [C emit set_C set_step current_step].
      assert (X : next_step c (restoration_step c) = (num_global_searches c + 4) mod (num_global_searches c + 2)).
      { unfold next_step, restoration_step, cycle_length. f_equal. lia. }
      destruct (_ <? _); repeat split; cbn; exact X.
    + split; [intros _ X; apply RT in X; discriminate|]. intros _ _.
      destruct (restart c i s3) as [s5|e] eqn:E5; [left|right; eauto].
      exists s5. split; [reflexivity|]. rewrite !restarts_in_eq. apply restart_count in E5. lia.
  - destruct R as (-> & b & R1 & R2). assert (NC : noc) by (exists b; auto).
    split; [reflexivity|]. split; intros X; contradiction.
Qed.
Print Assumptions C69_failed_solve_exact.
(** Both outcomes occur at a reachable state: with 5 nodes the first attempt is made; without a candidate the call fails. *)
Example C69_failed_solve_case : let c := wcfg kn0 in let i := with_lin false dflt_inp in
  reach c any_inp s_ord l_ord /\ (0 <= min_dist c)%Q /\ (0 <= init_sample_fraction c)%Q /\
  ~ disabled c s_ord /\ ~ restart_due c (discarded_window_size c) s_ord /\
  current_step (C s_ord) <= num_global_searches c + 1 /\ length (node_pos (T s_ord)) = 5%nat /\
  attempted c 5 0 /\ attempted c 5 2 /\ ~ attempted c 5 3.
Proof.
  cbv zeta. split; [apply running_reach; vm_compute; reflexivity|]. split; [discriminate|]. split; [discriminate|].
  split; [rewrite <- disabled_iff; vm_compute; discriminate|]. split; [rewrite <- serial_due_iff; vm_compute; discriminate|].
  split; [vm_compute; discriminate|]. split; [vm_compute; reflexivity|]. unfold attempted.
  split; [split; vm_compute; reflexivity|]. split; [split; vm_compute; reflexivity|]. intros [_ H]. vm_compute in H. discriminate.
Qed.

(** ** C61: when the limit on consecutive refinements is lifted *)
Theorem C61_limit : forall c i s s', refinement_update c i s = Ok s' ->
  refinement_updated c i s s' ((exists r, ref_radius (Rf s') = Some r /\ (r < ref_min_radius c)%Q) \/
    (max_consecutive_refinement c <= num_cons_refinement (Rf s) + 1 /\ ~ limit_lifted c s (i_time_unl i))).
Proof.
  intros c i s s' H. pose proof (serial_update c i s s' H) as U.
  assert (E : (unlimited_refinement c s (i_time_unl i) = false) <-> ~ limit_lifted c s (i_time_unl i)).
  { rewrite <- lifted_iff. destruct (unlimited_refinement c s (i_time_unl i)); intuition discriminate. }
  unfold refinement_updated in U |- *. cbv zeta in U |- *. destruct U as (rad & it0 & it1 & r & U). exists rad, it0, it1, r.
  rewrite <- E. exact U.
Qed.
Print Assumptions C61_limit.

(** ** C72: the values assumed for pending evaluations *)
(** Without noise, the value that the surrogate model assumes for a point under evaluation lies between two values already
    recorded since the last restart. *)
Theorem C72_estimates_in_range : forall pc0 ok m P v, has_noisy (base pc0) = false -> preach pc0 ok m P -> no_error m ->
  in_loop m -> (forall k w, m <> PcWait k w) -> In v (tval (p_k P)) -> in_range_of (node_val (T (p_s P))) v.
Proof.
  intros pc0 ok m P v Hn HR N (L1 & L2) W Hv. pose proof (est_reach pc0 ok m P Hn HR N) as E.
  assert (X : estimates_ok P) by (destruct m; try exact E; try (exfalso; eapply W; reflexivity); try contradiction; exfalso; eapply N; reflexivity).
  unfold estimates_ok in X. rewrite Forall_forall in X. now apply X.
Qed.
Print Assumptions C72_estimates_in_range.
(** The surrogate predicted 5 for [4], and the recorded values are 5 and 6. *)
Example C72_estimates_case : let x := pcall c_one two_points 1000 (w_s0 ++ w_plan ++ [go; go; found 0 [4%Q]; go]) in
  preach c_one any_pin PcPlan (snd x) /\ tval (p_k (snd x)) = [5%Q] /\ node_val (T (p_s (snd x))) = [5%Q; 6%Q].
Proof. split; [apply reached; vm_compute; reflexivity|]. split; vm_compute; reflexivity. Qed.
