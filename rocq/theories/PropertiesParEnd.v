(** * C150: a call of the parallel optimizer ends. *)
From Verif Require Import ParEnd.
From Verif Require Import SpecAlg SpecParallel SpecEnd.
From Verif Require Import ModelAlg ModelParallel PropertiesPar PropertiesExact WitnessPar.
From Coq Require Import Lia.
Open Scope Z_scope.

(** ** C150
    However the workers, the black box, the searches, the linear algebra and the clock behave:
    a call has returned or failed after [B] steps plus five for each time the loop found
    tasks outstanding and none ready; [B] depends on the settings, on the size of the
    samples and on the counters at the beginning of the call only. *)
Theorem C150_parallel_termination : forall pc0 (ok : pin -> Prop) S q0 pa qs P0 m1 P1 m P,
  let c := base pc0 in
  0 <= num_global_searches c -> 1 <= num_cpus c -> 1 <= refinement_frequency c ->
  (forall q, ok q -> samples_upto S q /\ samples_from c q) ->
  may_call pc0 ok P0 -> ok q0 -> Forall ok qs ->
  pstart pc0 q0 pa P0 = (m1, P1) -> prun pc0 qs m1 P1 = (m, P) ->
  let W := 2 * Z.max (num_cpus c) (Z.of_nat S + 1) in
  let i0 := itercount (C (p_s P0)) in
  let more_iterations := Z.max W (Z.min pa (max_iterations c - i0) - 1 + 2 * W) in
  let more_cycles := Z.max 0 (max_cycles c + 1 - cyclecount (C (p_s P0))) in
  let B := (6 * Z.of_nat S + 15) * (more_cycles * (num_global_searches c + 4) + num_global_searches c + 3) +
           12 * (more_iterations + 1) + 6 * Z.of_nat S + 15 in
  B + 5 * waits pc0 qs m1 P1 < Z.of_nat (length qs) -> m = PcDone \/ exists e, m = PcCrash e.
Proof.
  intros pc0 ok S q0 pa qs P0 m1 P1 m P c HG Hcpu Hf Hok H0 Hq0 Hqs HS HR. cbv zeta. intros HB.
  assert (D : (m = PcDone \/ exists e, m = PcCrash e) \/ (m <> PcDone /\ no_error m)).
  { destruct m; eauto; right; (split; [discriminate|intros e; discriminate]). }
  destruct D as [D|(ND & N)]; [exact D|exfalso]. revert HB. apply Z.le_ngt.
  assert (N1 : no_error m1).
  { intros e ->. apply (N e). clear - HR. revert HR. induction qs as [|q r IH]; cbn; [congruence|exact IH]. }
  assert (HI : in_cycle c (p_s P0)).
  { destruct H0 as [->|H0].
    - unfold in_cycle, restoration_step. cbn. subst c. lia.
    - destruct (cycle_reach pc0 ok S HG Hok Hcpu Hf PcDone P0 H0) as (_ & _ & _ & _ & X & _); [intros e; discriminate|exact X]. }
  assert (AB : cyc_inv pc0 m1 P1 /\ phi pc0 S pa P0 m1 P1 <= step_cap pc0 S pa P0) by (eapply start_phi; eauto).
  destruct AB as (A & B).
  pose proof (run_phi pc0 ok S pa P0 HG Hok H0 Hcpu Hf qs m1 P1 m P Hqs (pd_start _ _ _ _ _ _ _ Hq0 HS) A HR N ND) as X.
  unfold step_cap, iter_cap in B. cbv zeta in B. fold c in B.
  set (W := 2 * Z.max (num_cpus c) (Z.of_nat S + 1)) in *.
  replace (Z.max W (Z.min pa (max_iterations c - itercount (C (p_s P0))) - 1 + 2 * W)) with
    (Z.max (itercount (C (p_s P0)) + W) (Z.min (itercount (C (p_s P0)) + pa) (max_iterations c) - 1 + 2 * W) - itercount (C (p_s P0))) by lia.
  lia.
Qed.
Print Assumptions C150_parallel_termination.
(** Waiting cannot be bounded: with three workers that never answer, the call never ends. *)
Lemma prun_app pc0 a b : forall m P, prun pc0 (a ++ b) m P = let '(m1, P1) := prun pc0 a m P in prun pc0 b m1 P1.
Proof.
  induction a as [|q r IH]; intros m P; cbn [prun app]; [reflexivity|]. destruct (pstep pc0 q m P) as [m1 P1]. apply IH.
Qed.
Fixpoint rounds (n : nat) : list pin := match n with O => [] | S r => [go; go; go] ++ rounds r end.
Theorem C150_waiting_unbounded_refuted : exists pc0 q0 pa qs, forall n, exists P,
  pcall pc0 q0 pa (qs ++ rounds n) = (PcHead, P) /\ length (pend (p_k P)) = 3%nat.
Proof.
  exists (w_c3 30 100), two_points, 1000, (w_three ++ [go]). intros n.
  set (x := pcall (w_c3 30 100) two_points 1000 (w_three ++ [go])).
  exists (snd x). split; [|vm_compute; reflexivity].
  assert (E1 : pcall (w_c3 30 100) two_points 1000 ((w_three ++ [go]) ++ rounds n) = prun (w_c3 30 100) (rounds n) (fst x) (snd x)).
  { unfold x, pcall. destruct (pstart _ _ _ _) as [m1 P1]. rewrite prun_app. destruct (prun _ _ _ _) as [m2 P2]. reflexivity. }
  rewrite E1. clear E1.
  assert (E2 : fst x = PcHead) by (vm_compute; reflexivity). rewrite E2.
  assert (E3 : prun (w_c3 30 100) [go; go; go] PcHead (snd x) = (PcHead, snd x)) by (vm_compute; reflexivity).
  induction n as [|n IH]; [reflexivity|]. cbn [rounds]. rewrite prun_app, E3. exact IH.
Qed.
Print Assumptions C150_waiting_unbounded_refuted.
(** A complete call (five evaluations, three of them pending at once) meets the hypotheses. *)
Definition small_samples (q : pin) : Prop := i_samples (q_inp q) = Some [[0%Q]; [10%Q]].
Definition e_sched : list pin := w_three ++ [go; go; ev 0 3; ev 0 2; ev 0 1; go; go; go].
Lemma done_stays pc0 qs : forall P, prun pc0 qs PcDone P = (PcDone, P).
Proof. induction qs as [|q r IH]; intros P; cbn; auto. Qed.
Example C150_case : let pc0 := w_c3 30 3 in let c := base pc0 in let P0 := pinit c in
  0 <= num_global_searches c /\ 1 <= num_cpus c /\ 1 <= refinement_frequency c /\
  (forall q, small_samples q -> samples_upto 2 q /\ samples_from c q) /\
  may_call pc0 small_samples P0 /\ small_samples two_points /\
  forall n, Forall small_samples (e_sched ++ repeat go n) /\
  exists m1 P1 P, pstart pc0 two_points 1000 P0 = (m1, P1) /\ m1 <> PcDone /\
    prun pc0 (e_sched ++ repeat go n) m1 P1 = (PcDone, P) /\ waits pc0 e_sched m1 P1 = 4.
Proof.
  cbv zeta. split; [vm_compute; discriminate|]. split; [vm_compute; discriminate|]. split; [vm_compute; discriminate|].
  split. { intros q H. split; intros pts E; rewrite H in E; injection E as <-; [cbn; lia|vm_compute; discriminate]. }
  split; [left; reflexivity|]. split; [reflexivity|]. intros n. split.
  { apply Forall_app. split; [repeat (constructor; [reflexivity|]); constructor|]. induction n; cbn; constructor; auto. reflexivity. }
  set (x := pstart (w_c3 30 3) two_points 1000 (pinit (base (w_c3 30 3)))).
  exists (fst x), (snd x), (snd (prun (w_c3 30 3) e_sched (fst x) (snd x))).
  split; [apply surjective_pairing|]. split; [vm_compute; discriminate|]. split; [|vm_compute; reflexivity].
  rewrite prun_app. assert (E : fst (prun (w_c3 30 3) e_sched (fst x) (snd x)) = PcDone) by (vm_compute; reflexivity).
  destruct (prun (w_c3 30 3) e_sched (fst x) (snd x)) as [m P]. cbn [fst snd] in E |- *. rewrite E. apply done_stays.
Qed.
