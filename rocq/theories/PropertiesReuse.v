(** * Parallel optimizer: reuse of evaluations made before a restart, C133. *)
From Verif Require Import ParReuse PropertiesPar WitnessPar.
From Coq Require Import Lia.
Open Scope Z_scope.

(** ** C133 *)
(** When a search proposes a point evaluated before the last restart, the old value is recorded again (a row is appended
    while a search is handled) only if the result of some other evaluation was handled in the loop earlier in the same
    call; else the call ends in an exception. *)
Theorem C133_needs_result : forall pc0 (ok : pin -> Prop) pa P0 P q m P' src po v,
  pduring pc0 ok pa P0 PcSearches P -> pstep pc0 q PcSearches P = (m, P') -> no_error m ->
  (exists l, p_log P' = p_log P ++ l /\ In (PRow src po v) l) ->
  exists b q1 j P1 m2 P2, pduring pc0 ok pa P0 (PcEvals b) P1 /\ ready q1 (pend (p_k P1)) = Some j /\
    pstep pc0 q1 (PcEvals b) P1 = (m2, P2) /\ no_error m2.
Proof.
  intros pc0 ok pa P0 P q m P' src po v HD H N (l & L & X). apply (iid_result pc0 ok pa P0 PcSearches P HD); [discriminate|].
  cbn [pstep] in H. destruct (ready q (srch (p_k P))) as [j|].
  - apply finish_ok in H; [|exact N]. destruct (take_search _ _ _ _) as [P1|] eqn:E; cbn [bind] in H; [|discriminate]. injection H as <- <-.
    destruct (search_log _ _ _ _ _ E) as (l1 & L1 & F). apply F. rewrite L1 in L. apply app_inv_head in L. subst. eauto.
  - assert (l = []).
    { apply (app_inv_head (p_log P)). rewrite app_nil_r, <- L. destruct (_ <=? _); injection H as <- <-; reflexivity. }
    subst. destruct X.
Qed.
Print Assumptions C133_needs_result.
(** A call can therefore fail when it should reuse: one worker, all searches before the restart found nothing new, and
    after the restart a search proposes a point of the first sample, evaluated before: NameError. *)
Definition w_ka (noisy : bool) : knobs :=
  mkKnobs false noisy [] [0%Q] [10%Q] 30 100 (1#1000000) (1#1000) (-100) [] [] 2 2 0 false true 10 20 100 true.
Definition w_ca (noisy : bool) : pcfg := pw (w_ka noisy) 1 (1#2) 1000 true.
Definition w_first : list pin := w_s0 ++ w_plan ++ [go; go; nothing 0; go; sample [[1%Q]; [9%Q]]; ev 0 7; ev 0 8; go; go; go; go].
Theorem C133_reuse_fails_refuted : exists pc0 P q, preach pc0 any_pin PcSearches P /\ q_ans q = APoint (Some [0%Q]) false /\
  In (PRow (Some 0%nat) [0%Q] 5%Q) (p_log P) /\ all_is_noisy (T (p_s P)) = [false; false; false; false] /\
  pstep pc0 q PcSearches P = (PcCrash EName, P).
Proof.
  exists (w_ca false), (snd (pcall (w_ca false) two_points 1000 w_first)), (found 0 [0%Q]).
  split; [apply reached; vm_compute; reflexivity|]. split; [reflexivity|]. split; [vm_compute; tauto|].
  split; vm_compute; reflexivity.
Qed.
Print Assumptions C133_reuse_fails_refuted.
(** The error interval recorded for a reused noisy value is that of the last noisy result handled in this call: here [0]
    had the interval (-1/4, 1/4) and is recorded again with (-1, 1). *)
Definition ev_wide (j : nat) (v : Q) : pin := mkPin (prop [] v (v, -(1), 1)%Q) (Some j) (APoint None false) 0%Q.
Definition w_sm : pin := sample [[1%Q]; [9%Q]].
Definition w_wide : list pin := w_s0 ++ w_plan ++ w_fnd [3%Q] ++ [go; ev_wide 0 9; go] ++ w_plan ++
  [go; go; nothing 0; w_sm; w_sm; w_sm; w_sm; w_sm; w_sm; w_sm; ev 0 7; ev 0 8; go; go; go; go].
Theorem C133_error_bounds_refuted : exists pc0 P q m P', preach pc0 any_pin PcSearches P /\
  pstep pc0 q PcSearches P = (m, P') /\ m = PcSearches /\
  p_log P' = p_log P ++ [PRow None [0%Q] 5%Q] /\
  nth 0 (all_pos (T (p_s P'))) [] = [0%Q] /\ nth 0 (all_val (T (p_s P'))) 0%Q = 5%Q /\ nth 0 (all_err (T (p_s P'))) (0, 0)%Q = (-(1#4), 1#4)%Q /\
  last (all_pos (T (p_s P'))) [] = [0%Q] /\ last (all_val (T (p_s P'))) 0%Q = 5%Q /\ last (all_err (T (p_s P'))) (0, 0)%Q = (-(1), 1)%Q.
Proof.
  exists (w_ca true), (snd (pcall (w_ca true) two_points 1000 w_wide)), (found 0 [0%Q]).
  exists (fst (pstep (w_ca true) (found 0 [0%Q]) PcSearches (snd (pcall (w_ca true) two_points 1000 w_wide)))),
    (snd (pstep (w_ca true) (found 0 [0%Q]) PcSearches (snd (pcall (w_ca true) two_points 1000 w_wide)))).
  split; [apply reached; vm_compute; reflexivity|]. split; [apply surjective_pairing|].
  do 7 (split; [vm_compute; reflexivity|]). vm_compute. reflexivity.
Qed.
Print Assumptions C133_error_bounds_refuted.
(** The hypotheses of the first theorem: the same run. *)
Example C133_case : exists P0 P q P', pduring (w_ca true) any_pin 1000 P0 PcSearches P /\
  pstep (w_ca true) q PcSearches P = (PcSearches, P') /\ p_log P' = p_log P ++ [PRow None [0%Q] 5%Q].
Proof.
  exists (pinit (base (w_ca true))), (snd (pcall (w_ca true) two_points 1000 w_wide)), (found 0 [0%Q]).
  exists (snd (pstep (w_ca true) (found 0 [0%Q]) PcSearches (snd (pcall (w_ca true) two_points 1000 w_wide)))).
  split.
  - apply (during_pcall _ _ two_points 1000 w_wide); [exact Logic.I|apply any_pins|].
    rewrite (surjective_pairing (pcall _ _ _ _)) at 1. apply (f_equal2 pair); [vm_compute; reflexivity|reflexivity].
  - split; [rewrite (surjective_pairing (pstep _ _ _ _)) at 1; apply (f_equal2 pair); [vm_compute; reflexivity|reflexivity]|vm_compute; reflexivity].
Qed.
