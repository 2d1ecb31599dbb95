(** * Properties of the parallel optimizer: refinement and cross validation, C130-C132. *)
From Verif Require Import ParRefine PropertiesPar WitnessPar.
From Coq Require Import Lia Lqa.
Open Scope Z_scope.

(** A concrete run: one worker, a refinement in every pass, seven refinements in a row. *)
Definition w_r1 : pcfg := pw kn0 1 (1#2) 1 true.
Definition w_refine (p : Q) (v : Q) : list pin := [go; go; go; go; go] ++ [go; go; found 0 [p]; go; go; ev 0 v; go].
Definition w_four : list pin := w_s0 ++ w_refine 4 4 ++ w_refine 5 3 ++ w_refine 6 2 ++ w_refine 7 1.
Definition x_four : pc * pst := pcall w_r1 two_points 1000 w_four.
Definition w_seven : list pin := w_four ++ w_refine 3 0 ++ w_refine 2 (-1) ++ w_refine 1 (-2).
Definition x_seven : pc * pst := pcall w_r1 two_points 1000 w_seven.

(** ** C130 *)
(** The result of a refinement search is recorded: the refinement data change as documented (nodes [T s1] and smallest
    value [I s1] are those after the row was recorded), one more refinement is counted, the next one may be planned. *)
Theorem C130_update : forall pc0 q b j P m P' t, let c := base pc0 in
  pstep pc0 q (PcEvals b) P = (m, P') -> no_error m -> ready q (pend (p_k P)) = Some j -> nth_error (pend (p_k P)) j = Some t ->
  t_id t = SRefine -> length (all_pos (T (p_s P'))) <> length (all_pos (T (p_s P))) ->
  busy (p_k P') = false /\ rcount (p_k P') = (rcount (p_k P) + 1)%Q /\
  exists s1, T s1 = T (p_s P') /\ I s1 = I (p_s P') /\ Rf s1 = Rf (p_s P) /\
    refinement_updated c (q_inp q) s1 (p_s P') (exists r, ref_radius (Rf (p_s P')) = Some r /\ (r < ref_min_radius c)%Q).
Proof.
  intros pc0 q b j P m P' t c H N Hj Ht Hid Hl. cbn [pstep] in H. rewrite Hj in H. apply finish_ok in H; [|exact N].
  destruct (take_eval _ _ _ _) as [P1|] eqn:E; cbn [bind] in H; [|discriminate]. injection H as <- <-.
  destruct (refine_row _ _ _ _ _ _ E Ht Hid Hl) as (A & B & s1 & C1 & C2 & C3 & s2 & D1 & D2).
  split; [exact A|]. split; [exact B|]. exists s1. split; [exact C1|]. split; [exact C2|]. split; [exact C3|].
  apply parallel_update in D1. unfold refinement_updated in D1 |- *. rewrite D2 in D1. exact D1.
Qed.
Print Assumptions C130_update.
(** A refinement search without a usable point ends the refinement. *)
Theorem C130_discard : forall pc0 q j P m P' e,
  pstep pc0 q PcSearches P = (m, P') -> no_error m -> ready q (srch (p_k P)) = Some j -> nth_error (srch (p_k P)) j = Some e ->
  s_id e = SRefine -> length (pend (p_k P')) = length (pend (p_k P)) -> length (all_pos (T (p_s P'))) = length (all_pos (T (p_s P))) ->
  num_cons_refinement (Rf (p_s P')) = 0 /\ T (p_s P') = T (p_s P) /\ busy (p_k P') = false /\ rcount (p_k P') = (rcount (p_k P) + 1)%Q /\
  itercount (C (p_s P')) = itercount (C (p_s P)) + 1 /\ srch (p_k P') = delete_at j (srch (p_k P)).
Proof.
  intros pc0 q j P m P' e H N Hj He Hid Hp Ha. cbn [pstep] in H. rewrite Hj in H. apply finish_ok in H; [|exact N].
  destruct (take_search _ _ _ _) as [P1|] eqn:E; cbn [bind] in H; [|discriminate]. injection H as <- <-.
  destruct (refine_discard _ _ _ _ _ _ E He Hid Hp Ha) as (A & B). split; [rewrite A; reflexivity|exact B].
Qed.
Print Assumptions C130_discard.
(** When and how a refinement is planned. *)
Theorem C130_plan : forall pc0 q P m P', let c := base pc0 in
  pstep pc0 q PcPlan2 P = (m, P') -> no_error m -> i_lin_ok (q_inp q) = true -> current_step (C (p_s P)) <> restoration_step c ->
  m = PcHead /\
  (refinement_due c P -> planned c (q_inp q) P P' (refinement_begins c P)) /\
  (~ refinement_due c P -> exists bad, searched c P P' bad).
Proof.
  intros pc0 q P m P' c H N Hl Hz. cbn [pstep] in H. apply finish_ok in H; [|exact N]. exact (plan2_spec pc0 q P m P' H Hl Hz).
Qed.
Print Assumptions C130_plan.
Example C130_case :
  preach w_r1 any_pin PcHead (snd x_four) /\ num_cons_refinement (Rf (p_s (snd x_four))) = 4 /\
  let x := prun w_r1 [go; go; go; go] PcHead (snd x_four) in
  fst x = PcPlan2 /\ refinement_due (base w_r1) (snd x) /\ ~ refinement_begins (base w_r1) (snd x) /\
  let y := prun w_r1 [go; go; go] PcPlan2 (snd x) in
  fst y = PcSearches /\ ready (nothing 0) (srch (p_k (snd y))) = Some 0%nat /\
  option_map s_id (nth_error (srch (p_k (snd y))) 0) = Some SRefine /\ fst (pstep w_r1 (nothing 0) PcSearches (snd y)) = PcSearches.
Proof.
  split; [apply reached; vm_compute; reflexivity|]. split; [vm_compute; reflexivity|]. cbv zeta.
  split; [vm_compute; reflexivity|]. split; [split; vm_compute; [reflexivity|discriminate]|]. split.
  - unfold refinement_begins. intros [H|(j & v & f & H1 & H2 & H3 & H4)]; [vm_compute in H; discriminate|].
    vm_compute in H1. injection H1 as <-. vm_compute in H2. injection H2 as <-. vm_compute in H3. injection H3 as <-. vm_compute in H4. apply H4. reflexivity.
  - split; [vm_compute; reflexivity|]. split; [vm_compute; reflexivity|]. split; vm_compute; reflexivity.
Qed.
(** The documented limit [max_consecutive_refinement] on consecutive refinement steps is not enforced in parallel: here it
    is 5 and there are 7, without any of the conditions that lift the limit in the serial optimizer. *)
Theorem C130_limit_not_enforced_refuted : exists pc0 P, preach pc0 any_pin PcHead P /\
  max_consecutive_refinement (base pc0) = 5 /\ num_cons_refinement (Rf (p_s P)) = 7 /\
  unlimited_refinement (base pc0) (p_s P) false = false.
Proof.
  exists w_r1, (snd x_seven). split; [apply reached; vm_compute; reflexivity|]. vm_compute. auto.
Qed.
Print Assumptions C130_limit_not_enforced_refuted.
(** A refinement under way goes on (no exception) exactly when its centre and the nodes of its model set are in the table
    of finished and pending nodes; when the centre is, the pass succeeds iff no node of the model set is missing. *)
Theorem C130_continues : forall c q P j v, num_cons_refinement (Rf (p_s P)) <> 0 -> ref_iterate_index (Rf (p_s P)) = Some j ->
  nth_error (node_val (T (p_s P)) ++ tval (p_k P)) j = Some v ->
  (forall f, fmin (I (p_s P)) = Some f -> improves (eps_impr c) f v = false) ->
  ((exists m P', plan_refinement c q P = Ok (m, P')) <->
   forall i, In i (ref_model_set (Rf (p_s P))) -> (i < length (node_pos (T (p_s P))) + length (tpos (p_k P)))%nat).
Proof.
  intros c q P j v H0 Hj Hv Hf. unfold plan_refinement. cbv zeta. apply Z.eqb_neq in H0. rewrite H0, Hj. unfold value_all. rewrite Hv. cbn [bind].
  assert (E : match fmin (I (p_s P)) with Some f => improves (eps_impr c) f v | None => false end = false)
    by (destruct (fmin (I (p_s P))) as [f|] eqn:EF; [apply Hf; reflexivity|reflexivity]).
  rewrite E. cbn [andb]. unfold stale_all, n_all.
  destruct (existsb (fun j0 => (length (node_pos (T (p_s P))) + length (tpos (p_k P)) <=? j0)%nat) (ref_model_set (Rf (p_s P)))) eqn:EX.
  - split; [intros (m & P' & X); discriminate|]. intros X. apply existsb_exists in EX. destruct EX as (i & Hi & Li). apply Nat.leb_le in Li. specialize (X i Hi). lia.
  - split; [|intros _; destruct (negb _); eauto]. intros _ i Hi.
    destruct (Nat.ltb_spec i (length (node_pos (T (p_s P))) + length (tpos (p_k P)))) as [L|L]; [exact L|].
    assert (Y : existsb (fun j0 => (length (node_pos (T (p_s P))) + length (tpos (p_k P)) <=? j0)%nat) (ref_model_set (Rf (p_s P))) = true)
      by (apply existsb_exists; exists i; split; [exact Hi|apply Nat.leb_le; exact L]). congruence.
Qed.
Print Assumptions C130_continues.
Example C130_continues_case : let x := prun w_r1 [go; go; go; go] PcHead (snd x_four) in let P := snd x in
  num_cons_refinement (Rf (p_s P)) = 4 /\ ref_iterate_index (Rf (p_s P)) = Some 5%nat /\
  nth_error (node_val (T (p_s P)) ++ tval (p_k P)) 5 = Some 1%Q /\ fmin (I (p_s P)) = Some 1%Q /\
  improves (eps_impr (base w_r1)) 1 1 = false.
Proof. cbv zeta. do 4 (split; [vm_compute; reflexivity|]). vm_compute. reflexivity. Qed.
(** The serial counterpart. *)
Theorem C61_update_exact : forall c i s s', refinement_update c i s = Ok s' ->
  refinement_updated c i s s' ((exists r, ref_radius (Rf s') = Some r /\ (r < ref_min_radius c)%Q) \/
    (max_consecutive_refinement c <= num_cons_refinement (Rf s) + 1 /\ unlimited_refinement c s (i_time_unl i) = false)).
Proof. exact serial_update. Qed.
Print Assumptions C61_update_exact.

(** ** C131 *)
(** The RBF type is selected again exactly when the documentation says so, and at most [max_cross_validations] times over
    all calls. *)
Theorem C131_selection : forall pc0 q m P m' P', pstep pc0 q m P = (m', P') -> no_error m' ->
  (m = PcPlan2 -> cross_validates pc0 P -> p_cv P' = S (p_cv P)) /\
  (m <> PcPlan2 \/ ~ cross_validates pc0 P -> p_cv P' = p_cv P).
Proof.
  intros pc0 q m P m' P' H N. destruct (cross_validate_spec pc0 P) as (A & B). split.
  - intros -> X. cbn [pstep] in H. apply finish_ok in H; [|exact N]. apply plan2_count in H. rewrite H, (A X). reflexivity.
  - intros X. assert (D : m = PcPlan2 \/ m <> PcPlan2) by (destruct m; auto; right; discriminate).
    destruct D as [->|D]; [|apply (other_count _ _ _ _ _ _ D H N)]. destruct X as [X|X]; [contradiction|].
    cbn [pstep] in H. apply finish_ok in H; [|exact N]. apply plan2_count in H. rewrite H, (B X). reflexivity.
Qed.
Print Assumptions C131_selection.
Theorem C131_bound : forall pc0 ok m P, preach pc0 ok m P -> no_error m ->
  Z.of_nat (p_cv P) <= Z.max 0 (max_cross_validations pc0) /\ (rbf_auto pc0 = false -> p_cv P = 0%nat).
Proof. exact count_bound. Qed.
Print Assumptions C131_bound.
Example C131_case : preach w_r1 any_pin PcHead (snd x_seven) /\ max_cross_validations w_r1 = 5 /\ p_cv (snd x_seven) = 5%nat /\
  p_cv (snd x_four) = 2%nat.
Proof. split; [apply reached; vm_compute; reflexivity|]. vm_compute. auto. Qed.
