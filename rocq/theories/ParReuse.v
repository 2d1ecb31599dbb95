(** * Parallel optimizer: reuse of evaluations made before a restart. *)
From Verif Require Export ParBudget ParRefine.
Open Scope Z_scope.

Ltac branch H :=
  repeat (match type of H with
  | context [match ?x with _ => _ end] => lazymatch x with context [match _ with _ => _ end] => fail | _ => destruct x eqn:? end
  end; cbn beta iota in H; try discriminate H).

Lemma begin_iid c q kind P m P' : restart_begin c q kind P = Ok (m, P') -> p_k P' = p_k P.
Proof.
  unfold restart_begin. cbv zeta. destruct (_ || _); [|intros H; injection H as <- <-; reflexivity].
  destruct (i_samples _) as [pts|]; [|discriminate].
  match goal with |- context [if ?b then (pts, []) else ?r] => destruct (if b then (pts, []) else r) as [new prev] end. intros H. injection H as <- <-. reflexivity.
Qed.
Lemma finish_iid c q kind w P m P' : restart_finish c q kind w P = Ok (m, P') -> iid_set (p_k P') = iid_set (p_k P).
Proof.
  unfold restart_finish. cbv zeta. destruct (restart_user _ _ _ _) as [[usr u1] nu].
  destruct (map snd (w_got w) ++ w_prev w ++ usr) eqn:E0.
  all: destruct ((map snd (w_got w) ++ w_prev w) ++ usr) eqn:E; [discriminate|].
  all: destruct (current_gap _ _) as [g|]; cbn [bind]; [|discriminate].
  all: destruct (_ =? 1)%nat; [discriminate|]. all: destruct (_ && _); [discriminate|].
  all: destruct kind; intros H; injection H as <- <-; reflexivity.
Qed.
Lemma reeval_iid c p ind P P' : reevaluate c p ind P = Ok P' -> iid_set (p_k P') = iid_set (p_k P).
Proof.
  unfold reevaluate. cbv zeta.
  assert (D : forall j P1, bind (remove_node j (p_s P)) (fun s' => Ok (note [PUnrow (nodes_at_restart (T (p_s P)) + j)] (set_s s' P))) = Ok P1 ->
     p_k P1 = p_k P).
  { intros j P1. destruct (remove_node _ _); cbn [bind]; [|discriminate]. intros H. injection H as <-. reflexivity. }
  destruct (_ && _); [intros H; rewrite (D _ _ H); reflexivity|].
  destruct (find_point _ _ _) as [j|]; [|intros H; injection H as <-; reflexivity].
  destruct (bind (remove_node j (p_s P)) (fun s' => Ok (note [PUnrow (nodes_at_restart (T (p_s P)) + j)] (set_s s' P)))) as [P1|] eqn:E; cbn [bind]; [|discriminate]. apply D in E. intros H. injection H as <-.
  cbn. rewrite E. reflexivity.
Qed.
Lemma reuse_iid c p po j P P' : reuse_old c p po j P = Ok P' ->
  iid_set (p_k P) = true /\ iid_set (p_k P') = true /\
  p_log P' = p_log P ++ [PRow None po (nth j (all_val (T (p_s P))) 0%Q)] /\
  (nth j (all_is_noisy (T (p_s P))) false = true ->
     exists e, errs (lc (p_k P)) = Some e /\ all_err (T (p_s P')) = all_err (T (p_s P)) ++ [e]) /\
  all_is_noisy (T (p_s P')) = all_is_noisy (T (p_s P)) ++ [nth j (all_is_noisy (T (p_s P))) false].
Proof.
  unfold reuse_old. cbv zeta. destruct (nth j (all_is_noisy _) false) eqn:EN.
  - destruct (errs _) as [e|] eqn:EE; cbn [bind]; [|discriminate].
    destruct (current_gap _ _) as [g|]; cbn [bind]; [|discriminate].
    destruct (iid_set (p_k P)) eqn:EI; cbn [negb]; [|discriminate]. destruct (_ =? 0); [discriminate|].
    intros H. injection H as <-. split; [reflexivity|].
    split; [exact EI|]. split; [reflexivity|]. unfold note, set_k, set_s; cbn [p_s]. rewrite (proj1 (updates_frame _ _)). destruct (_ =? 0); cbn; (split; [|reflexivity]); intros _; exists e; auto.
  - cbn [bind]. destruct (current_gap _ _) as [g|]; cbn [bind]; [|discriminate].
    destruct (iid_set (p_k P)) eqn:EI; cbn [negb]; [|discriminate]. destruct (_ =? 0); [discriminate|].
    intros H. injection H as <-. split; [reflexivity|].
    split; [exact EI|]. split; [reflexivity|]. unfold note, set_k, set_s; cbn [p_s]. rewrite (proj1 (updates_frame _ _)). destruct (_ =? 0); cbn; (split; [discriminate|reflexivity]).
Qed.
Lemma use_iid c q p0 noisy id P P' : use_point c q p0 noisy id P = Ok P' -> iid_set (p_k P') = iid_set (p_k P).
Proof.
  unfold use_point. cbv zeta. destruct (node_pos _) as [|a b]; [discriminate|].
  destruct (_ || _); [intros H; injection H as <-; unfold discard_search; destruct id; reflexivity|].
  destruct (lookup_old _ _ _) as [j|]; [|intros H; injection H as <-; reflexivity].
  destruct (_ || _); [|intros H; injection H as <-; reflexivity].
  intros H. apply reuse_iid in H. destruct H as (A & B & _). congruence.
Qed.
Lemma search_iid c q j P P' : take_search c q j P = Ok P' -> iid_set (p_k P') = iid_set (p_k P).
Proof.
  unfold take_search. destruct (nth_error _ _) as [e|]; [|discriminate]. cbv zeta. destruct (s_bad e); [discriminate|].
  destruct (q_ans q) as [[p|] adj|p ind].
  - intros H. apply use_iid in H. rewrite H. reflexivity.
  - intros H. injection H as <-. unfold discard_search. destruct (s_id e); reflexivity.
  - destruct (s_id e); try (intros H; apply use_iid in H; rewrite H; reflexivity).
    destruct (_ && _); [|intros H; apply use_iid in H; rewrite H; reflexivity].
    destruct (reevaluate _ _ _ _) as [P2|] eqn:E; cbn [bind]; [|discriminate].
    apply reeval_iid in E. intros H. apply use_iid in H. rewrite H, E. reflexivity.
Qed.
Lemma plan_ref_iid c q P m P' : plan_refinement c q P = Ok (m, P') -> iid_set (p_k P') = iid_set (p_k P).
Proof.
  unfold plan_refinement. cbv zeta. match goal with |- bind ?x _ = _ -> _ => destruct x as [init|]; cbn [bind]; [|discriminate] end.
  destruct (_ && _); [discriminate|]. destruct (_ && _); [discriminate|]. destruct (stale_all _ _); [discriminate|].
  destruct (negb _); intros H; injection H as <- <-; reflexivity.
Qed.
Lemma plan2_iid pc0 q P m P' : plan2 pc0 q P = Ok (m, P') -> iid_set (p_k P') = iid_set (p_k P).
Proof.
  unfold plan2. cbv zeta. assert (CV : p_k (cross_validate pc0 P) = p_k P) by (unfold cross_validate; cbv zeta; destruct (_ && _); reflexivity).
  destruct (linear_phase _ _ _) as [P1|P1|e] eqn:E; [| |discriminate].
  - assert (K : p_k P1 = p_k P).
    { unfold linear_phase in E. cbv zeta in E. destruct (i_lin_ok _); [injection E as <-; exact CV|].
      destruct (_ && _); [discriminate|]. destruct (_ =? 0)%nat; [discriminate|]. injection E as <-. exact CV. }
    rewrite <- K. destruct (_ =? restoration_step _).
    + destruct (idle _); [|intros H; injection H as <- <-; reflexivity]. intros H. apply begin_iid in H. rewrite H. reflexivity.
    + destruct (_ && _); [apply plan_ref_iid|]. intros H. injection H as <- <-.
      destruct (_ =? inf_step); [reflexivity|]. destruct (_ =? _); reflexivity.
  - intros H. injection H as <- <-. unfold linear_phase in E. cbv zeta in E. destruct (i_lin_ok _); [discriminate|].
    destruct (_ && _); [injection E as <-; cbn; rewrite CV; reflexivity|]. destruct (_ =? 0)%nat; discriminate.
Qed.
Lemma step_iid pc0 q m P m' P' : pstep pc0 q m P = (m', P') -> no_error m' -> (forall b, m <> PcEvals b) ->
  iid_set (p_k P') = iid_set (p_k P).
Proof.
  intros H N NE. destruct m; cbn [pstep] in H.
  - destruct (loop_cond _ _ _ _); injection H as <- <-; reflexivity.
  - exfalso. eapply NE; reflexivity.
  - destruct (ready _ _) as [j|].
    + apply finish_ok in H; [|exact N]. destruct (take_search _ _ _ _) eqn:E; cbn [bind] in H; [|discriminate]. injection H as <- <-.
      eapply search_iid; eauto.
    + destruct (_ <=? _); injection H as <- <-; reflexivity.
  - apply finish_ok in H; [|exact N]. unfold plan in H. cbv zeta in H. destruct (skip_step _ _); [injection H as <- <-; reflexivity|].
    destruct (must_restart_parallel _ _); [|injection H as <- <-; reflexivity].
    destruct (idle _); [|injection H as <- <-; reflexivity]. apply begin_iid in H. rewrite H. reflexivity.
  - apply finish_ok in H; [|exact N]. eapply plan2_iid; eauto.
  - apply finish_ok in H; [|exact N]. unfold wait_step in H. cbv zeta in H. destruct (_ && _); [eapply finish_iid; eauto|].
    destruct (ready _ _) as [j|].
    + unfold take_init in H. destruct (nth_error _ _) as [t|]; cbn [bind] in H; [|discriminate].
      match type of H with context [if t_noisy t then ?a else ?b] => destruct (if t_noisy t then a else b) as [[v el] eu] end. cbn [bind fst snd] in H. injection H as <- <-. reflexivity.
    + destruct (_ <=? _); [eapply finish_iid; eauto|]. injection H as <- <-. reflexivity.
  - apply finish_ok in H; [|exact N]. unfold final_step in H. destruct (pend _) as [|t r] eqn:EP; [injection H as <- <-; reflexivity|].
    cbv zeta in H. destruct (node_pos _); [discriminate|]. destruct (t_noisy t); [destruct (errs _); discriminate|].
    destruct (current_gap _ _); cbn [bind] in H; [|discriminate]. injection H as <- <-. reflexivity.
  - injection H as <- <-. reflexivity.
  - injection H as <- <-. reflexivity.
Qed.
Lemma start_iid pc0 q pa P0 m P : pstart pc0 q pa P0 = (m, P) -> no_error m -> iid_set (p_k P) = false.
Proof.
  unfold pstart. cbv zeta. destruct (_ =? 0); [intros H N; injection H as <- <-; exfalso; eapply N; reflexivity|].
  destruct (_ =? 0).
  - intros H N. apply finish_ok in H; [|exact N]. apply begin_iid in H. rewrite H. reflexivity.
  - destruct (current_gap _ _) as [g|]; [|intros H N; injection H as <- <-; exfalso; eapply N; reflexivity].
    intros H _. injection H as <- <-. reflexivity.
Qed.

(** A result was handled in the loop, earlier in this call. *)
Definition result_handled (pc0 : pcfg) (ok : pin -> Prop) (pa : Z) (P0 : pst) : Prop :=
  exists b q j P1 m2 P2, pduring pc0 ok pa P0 (PcEvals b) P1 /\ ready q (pend (p_k P1)) = Some j /\
    pstep pc0 q (PcEvals b) P1 = (m2, P2) /\ no_error m2.
Lemma iid_result pc0 ok pa P0 m P : pduring pc0 ok pa P0 m P -> no_error m -> iid_set (p_k P) = true ->
  result_handled pc0 ok pa P0.
Proof.
  intros H. induction H as [q m P Hq H|q m P m' P' Hq HR IH H]; intros N E.
  - apply start_iid in H; [congruence|exact N].
  - assert (N0 : no_error m).
    { intros e ->. cbn in H. injection H as <- <-. now apply (N e). }
    assert (D : (exists b, m = PcEvals b) \/ forall b, m <> PcEvals b) by (destruct m; try (right; discriminate); left; eauto).
    destruct D as [(b & ->)|D].
    + destruct (ready q (pend (p_k P))) as [j|] eqn:ER.
      * exists b, q, j, P, m', P'. auto.
      * apply IH; [exact N0|]. cbn [pstep] in H. rewrite ER in H. destruct (_ <? _); injection H as <- <-; exact E.
    + apply IH; [exact N0|]. rewrite <- (step_iid _ _ _ _ _ _ H N D). exact E.
Qed.
Lemma use_log c q p0 noisy id P P' : use_point c q p0 noisy id P = Ok P' -> exists l, p_log P' = p_log P ++ l /\
  ((exists src po v, In (PRow src po v) l) -> iid_set (p_k P) = true).
Proof.
  unfold use_point. cbv zeta. destruct (node_pos _) as [|a b]; [discriminate|].
  destruct (_ || _).
  { intros H; injection H as <-. exists []. rewrite app_nil_r. split; [unfold discard_search; destruct id; reflexivity|]. intros (? & ? & ? & []). }
  assert (Y : forall po, exists l, p_log (submit_point c q (clip p0 (l_lower c) (l_upper c)) po noisy id P) = p_log P ++ l /\
     ((exists src po v, In (PRow src po v) l) -> iid_set (p_k P) = true)).
  { intros po. eexists. split; [reflexivity|]. intros (? & ? & ? & [X|[]]). discriminate X. }
  destruct (lookup_old _ _ _) as [j|]; [|intros H; injection H as <-; apply Y].
  destruct (_ || _); [|intros H; injection H as <-; apply Y].
  intros H. apply reuse_iid in H. destruct H as (A & _ & B & _). eexists. split; [exact B|]. intros _. exact A.
Qed.
Lemma reeval_log c p ind P P' : reevaluate c p ind P = Ok P' -> exists l, p_log P' = p_log P ++ l /\
  forall src po v, ~ In (PRow src po v) l.
Proof.
  unfold reevaluate. cbv zeta.
  assert (D : forall j P1, bind (remove_node j (p_s P)) (fun s' => Ok (note [PUnrow (nodes_at_restart (T (p_s P)) + j)] (set_s s' P))) = Ok P1 ->
     p_log P1 = p_log P ++ [PUnrow (nodes_at_restart (T (p_s P)) + j)]).
  { intros j P1. destruct (remove_node _ _); cbn [bind]; [|discriminate]. intros H. injection H as <-. reflexivity. }
  assert (U : forall j src po v, ~ In (PRow src po v) [PUnrow j]) by (intros j src po v [X|[]]; discriminate X).
  destruct (_ && _); [intros H; apply D in H; eauto|].
  destruct (find_point _ _ _) as [j|].
  - destruct (bind (remove_node j (p_s P)) (fun s' => Ok (note [PUnrow (nodes_at_restart (T (p_s P)) + j)] (set_s s' P)))) as [P1|] eqn:E; cbn [bind]; [|discriminate]. apply D in E. intros H. injection H as <-. cbn [set_k p_log]. eauto.
  - intros H; injection H as <-. exists []. rewrite app_nil_r. split; [reflexivity|]. intros ? ? ? [].
Qed.
Lemma search_log c q j P P' : take_search c q j P = Ok P' -> exists l, p_log P' = p_log P ++ l /\
  ((exists src po v, In (PRow src po v) l) -> iid_set (p_k P) = true).
Proof.
  unfold take_search. destruct (nth_error _ _) as [e|]; [|discriminate]. cbv zeta. destruct (s_bad e); [discriminate|].
  destruct (q_ans q) as [[p|] adj|p ind].
  - intros H. apply use_log in H. exact H.
  - intros H. injection H as <-. exists []. rewrite app_nil_r. split; [unfold discard_search; destruct (s_id e); reflexivity|]. intros (? & ? & ? & []).
  - destruct (s_id e); try (intros H; apply use_log in H; exact H).
    destruct (_ && _); [|intros H; apply use_log in H; exact H].
    destruct (reevaluate _ _ _ _) as [P2|] eqn:E; cbn [bind]; [|discriminate].
    pose proof (reeval_iid _ _ _ _ _ E) as EI. destruct (reeval_log _ _ _ _ _ E) as (l1 & L1 & F1).
    intros H. apply use_log in H. destruct H as (l2 & L2 & F2). exists (l1 ++ l2).
    split; [rewrite L2, L1, app_assoc; reflexivity|]. intros (src & po & v & X). apply in_app_iff in X. destruct X as [X|X]; [exfalso; eapply F1; eauto|].
    cbn [set_k p_k k_srch iid_set] in EI. rewrite <- EI. apply F2. eauto.
Qed.
