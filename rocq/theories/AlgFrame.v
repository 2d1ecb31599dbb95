(** * Decomposition of a pass into effects (frame lemmas).

    [quiet]: an effect that touches neither the node tables nor the evaluation
    counters nor the incumbents (only steps, cycles, refinement data, log, saves). *)
From Verif Require Export ModelAlg BaseLemmas.
Open Scope Z_scope.

Definition silent (e : event) : Prop :=
  match e with EvSave _ => True | EvStep _ => True | _ => False end.

(** Incumbents equal except for the displayed gap. *)
Definition same_incs (i j : incs) : Prop :=
  fmin_index j = fmin_index i /\ fmin j = fmin i /\ fmax j = fmax i /\
  is_fmin_noisy j = is_fmin_noisy i /\ fbest_index j = fbest_index i /\
  fbest j = fbest i /\ is_fbest_noisy j = is_fbest_noisy i.

Record quiet (s s' : st) : Prop := {
  q_T : T s' = T s;
  q_I : same_incs (I s) (I s');
  q_ev : evalcount (C s') = evalcount (C s);
  q_nev : noisy_evalcount (C s') = noisy_evalcount (C s);
  q_it : itercount (C s) <= itercount (C s');
  q_cyc : cyclecount (C s) <= cyclecount (C s');
  q_mode : noisy_mode (C s') = true -> noisy_mode (C s) = true;
  q_nr : num_noisy_restarts (C s') = num_noisy_restarts (C s);
  q_trace : exists es, trace s' = trace s ++ es /\ Forall silent es }.

Lemma same_incs_refl i : same_incs i i.
Proof. unfold same_incs; tauto. Qed.
Lemma same_incs_trans i j k : same_incs i j -> same_incs j k -> same_incs i k.
Proof. unfold same_incs. intuition congruence. Qed.

Lemma quiet_refl s : quiet s s.
Proof.
  constructor; auto using same_incs_refl with zarith.
  exists []. rewrite app_nil_r. auto.
Qed.
Lemma quiet_trans s1 s2 s3 : quiet s1 s2 -> quiet s2 s3 -> quiet s1 s3.
Proof.
  intros [T1 I1 e1 n1 it1 c1 m1 r1 (es1 & t1 & f1)] [T2 I2 e2 n2 it2 c2 m2 r2 (es2 & t2 & f2)].
  constructor; try congruence; try lia; auto.
  - eapply same_incs_trans; eauto.
  - exists (es1 ++ es2). rewrite t2, t1, app_assoc. split; [reflexivity|].
    apply Forall_app; auto.
Qed.

Ltac quiet_simple :=
  constructor; cbn; auto using same_incs_refl with zarith;
  try (exists []; rewrite app_nil_r; auto; fail).

Lemma quiet_advance c s : quiet s (advance_st c s).
Proof.
  unfold advance_st, advance. cbv zeta.
  destruct (next_step c (current_step (C s)) <? current_step (C s)); quiet_simple; lia.
Qed.
Lemma quiet_set_R s r : quiet s (set_R r s).
Proof. quiet_simple. Qed.
Lemma quiet_emit_step s z : quiet s (emit [EvStep z] s).
Proof. quiet_simple. exists [EvStep z]. split; auto. constructor; simpl; auto. Qed.
Lemma quiet_emit_save s z : quiet s (emit [EvSave z] s).
Proof. quiet_simple. exists [EvSave z]. split; auto. constructor; simpl; auto. Qed.
Lemma quiet_log v g s : quiet s (log_value v g s).
Proof.
  unfold log_value, log_incs. destruct (log_star v g (I s)); quiet_simple.
  unfold same_incs; cbn; tauto.
Qed.
Lemma quiet_log_all vals g s : quiet s (log_all vals g s).
Proof.
  unfold log_all. revert s. induction vals as [|v r IH]; intros s; simpl.
  - apply quiet_refl.
  - eapply quiet_trans; [apply quiet_log|apply IH].
Qed.
Lemma quiet_stall c s : quiet s (stalling_update c s).
Proof.
  unfold stalling_update.
  destruct (fmin (I s)) as [f|], (fmin_stall_check (C s)) as [r|];
    [destruct (improves (eps_impr c) f r)|..]; quiet_simple.
Qed.
Lemma quiet_phase c s : quiet s (phase_update c s).
Proof.
  unfold phase_update. destruct (_ && _); [|apply quiet_refl].
  quiet_simple.
Qed.
Lemma quiet_iter s : quiet s (set_C (set_iter (itercount (C s) + 1) (C s)) s).
Proof. quiet_simple. Qed.
Lemma quiet_disc s l : quiet s (set_C (set_discarded l (C s)) s).
Proof. quiet_simple. Qed.
Lemma quiet_underdet c s b : quiet s (set_C (set_underdet b (advance c (C s))) s).
Proof.
  pose proof (quiet_advance c s) as [ ]. constructor; cbn in *; auto.
Qed.
Lemma quiet_cycle_step s z : quiet s (set_C (set_cycle (cyclecount (C s) + 1) (set_step z (C s))) s).
Proof. quiet_simple. Qed.
Lemma quiet_set_step s z : quiet s (set_C (set_step z (C s)) s).
Proof. quiet_simple. Qed.

Lemma quiet_end c s s' : end_of_pass c s = Ok s' -> quiet s s'.
Proof.
  unfold end_of_pass. cbv zeta. intros H.
  assert (Q : quiet s (phase_update c (stalling_update c
                (set_C (set_iter (itercount (C s) + 1) (C s)) s)))).
  { eapply quiet_trans; [apply quiet_iter|].
    eapply quiet_trans; [apply quiet_stall|apply quiet_phase]. }
  destruct (_ =? 0); [discriminate|].
  destruct (_ mod _ =? 0); inversion H; subst; auto.
  eapply quiet_trans; [exact Q|apply quiet_emit_save].
Qed.

Lemma quiet_refine c i s s' : refinement_update c i s = Ok s' -> quiet s s'.
Proof.
  unfold refinement_update. cbv zeta.
  destruct (ref_radius (Rf s)); [|discriminate].
  destruct (ref_iterate_index (Rf s)); [|discriminate].
  match goal with |- context [match ?x with None => Fail EIndex | _ => _ end] => destruct x end;
    [|discriminate].
  destruct (_ && stale _ _); [discriminate|].
  destruct (_ && stale _ _); [discriminate|].
  intros H. inversion H; subst. clear H.
  destruct (Qltb _ _ || _); quiet_simple.
Qed.

Lemma quiet_after c i s s' : after_eval c i s = Ok s' -> quiet s s'.
Proof.
  unfold after_eval. cbv zeta.
  destruct (current_step (C s) =? refinement_step c).
  - destruct (refinement_update c i s) as [s1|] eqn:E; simpl; [|discriminate].
    intros H; inversion H; subst.
    eapply quiet_trans; [apply (quiet_refine _ _ _ _ E)|].
    eapply quiet_trans; [apply quiet_set_R|]. apply (quiet_disc (set_R _ s1)).
  - destruct (_ && _); simpl; intros H; inversion H; subst.
    + quiet_simple.
    + eapply quiet_trans; [apply quiet_advance|apply quiet_disc].
Qed.

Definition prep_state (p : prep) : option st :=
  match p with PGo s => Some s | PNext s => Some s | PFail _ => None end.
Lemma quiet_prepare c i s s' : prep_state (prepare c i s) = Some s' -> quiet s s'.
Proof.
  unfold prepare. cbv zeta.
  destruct (current_step (C s) <=? local_search_step c).
  { destruct (i_lin_ok i); simpl; intros H; inversion H; subst;
      [apply quiet_refl|apply quiet_set_step]. }
  destruct (current_step (C s) =? refinement_step c).
  2: { simpl; intros H; inversion H; subst; apply quiet_refl. }
  destruct (num_cons_refinement (Rf s) =? 0); cbn [andb]; cbv iota.
  - destruct (stale (T s) [fmin_index (I s)]); [intros H; discriminate H|].
    destruct (length (node_pos (T s)) <? 2)%nat; [intros H; discriminate H|].
    destruct (stale _ _); [intros H; discriminate H|].
    destruct (i_ref_ok i); cbn [negb]; cbv iota.
    + destruct (ref_iterate_index _); [|intros H; discriminate H].
      destruct (stale _ _); [intros H; discriminate H|]. simpl; intros H; inversion H; apply quiet_set_R.
    + simpl; intros H; inversion H; subst. quiet_simple.
  - destruct (stale _ _); [intros H; discriminate H|].
    destruct (i_ref_ok i); cbn [negb]; cbv iota.
    + destruct (ref_iterate_index _); [|intros H; discriminate H].
      destruct (stale _ _); [intros H; discriminate H|]. simpl; intros H; inversion H; subst; apply quiet_refl.
    + simpl; intros H; inversion H; subst. apply quiet_cycle_step.
Qed.

(** ** Restoration never succeeds: the candidate is compared with a set that
    contains it. *)
Lemma restoration_none c i s : (0 <= min_dist c)%Q ->
  forall fuel a r x, restoration c i s a r fuel = Ok x -> x = None.
Proof.
  intros Hd. induction fuel as [|f IH]; intros a r x; simpl.
  - intros H; inversion H; reflexivity.
  - destruct (_ && _); [|intros H; inversion H; reflexivity].
    destruct (i_restore i a) as [[p ok]|]; [|discriminate].
    rewrite near_self; [|assumption|apply in_or_app; right; simpl; auto].
    simpl. apply IH.
Qed.

(** ** Effect of [search] *)
Inductive search_eff (c : cfg) (i : inp) (s : st) : found -> Prop :=
| SE_quiet : forall s', quiet s s' -> search_eff c i s (FNext s')
| SE_restart : forall s', restart c i s = Ok s' -> search_eff c i s (FNext s')
| SE_prop : current_step (C s) <> restoration_step c ->
            search_eff c i s (FPoint s (i_prop i))
| SE_reeval : forall j p s',
    has_noisy c = true -> noisy_mode (C s) = false ->
    current_step (C s) = local_search_step c -> i_reeval i = Some j ->
    nth_error (node_pos (T s)) j = Some p -> remove_node j s = Ok s' ->
    search_eff c i s (FPoint s' (Some p))
| SE_restore : forall r p s', (min_dist c < 0)%Q -> remove_node r s = Ok s' ->
    search_eff c i s (FPoint s' (Some p))
| SE_fail : forall e, search_eff c i s (FFail e).

Lemma search_effect c i s : search_eff c i s (search c i s).
Proof.
  unfold search. cbv zeta.
  destruct (current_step (C s) =? restoration_step c) eqn:Er.
  { destruct (restoration_search c i s) as [[[p r]|]|e] eqn:E.
    - destruct (remove_node r s) eqn:E2; [|apply SE_fail].
      apply SE_restore with (r := r); [|assumption].
      destruct (Qlt_le_dec (min_dist c) 0) as [?|Hge]; [assumption|].
      unfold restoration_search in E. cbv zeta in E.
      apply restoration_none in E; [discriminate|assumption].
    - destruct (_ && _).
      + apply SE_quiet. apply quiet_underdet.
      + destruct (restart c i s) eqn:E2; [|apply SE_fail]. now apply SE_restart.
    - apply SE_fail. }
  apply Z.eqb_neq in Er.
  destruct (current_step (C s) =? local_search_step c) eqn:El.
  2: now apply SE_prop.
  apply Z.eqb_eq in El. unfold local_result.
  destruct (has_noisy c && negb (noisy_mode (C s))) eqn:Em; [|now apply SE_prop].
  apply andb_true_iff in Em. destruct Em as [Hn Hm]. apply negb_true_iff in Hm.
  destruct (i_reeval i) as [j|] eqn:Ej; [|now apply SE_prop].
  destruct (nth_error (node_pos (T s)) j) eqn:Ep; [|apply SE_fail].
  destruct (remove_node j s) eqn:Ed; [|apply SE_fail].
  eapply SE_reeval; eauto.
Qed.

(** ** Effect of [evaluate] *)
(** Only the displayed gap may differ. *)
Definition logged (s s' : st) : Prop := exists i, s' = set_I i s /\ same_incs (I s) i.
Lemma logged_refl s : logged s s.
Proof. exists (I s). destruct s. split; [reflexivity|apply same_incs_refl]. Qed.
Lemma logged_log v g s : logged s (log_value v g s).
Proof.
  exists (log_incs v g (I s)). split; [reflexivity|]. unfold log_incs.
  destruct (log_star v g (I s)); [|apply same_incs_refl]. unfold same_incs; cbn; tauto.
Qed.
Inductive eval_eff (c : cfg) (i : inp) (po : point) (s : st) (l : loc)
  : Q -> bool -> Q * Q -> st -> Prop :=
| EE_reuse_acc : forall j,       (* stored accurate value taken over *)
    lookup_old c (T s) po = Some j -> nth j (all_is_noisy (T s)) false = false ->
    eval_eff c i po s l (nth j (all_val (T s)) 0%Q) false (0, 0)%Q s
| EE_reuse_noisy : forall j e,   (* stored noisy value, with the errors of the locals *)
    lookup_old c (T s) po = Some j -> nth j (all_is_noisy (T s)) false = true ->
    noisy_mode (C s) = true -> errs l = Some e ->
    eval_eff c i po s l (nth j (all_val (T s)) 0%Q) true e s
| EE_acc : forall s0,            (* accurate evaluation *)
    logged s s0 ->
    (lookup_old c (T s) po = None \/
     exists j, lookup_old c (T s) po = Some j /\ nth j (all_is_noisy (T s)) false = true) ->
    (noisy_mode (C s) = true -> exists j, lookup_old c (T s) po = Some j) ->
    eval_eff c i po s l (i_val i) false (0, 0)%Q
             (emit [EvAcc po (i_val i)] (set_C (add_evals 1 0 (C s0)) s0))
| EE_noisy : forall v el eu,     (* noisy evaluation *)
    i_nval i = (v, el, eu) -> noisy_mode (C s) = true -> lookup_old c (T s) po = None ->
    eval_eff c i po s l v true (el, eu)
             (emit [EvNoisy po v el eu] (set_C (add_evals 0 1 (C s)) s))
| EE_both : forall v el eu s0,   (* noisy evaluation followed by an accurate one *)
    i_nval i = (v, el, eu) -> noisy_mode (C s) = true -> lookup_old c (T s) po = None ->
    require_accurate c s (v + el)%Q = true ->
    logged (emit [EvNoisy po v el eu] (set_C (add_evals 0 1 (C s)) s)) s0 ->
    eval_eff c i po s l (i_val i) false (0, 0)%Q
             (emit [EvAcc po (i_val i)] (set_C (add_evals 1 0 (C s0)) s0)).

Lemma require_accurate_incs c s s' v : I s' = I s -> require_accurate c s' v = require_accurate c s v.
Proof. intros H. unfold require_accurate. now rewrite H. Qed.

Lemma evaluate_effect c i p po s l s' l' :
  evaluate c i p po s l = Ok (s', l') ->
  exists v noisy e s0 g,
    eval_eff c i po s l v noisy e s0 /\
    current_gap c (insert_node p po v noisy e s0) = Ok g /\
    s' = log_value v g (insert_node p po v noisy e s0) /\
    gap l' = g /\ it_start l' = it_start l /\ pause l' = pause l.
Proof.
  unfold evaluate. cbv zeta.
  destruct (noisy_mode (C s)) eqn:Em; cbn [negb]; cbv iota.
  - (* noisy mode *)
    destruct (lookup_old c (T s) po) as [j|] eqn:El.
    + destruct (nth j (all_is_noisy (T s)) false) eqn:Ej.
      * destruct (errs l) as [[el eu]|] eqn:Ee; [|discriminate].
        destruct (require_accurate c s _) eqn:Er.
        -- match goal with |- context [bind (current_gap c ?x) _] =>
             destruct (current_gap c x) as [g|] eqn:Eg end; simpl; [|discriminate].
           intros H; inversion H; subst. do 5 eexists.
           split; [|split; [exact Eg|auto]].
           apply EE_acc; [apply logged_log| |eauto].
           right. exists j; auto.
        -- match goal with |- context [bind (current_gap c ?x) _] =>
             destruct (current_gap c x) as [g|] eqn:Eg end; simpl; [|discriminate].
           intros H; inversion H; subst. do 5 eexists.
           split; [|split; [exact Eg|auto]]. eapply EE_reuse_noisy; eauto.
      * match goal with |- context [bind (current_gap c ?x) _] =>
             destruct (current_gap c x) as [g|] eqn:Eg end; simpl; [|discriminate].
        intros H; inversion H; subst. do 5 eexists.
        split; [|split; [exact Eg|auto]]. eapply EE_reuse_acc; eauto.
    + destruct (i_nval i) as [[v el] eu] eqn:Ev. cbn [errs].
      destruct (require_accurate c _ _) eqn:Er.
      * match goal with |- context [bind (current_gap c ?x) _] =>
             destruct (current_gap c x) as [g|] eqn:Eg end; simpl; [|discriminate].
        intros H; inversion H; subst. do 5 eexists.
        split; [|split; [exact Eg|auto]].
        eapply EE_both; [exact Ev|assumption|assumption| |apply logged_log].
        erewrite require_accurate_incs in Er; [exact Er|reflexivity].
      * match goal with |- context [bind (current_gap c ?x) _] =>
             destruct (current_gap c x) as [g|] eqn:Eg end; simpl; [|discriminate].
        intros H; inversion H; subst. do 5 eexists.
        split; [|split; [exact Eg|auto]].
        eapply EE_noisy; eauto.
  - (* accurate mode *)
    destruct (lookup_old c (T s) po) as [j|] eqn:El.
    + destruct (nth j (all_is_noisy (T s)) false) eqn:Ej; cbn [negb]; cbv iota.
      * match goal with |- context [bind (current_gap c ?x) _] =>
             destruct (current_gap c x) as [g|] eqn:Eg end; simpl; [|discriminate].
        intros H; inversion H; subst. do 5 eexists.
        split; [|split; [exact Eg|auto]].
        apply EE_acc; [apply logged_refl|right; eauto|congruence].
      * match goal with |- context [bind (current_gap c ?x) _] =>
             destruct (current_gap c x) as [g|] eqn:Eg end; simpl; [|discriminate].
        intros H; inversion H; subst. do 5 eexists.
        split; [|split; [exact Eg|auto]]. eapply EE_reuse_acc; eauto.
    + match goal with |- context [bind (current_gap c ?x) _] =>
             destruct (current_gap c x) as [g|] eqn:Eg end; simpl; [|discriminate].
      intros H; inversion H; subst. do 5 eexists.
      split; [|split; [exact Eg|auto]].
      apply EE_acc; [apply logged_refl|left; assumption|congruence].
Qed.

(** ** Effect of [conclude] *)
Definition accepted (c : cfg) (s : st) (p : point) : Prop :=
  node_pos (T s) <> [] /\ near (min_dist c) p (node_pos (T s)) = false.

Inductive conclude_eff (c : cfg) (i : inp) (s : st) (prop : option point) (l : loc)
  : st -> loc -> Prop :=
| CE_discard : forall s', quiet s s' -> itercount (C s') = itercount (C s) + 1 ->
    conclude_eff c i s prop l s' l
| CE_eval : forall q p s1 l1 s',
    prop = Some q -> p = clip q (l_lower c) (l_upper c) -> accepted c s p ->
    evaluate c i p (to_orig c p) s l = Ok (s1, l1) ->
    quiet s1 s' -> itercount (C s') = itercount (C s) + 1 ->
    conclude_eff c i s prop l s' l1.

Lemma stall_iter c s : itercount (C (stalling_update c s)) = itercount (C s).
Proof.
  unfold stalling_update. destruct (fmin (I s)), (fmin_stall_check (C s)); cbn; auto.
  destruct (improves _ _ _); reflexivity.
Qed.
Lemma phase_iter c s : itercount (C (phase_update c s)) = itercount (C s).
Proof. unfold phase_update. destruct (_ && _); reflexivity. Qed.
Lemma end_iter c s s' : end_of_pass c s = Ok s' -> itercount (C s') = itercount (C s) + 1.
Proof.
  unfold end_of_pass. cbv zeta. destruct (_ =? 0); [discriminate|].
  destruct (_ mod _ =? 0); intros H; inversion H; subst; cbn;
    rewrite phase_iter, stall_iter; reflexivity.
Qed.
Lemma refine_iter c i s s' : refinement_update c i s = Ok s' -> itercount (C s') = itercount (C s).
Proof.
  unfold refinement_update. cbv zeta.
  destruct (ref_radius (Rf s)); [|discriminate].
  destruct (ref_iterate_index (Rf s)); [|discriminate].
  match goal with |- context [match ?x with None => Fail EIndex | _ => _ end] => destruct x end;
    [|discriminate].
  destruct (_ && stale _ _); [discriminate|].
  destruct (_ && stale _ _); [discriminate|].
  intros H. inversion H; subst. clear H.
  destruct (Qltb _ _ || _); reflexivity.
Qed.
Lemma advance_iter c s : itercount (C (advance_st c s)) = itercount (C s).
Proof. unfold advance_st, advance. cbv zeta. destruct (_ <? _); reflexivity. Qed.
Lemma after_iter c i s s' : after_eval c i s = Ok s' -> itercount (C s') = itercount (C s).
Proof.
  unfold after_eval. cbv zeta.
  destruct (current_step (C s) =? refinement_step c).
  - destruct (refinement_update c i s) as [s1|] eqn:E; simpl; [|discriminate].
    intros H; inversion H; subst. cbn. eapply refine_iter; eauto.
  - destruct (_ && _); simpl; intros H; inversion H; subst; cbn; [reflexivity|].
    apply advance_iter.
Qed.
Lemma evaluate_iter c i p po s l s' l' :
  evaluate c i p po s l = Ok (s', l') -> itercount (C s') = itercount (C s).
Proof.
  unfold evaluate. cbv zeta. destruct (i_nval i) as [[v0 el0] eu0]. intros H.
  assert (L : forall v g x, itercount (C (log_value v g x)) = itercount (C x)) by reflexivity.
  repeat match type of H with
  | context [if ?b then _ else _] => destruct b
  | context [match lookup_old ?a ?b ?d with _ => _ end] => destruct (lookup_old a b d)
  | context [match errs ?l with _ => _ end] => destruct (errs l) as [[? ?]|]
  | context [bind (current_gap c ?x) _] => destruct (current_gap c x); simpl in H
  | Ok _ = Ok _ => inversion H; subst; reflexivity
  | Fail _ = Ok _ => discriminate
  | _ => progress (cbn [errs] in H)
  end.
Qed.

Lemma conclude_effect c i s prop l s' l' :
  conclude c i s prop l = Cont s' l' -> conclude_eff c i s prop l s' l'.
Proof.
  unfold conclude. cbv zeta.
  set (disc := match end_of_pass c _ with Ok s4 => Cont s4 l | Fail e => Crash e end).
  assert (D : disc = Cont s' l' -> conclude_eff c i s prop l s' l').
  { unfold disc. clear disc. destruct (end_of_pass c _) as [s4|] eqn:E; [|discriminate].
    intros H; inversion H; subst.
    apply CE_discard.
    - eapply quiet_trans; [apply quiet_advance|].
      eapply quiet_trans; [apply quiet_disc|].
      eapply quiet_trans; [apply quiet_set_R|]. eapply quiet_end; eauto.
    - apply end_iter in E. etransitivity; [exact E|]. f_equal. apply (advance_iter c s). }
  destruct prop as [q|]; simpl.
  2: exact D.
  destruct (node_pos (T s)) as [|x xs] eqn:En; [discriminate|].
  destruct (near (min_dist c) (clip q (l_lower c) (l_upper c)) (x :: xs)) eqn:Enear.
  1: exact D.
  destruct (evaluate c i _ _ s l) as [[s1 l1]|] eqn:Ee; simpl; [|discriminate].
  destruct (after_eval c i s1) as [s2|] eqn:Ea; simpl; [|discriminate].
  destruct (end_of_pass c s2) as [s3|] eqn:Eend; simpl; [|discriminate].
  intros H; inversion H; subst.
  eapply CE_eval; eauto.
  - unfold accepted. rewrite En. split; [congruence|exact Enear].
  - eapply quiet_trans; [eapply quiet_after; eauto|eapply quiet_end; eauto].
  - apply end_iter in Eend. apply after_iter in Ea. apply evaluate_iter in Ee. congruence.
Qed.

(** ** Effect of a whole pass *)
(** A predicate on states preserved by every effect is preserved by every pass. *)
Section Preserve.
  Variable c : cfg.
  Variable ok : inp -> Prop.
  Variable P : st -> Prop.
  Hypothesis P_quiet : forall s s', quiet s s' -> P s -> P s'.
  Hypothesis P_restart : forall i s s', ok i -> restart c i s = Ok s' -> P s -> P s'.
  Hypothesis P_remove : forall j s s',
    (has_noisy c = true /\ noisy_mode (C s) = false \/ (min_dist c < 0)%Q) ->
    remove_node j s = Ok s' -> P s -> P s'.
  Hypothesis P_eval : forall i q s l s' l', ok i ->
    (i_prop i = Some q \/
     has_noisy c = true /\ (exists s0 j, P s0 /\ nth_error (node_pos (T s0)) j = Some q) \/
     (min_dist c < 0)%Q) ->
    accepted c s (clip q (l_lower c) (l_upper c)) ->
    evaluate c i (clip q (l_lower c) (l_upper c))
             (to_orig c (clip q (l_lower c) (l_upper c))) s l = Ok (s', l') ->
    P s -> P s'.

  Lemma pass_preserves i s l s' l' : ok i -> pass c i s l = Cont s' l' -> P s -> P s'.
  Proof.
    unfold pass. intros Hok H HP.
    destruct (negb (loop_cond c s l (i_clock_ok i))); [discriminate|].
    destruct (skip_step c (C s)).
    { inversion H; subst. eapply P_quiet; [apply quiet_advance|assumption]. }
    destruct (if must_restart c (C s) then restart c i s else Ok s) as [s1|] eqn:E1;
      [|discriminate].
    assert (H1 : P s1).
    { destruct (must_restart c (C s)); [eapply P_restart; eauto|].
      inversion E1; subst; assumption. }
    pose proof (quiet_prepare c i s1) as Qp.
    destruct (prepare c i s1) as [s2|s2|e] eqn:E2; [| |discriminate].
    2: { inversion H; subst. eapply P_quiet; [apply Qp; reflexivity|assumption]. }
    assert (H2 : P (emit [EvStep (current_step (C s2))] s2)).
    { eapply P_quiet; [apply quiet_emit_step|]. eapply P_quiet; [apply Qp; reflexivity|assumption]. }
    destruct (negb (search_guard c _)); [discriminate|].
    pose proof (search_effect c i (emit [EvStep (current_step (C s2))] s2)) as Hs.
    destruct Hs as [s4 Hq|s4 Hr|Hne|j p s4 Hn Hm Hst Hj Hp Hd|r p s4 Hneg Hd|e].
    - inversion H; subst. eapply P_quiet; eauto.
    - inversion H; subst. eapply P_restart; eauto.
    - apply conclude_effect in H. destruct H; [eapply P_quiet; eauto|].
      subst. eapply P_quiet; [eassumption|]. eapply P_eval; eauto.
    - assert (H4 : P s4) by (eapply P_remove; [left; split; eassumption|eassumption|eassumption]).
      apply conclude_effect in H. destruct H as [|q0]; [eapply P_quiet; eauto|].
      subst. eapply P_quiet; [eassumption|]. eapply P_eval; eauto.
      right. left. split; [assumption|]. match goal with H : Some _ = Some _ |- _ => injection H as <- end.
      eexists; eexists; split; [exact H2|exact Hp].
    - assert (H4 : P s4) by (eapply P_remove; [right; eassumption|eassumption|eassumption]).
      apply conclude_effect in H. destruct H; [eapply P_quiet; eauto|].
      subst. eapply P_quiet; [eassumption|]. eapply P_eval; eauto.
    - discriminate.
  Qed.

  Lemma start_preserves i0 pa s s' l' : ok i0 ->
    start_call c i0 pa s = Ok (s', l') -> P s -> P s'.
  Proof.
    unfold start_call. intros Hok. destruct (itercount (C s) =? 0).
    - destruct (restart c i0 s) as [s1|] eqn:E; simpl; [|discriminate].
      destruct (current_gap c s1); simpl; [|discriminate].
      intros H HP; inversion H; subst. eapply P_restart; eauto.
    - simpl. destruct (current_gap c s); simpl; [|discriminate].
      intros H HP; inversion H; subst. assumption.
  Qed.

  Lemma reach_preserves s l : P (init_st c) -> reach c ok s l -> P s.
  Proof.
    intros H0 H. induction H.
    - eapply start_preserves; eauto.
    - eapply start_preserves; eauto.
    - eapply pass_preserves; eauto.
  Qed.
End Preserve.

(** ** Summary of an evaluation *)
Inductive eval_events (c : cfg) (i : inp) (po : point) (s : st) (l : loc)
  : Q -> bool -> Q * Q -> list event -> Prop :=
| EV_reuse_acc : forall j,
    lookup_old c (T s) po = Some j -> nth j (all_is_noisy (T s)) false = false ->
    eval_events c i po s l (nth j (all_val (T s)) 0%Q) false (0, 0)%Q []
| EV_reuse_noisy : forall j e,
    lookup_old c (T s) po = Some j -> nth j (all_is_noisy (T s)) false = true ->
    noisy_mode (C s) = true -> errs l = Some e ->
    eval_events c i po s l (nth j (all_val (T s)) 0%Q) true e []
| EV_acc :
    (lookup_old c (T s) po = None \/
     exists j, lookup_old c (T s) po = Some j /\ nth j (all_is_noisy (T s)) false = true) ->
    (noisy_mode (C s) = true -> exists j, lookup_old c (T s) po = Some j) ->
    eval_events c i po s l (i_val i) false (0, 0)%Q [EvAcc po (i_val i)]
| EV_noisy : forall v el eu,
    i_nval i = (v, el, eu) -> noisy_mode (C s) = true -> lookup_old c (T s) po = None ->
    eval_events c i po s l v true (el, eu) [EvNoisy po v el eu]
| EV_both : forall v el eu,
    i_nval i = (v, el, eu) -> noisy_mode (C s) = true -> lookup_old c (T s) po = None ->
    require_accurate c s (v + el)%Q = true ->
    eval_events c i po s l (i_val i) false (0, 0)%Q
                [EvNoisy po v el eu; EvAcc po (i_val i)].

Definition is_acc (e : event) : bool := match e with EvAcc _ _ => true | _ => false end.
Definition is_noisy (e : event) : bool := match e with EvNoisy _ _ _ _ => true | _ => false end.
Definition count_ev (f : event -> bool) (es : list event) : Z :=
  Z.of_nat (length (filter f es)).

Record eval_sum (c : cfg) (i : inp) (p po : point) (s : st) (l : loc) (s' : st) (l' : loc)
       (v : Q) (noisy : bool) (e : Q * Q) (es : list event) : Prop := {
  ev_ev : eval_events c i po s l v noisy e es;
  ev_T : T s' = tabs_add p po v noisy e (T s);
  ev_I : same_incs (incs_add v noisy (T s') (I s)) (I s');
  ev_C : C s' = add_evals (count_ev is_acc es) (count_ev is_noisy es) (C s);
  ev_R : Rf s' = Rf s;
  ev_tr : trace s' = trace s ++ es;
  ev_gap : current_gap c s' = Ok (gap l');
  ev_it0 : it_start l' = it_start l;
  ev_pause : pause l' = pause l }.

Lemma same_incs_add v noisy t i j : same_incs i j ->
  same_incs (incs_add v noisy t i) (incs_add v noisy t j).
Proof.
  intros (A1 & A2 & A3 & A4 & A5 & A6 & A7). unfold same_incs, incs_add. cbv zeta.
  cbn. rewrite A1, A2, A3, A4, A5, A6, A7. tauto.
Qed.
Lemma add_evals_0 k : add_evals 0 0 k = k.
Proof. destruct k. unfold add_evals. cbn. f_equal; lia. Qed.
Lemma current_gap_log c v g s : current_gap c (log_value v g s) = current_gap c s.
Proof.
  unfold current_gap, log_value, log_incs. destruct (log_star v g (I s)); reflexivity.
Qed.

Lemma evaluate_sum c i p po s l s' l' :
  evaluate c i p po s l = Ok (s', l') ->
  exists v noisy e es, eval_sum c i p po s l s' l' v noisy e es.
Proof.
  intros H. apply evaluate_effect in H.
  destruct H as (v & noisy & e & s0 & g & He & Hg & -> & Hl1 & Hl2 & Hl3).
  destruct (logged_log v g (insert_node p po v noisy e s0)) as (i1 & E1 & E2).
  rewrite <- (current_gap_log c v g) in Hg. subst g.
  rewrite E1 in *. clear E1.
  destruct He as [j Hj Hn|j e Hj Hn Hm Hl|s0 (i0 & -> & Hq) Hlk Hm|v el eu Hv Hm Hlk
                 |v el eu s0 Hv Hm Hlk Hr (i0 & -> & Hq)].
  - do 4 eexists. constructor; cbn; auto; try (now rewrite app_nil_r); try (now rewrite add_evals_0).
    eapply EV_reuse_acc; eauto.
  - do 4 eexists. constructor; cbn; auto; try (now rewrite app_nil_r); try (now rewrite add_evals_0).
    eapply EV_reuse_noisy; eauto.
  - exists (i_val i), false, (0, 0)%Q, [EvAcc po (i_val i)].
    constructor; cbn; auto; [apply EV_acc; auto|].
    eapply same_incs_trans; [|exact E2]. cbn. apply same_incs_add. exact Hq.
  - exists v, true, (el, eu), [EvNoisy po v el eu].
    constructor; cbn; auto. eapply EV_noisy; eauto.
  - exists (i_val i), false, (0, 0)%Q, [EvNoisy po v el eu; EvAcc po (i_val i)].
    constructor; cbn; auto; [eapply EV_both; eauto| | |].
    + eapply same_incs_trans; [|exact E2]. cbn. apply same_incs_add. exact Hq.
    + unfold add_evals; cbn. f_equal; lia.
    + now rewrite <- app_assoc.
Qed.
