(** * What each step of the parallel machine does (case analysis once, used by all
    invariants). *)
From Verif Require Export SpecParallel AlgInv.
Open Scope Z_scope.

Lemma ready_lt {A} q (l : list A) j : ready q l = Some j -> (j < length l)%nat.
Proof.
  unfold ready. destruct (q_pick q); [|discriminate].
  destruct (_ <? _)%nat eqn:E; [|discriminate]. intros H; injection H as <-. now apply Nat.ltb_lt in E.
Qed.

Lemma quiet_refine_par c i s s' : refinement_update_parallel c i s = Ok s' ->
  quiet s s' /\ itercount (C s') = itercount (C s).
Proof.
  unfold refinement_update_parallel. cbv zeta.
  destruct (ref_radius (Rf s)); [|discriminate].
  destruct (ref_iterate_index (Rf s)); [|discriminate].
  match goal with |- context [match ?x with None => Fail EIndex | _ => _ end] => destruct x end;
    [|discriminate].
  destruct (_ && stale _ _); [discriminate|].
  destruct (_ && stale _ _); [discriminate|].
  intros H. inversion H; subst. clear H.
  split; [apply quiet_set_R|reflexivity].
Qed.

(** The popped task list. *)
Definition popped (j : nat) (noisy : bool) (e : Q * Q) (k : ploc) : ploc :=
  if noisy then k_lc (set_errs e (lc (k_pop j k))) (k_pop j k) else k_pop j k.

(** Fields of the local record that [f] and [g] agree on. *)
Record same_lists (k k' : ploc) : Prop := {
  sl_pend : pend k' = pend k; sl_tpos : tpos k' = tpos k; sl_tval : tval k' = tval k;
  sl_tnoisy : tnoisy k' = tnoisy k; sl_srch : srch k' = srch k; sl_tabu : tabu k' = tabu k }.

Definition answer_of (q : pin) (noisy : bool) : Q * Q * Q :=
  if noisy then i_nval (q_inp q) else (i_val (q_inp q), 0, 0)%Q.

Inductive eval_eff_par (c : cfg) (q : pin) (j : nat) (P : pst) (P' : pst) : Prop :=
| EE_close t v el eu : nth_error (pend (p_k P)) j = Some t -> answer_of q (t_noisy t) = (v, el, eu) ->
    near (min_dist c) (t_pos t) (node_pos (T (p_s P))) = true ->
    p_s P' = p_s P -> p_cv P' = p_cv P -> p_next P' = p_next P ->
    p_log P' = p_log P ++ [PAnswer (t_ticket t) v; PTooClose (t_ticket t)] ->
    p_k P' = popped j (t_noisy t) (el, eu) (p_k P) -> eval_eff_par c q j P P'
| EE_tabu t v el eu : nth_error (pend (p_k P)) j = Some t -> answer_of q (t_noisy t) = (v, el, eu) ->
    t_noisy t = true ->
    near (min_dist c) (t_pos t) (node_pos (T (p_s P))) = false ->
    existsb (fun p => same_point p (t_pos t)) (tabu (p_k P)) = true ->
    p_s P' = p_s P -> p_cv P' = p_cv P -> p_next P' = p_next P ->
    p_log P' = p_log P ++ [PAnswer (t_ticket t) v; PSuperseded (t_ticket t)] ->
    p_k P' = k_tabu (delete_at (nearest (t_pos t) (tabu (p_k P))) (tabu (p_k P)))
                    (popped j true (el, eu) (p_k P)) -> eval_eff_par c q j P P'
| EE_again t v el eu t' : nth_error (pend (p_k P)) j = Some t -> answer_of q (t_noisy t) = (v, el, eu) ->
    t_noisy t = true -> t' = mkTask (p_next P) (to_orig c (t_pos t)) (t_pos t) false (t_id t) ->
    near (min_dist c) (t_pos t) (node_pos (T (p_s P))) = false ->
    require_accurate c (p_s P) (v + el)%Q = true ->
    quiet (set_C (add_evals 1 0 (C (p_s P))) (p_s P)) (p_s P') ->
    itercount (C (p_s P')) = itercount (C (p_s P)) + 1 ->
    p_cv P' = p_cv P -> p_next P' = S (p_next P) ->
    p_log P' = p_log P ++ [PAnswer (t_ticket t) v; PSuperseded (t_ticket t);
                           PSubmit (p_next P) (to_orig c (t_pos t)) false (t_id t)] ->
    p_k P' = k_push t' (clip_val v (p_s P)) (popped j true (el, eu) (p_k P)) -> eval_eff_par c q j P P'
| EE_row t v el eu : nth_error (pend (p_k P)) j = Some t -> answer_of q (t_noisy t) = (v, el, eu) ->
    near (min_dist c) (t_pos t) (node_pos (T (p_s P))) = false ->
    node_pos (T (p_s P)) <> [] ->
    (t_noisy t = true -> require_accurate c (p_s P) (v + el)%Q = false) ->
    quiet (insert_node (t_pos t) (to_orig c (t_pos t)) v (t_noisy t)
             (if t_noisy t then (el, eu) else (0, 0)%Q) (p_s P)) (p_s P') ->
    itercount (C (p_s P')) = itercount (C (p_s P)) + 1 ->
    p_cv P' = p_cv P -> p_next P' = p_next P ->
    p_log P' = p_log P ++ [PAnswer (t_ticket t) v; PRow (Some (t_ticket t)) (to_orig c (t_pos t)) v] ->
    same_lists (popped j (t_noisy t) (el, eu) (p_k P)) (p_k P') ->
    busy (p_k P') = (match t_id t with SRefine => false | _ => busy (p_k P) end) ->
    it_start (lc (p_k P')) = it_start (lc (p_k P)) /\ pause (lc (p_k P')) = pause (lc (p_k P)) ->
    eval_eff_par c q j P P'.

Lemma app2 {A} (l : list A) a b : (l ++ [a]) ++ [b] = l ++ [a; b].
Proof. now rewrite <- app_assoc. Qed.
Lemma app12 {A} (l : list A) a b d : (l ++ [a]) ++ [b; d] = l ++ [a; b; d].
Proof. now rewrite <- app_assoc. Qed.

Lemma take_eval_eff c q j P P' : take_eval c q j P = Ok P' -> eval_eff_par c q j P P'.
Proof.
  unfold take_eval. destruct (nth_error (pend (p_k P)) j) as [t|] eqn:Et; [|discriminate].
  fold (answer_of q (t_noisy t)).
  destruct (answer_of q (t_noisy t)) as [[v el] eu] eqn:Ea.
  cbv zeta. fold (popped j (t_noisy t) (el, eu) (p_k P)).
  destruct (node_pos (T (p_s P))) as [|n0 nr] eqn:En; [discriminate|].
  rewrite <- En in *. assert (Hne : node_pos (T (p_s P)) <> []) by (rewrite En; discriminate). clear En.
  destruct (near (min_dist c) (t_pos t) (node_pos (T (p_s P)))) eqn:Enr.
  { intros H; injection H as <-. eapply EE_close; eauto. cbn. apply app2. }
  destruct (t_noisy t && existsb _ _) eqn:Etb.
  { apply andb_true_iff in Etb. destruct Etb as [Hn Htb]. rewrite Hn in *.
    intros H; injection H as <-. eapply EE_tabu; eauto; cbn; rewrite ?app2; auto. rewrite Hn; exact Ea. }
  destruct (t_noisy t && require_accurate c (p_s P) (v + el)%Q) eqn:Er.
  - apply andb_true_iff in Er. destruct Er as [Hn Er]. rewrite Hn in *.
    cbn [bind]. intros H.
    match type of H with bind ?x _ = _ => destruct x as [s'|] eqn:Ee end; cbn [bind] in H; [|discriminate].
    injection H as <-.
    eapply EE_again; eauto; cbn; rewrite ?app12; auto.
    + rewrite Hn; exact Ea.
    + cbn in Ee. now apply quiet_end in Ee.
    + cbn in Ee. apply end_iter in Ee. exact Ee.
  - set (s1 := insert_node _ _ _ _ _ _).
    destruct (current_gap c s1) as [g|] eqn:Eg; cbn [bind]; [|discriminate].
    match goal with |- bind (bind ?x _) _ = _ -> _ => destruct x as [[s3 k3]|] eqn:Ex end;
      cbn [bind fst snd]; [|discriminate].
    assert (HX : quiet (log_value v g s1) s3 /\ itercount (C s3) = itercount (C (p_s P)) /\
      same_lists (popped j (t_noisy t) (el, eu) (p_k P)) k3 /\
      busy k3 = (match t_id t with SRefine => false | _ => busy (p_k P) end) /\
      it_start (lc k3) = it_start (lc (p_k P)) /\ pause (lc k3) = pause (lc (p_k P))).
    { assert (HB : forall b e, busy (popped j b e (p_k P)) = busy (p_k P) /\
        it_start (lc (popped j b e (p_k P))) = it_start (lc (p_k P)) /\
        pause (lc (popped j b e (p_k P))) = pause (lc (p_k P))) by (intros [] e; auto).
      destruct (HB (t_noisy t) (el, eu)) as (HB1 & HB2 & HB3).
      destruct (t_id t); try (injection Ex as <- <-; split; [apply quiet_refl|];
        split; [reflexivity|]; split; [constructor; reflexivity|]; cbn; auto).
      match type of Ex with bind ?x _ = _ => destruct x as [s4|] eqn:E4 end;
        cbn [bind] in Ex; [|discriminate]. injection Ex as <- <-.
      apply quiet_refine_par in E4. destruct E4 as [Q1 Q2]. split; [exact Q1|].
      split; [rewrite Q2; reflexivity|]. split; [constructor; reflexivity|]. cbn; auto. }
    destruct HX as (X1 & X2 & X3 & X4 & X5). intros H.
    match type of H with bind ?x _ = _ => destruct x as [s'|] eqn:Ee end; cbn [bind] in H; [|discriminate].
    injection H as <-. cbn [p_s set_s set_k note p_k p_log p_next p_cv] in *.
    eapply EE_row; eauto; cbn; rewrite ?app2; auto.
    + intros Hn. rewrite Hn in Er. exact Er.
    + eapply quiet_trans; [apply (quiet_log v g s1)|]. eapply quiet_trans; [exact X1|].
      now apply quiet_end in Ee.
    + apply end_iter in Ee. lia.
Qed.

(** ** Search results *)
(** The state after the (optional) removal of a node to be evaluated again. *)
Inductive reeval_eff (c : cfg) (p : point) (P P' : pst) : Prop :=
| RE_none : P' = P -> reeval_eff c p P P'
| RE_tabu : has_noisy c = true ->
    P' = set_k (k_tabu (tabu (p_k P) ++ [p]) (p_k P)) P -> reeval_eff c p P P'
| RE_drop jj s' : has_noisy c = true -> remove_node jj (p_s P) = Ok s' ->
    p_s P' = s' -> p_cv P' = p_cv P -> p_next P' = p_next P ->
    p_log P' = p_log P ++ [PUnrow (nodes_at_restart (T (p_s P)) + jj)] ->
    (p_k P' = p_k P \/ p_k P' = k_tabu (tabu (p_k P) ++ [p]) (p_k P)) -> reeval_eff c p P P'.

Lemma reevaluate_eff c p ind P P' : has_noisy c = true -> reevaluate c p ind P = Ok P' ->
  reeval_eff c p P P'.
Proof.
  intros Hn. unfold reevaluate. cbv zeta.
  destruct (_ && _).
  - destruct (remove_node ind (p_s P)) as [s'|] eqn:E; cbn [bind]; [|discriminate].
    intros H; injection H as <-. eapply RE_drop; eauto.
  - destruct (find_point _ _ _) as [jj|].
    + destruct (remove_node jj (p_s P)) as [s'|] eqn:E; cbn [bind]; [|discriminate].
      intros H; injection H as <-. eapply RE_drop; eauto.
    + intros H; injection H as <-. now apply RE_tabu.
Qed.

Inductive use_eff (c : cfg) (q : pin) (p0 : point) (noisy : bool) (id : sid) (P P' : pst) : Prop :=
| UE_discard : quiet (p_s P) (p_s P') -> itercount (C (p_s P')) = itercount (C (p_s P)) + 1 ->
    p_cv P' = p_cv P -> p_next P' = p_next P -> p_log P' = p_log P ->
    same_lists (p_k P) (p_k P') ->
    busy (p_k P') = (match id with SRefine => false | _ => busy (p_k P) end) ->
    lc (p_k P') = lc (p_k P) -> use_eff c q p0 noisy id P P'
| UE_reuse p po jj v nz e : p = clip p0 (l_lower c) (l_upper c) -> po = to_orig c p ->
    node_pos (T (p_s P)) <> [] ->
    near (min_dist c) p (node_pos (T (p_s P))) = false ->
    near (min_dist c) p (tpos (p_k P)) = false ->
    lookup_old c (T (p_s P)) po = Some jj -> v = nth jj (all_val (T (p_s P))) 0%Q ->
    nz = nth jj (all_is_noisy (T (p_s P))) false -> (nz = false -> e = (0, 0)%Q) ->
    quiet (insert_node p po v nz e (p_s P)) (p_s P') ->
    itercount (C (p_s P')) = itercount (C (p_s P)) + 1 ->
    p_cv P' = p_cv P -> p_next P' = p_next P -> p_log P' = p_log P ++ [PRow None po v] ->
    same_lists (p_k P) (p_k P') -> busy (p_k P') = busy (p_k P) ->
    it_start (lc (p_k P')) = it_start (lc (p_k P)) /\ pause (lc (p_k P')) = pause (lc (p_k P)) ->
    use_eff c q p0 noisy id P P'
| UE_submit p po : p = clip p0 (l_lower c) (l_upper c) -> po = to_orig c p ->
    node_pos (T (p_s P)) <> [] ->
    near (min_dist c) p (node_pos (T (p_s P))) = false ->
    near (min_dist c) p (tpos (p_k P)) = false ->
    P' = submit_point c q p po noisy id P -> use_eff c q p0 noisy id P P'.

Lemma use_point_eff c q p0 noisy id P P' : use_point c q p0 noisy id P = Ok P' ->
  use_eff c q p0 noisy id P P'.
Proof.
  unfold use_point. cbv zeta. set (p := clip p0 (l_lower c) (l_upper c)).
  destruct (node_pos (T (p_s P))) as [|n0 nr] eqn:En; [discriminate|].
  rewrite <- En in *. assert (Hne : node_pos (T (p_s P)) <> []) by (rewrite En; discriminate). clear En.
  destruct (near _ _ _ || near _ _ _) eqn:Enr.
  - intros H; injection H as <-. apply UE_discard; unfold discard_search; cbv zeta.
    + destruct id; cbn; try (constructor; cbn; auto using same_incs_refl with zarith;
        exists []; rewrite app_nil_r; auto).
    + destruct id; reflexivity.
    + destruct id; reflexivity.
    + destruct id; reflexivity.
    + destruct id; reflexivity.
    + destruct id; constructor; reflexivity.
    + destruct id; reflexivity.
    + destruct id; reflexivity.
  - apply orb_false_iff in Enr. destruct Enr as [N1 N2].
    destruct (lookup_old c (T (p_s P)) (to_orig c p)) as [jj|] eqn:El.
    + destruct (noisy || negb _) eqn:Eok.
      2: { intros H; injection H as <-. eapply UE_submit; eauto. }
      unfold reuse_old. cbv zeta.
      set (v := nth jj (all_val (T (p_s P))) 0%Q). set (nz := nth jj (all_is_noisy (T (p_s P))) false).
      match goal with |- bind ?x _ = _ -> _ => destruct x as [s1|] eqn:E1 end; cbn [bind]; [|discriminate].
      assert (HS : exists e, (nz = false -> e = (0, 0)%Q) /\ s1 = insert_node p (to_orig c p) v nz e (p_s P)).
      { destruct nz.
        - destruct (errs (lc (p_k P))) as [e|]; [|discriminate]. injection E1 as <-. exists e. split; [discriminate|reflexivity].
        - injection E1 as <-. exists (0, 0)%Q. split; reflexivity. }
      destruct HS as (e & He & ->).
      destruct (current_gap c _) as [g|] eqn:Eg; cbn [bind]; [|discriminate].
      destruct (negb (iid_set (p_k P))); [discriminate|].
      destruct (save_state_interval c =? 0); [discriminate|].
      intros H; injection H as <-.
      eapply (UE_reuse c q p0 noisy id P _ p (to_orig c p) jj v nz e); eauto; cbn [p_s p_cv p_next p_log p_k set_s set_k note].
      * eapply quiet_trans; [apply (quiet_log v g)|].
        eapply quiet_trans; [apply quiet_iter|].
        eapply quiet_trans; [|eapply quiet_trans; [apply quiet_stall|apply quiet_phase]].
        destruct (_ mod _ =? 0); [apply quiet_emit_save|apply quiet_refl].
      * rewrite phase_iter, stall_iter. destruct (_ mod _ =? 0); reflexivity.
      * constructor; reflexivity.
    + intros H; injection H as <-. eapply UE_submit; eauto.
Qed.

Inductive search_eff_par (c : cfg) (q : pin) (j : nat) (P P' : pst) : Prop :=
| SE_none e P1 : nth_error (srch (p_k P)) j = Some e ->
    P1 = set_k (k_srch (delete_at j (srch (p_k P))) (p_k P)) P ->
    P' = discard_search c (s_id e) P1 -> search_eff_par c q j P P'
| SE_point e p id P1 P2 : nth_error (srch (p_k P)) j = Some e -> proposes q p ->
    P1 = set_k (k_srch (delete_at j (srch (p_k P))) (p_k P)) P ->
    reeval_eff c p P1 P2 -> use_eff c q p (s_noisy e) id P2 P' ->
    (id = s_id e \/ s_id e = SLocal /\ id = SAdj) ->
    (P2 = P1 \/ s_noisy e = false) -> search_eff_par c q j P P'.

Lemma take_search_eff c q j P P' : take_search c q j P = Ok P' -> search_eff_par c q j P P'.
Proof.
  unfold take_search. destruct (nth_error (srch (p_k P)) j) as [e|] eqn:Ee; [|discriminate].
  cbv zeta. set (P1 := set_k _ P). destruct (s_bad e); [discriminate|].
  destruct (q_ans q) as [[p|] adj|p ind] eqn:Ea.
  - intros H. apply use_point_eff in H.
    eapply (SE_point c q j P P' e p _ P1 P1); eauto.
    + right; right. exists adj; auto.
    + now apply RE_none.
    + destruct (s_id e); auto. destruct adj; auto.
  - intros H; injection H as <-. eapply SE_none; eauto.
  - assert (Hp : proposes q p) by (right; left; exists ind; auto).
    destruct (s_id e) eqn:Ei; try (intros H; apply use_point_eff in H;
      eapply (SE_point c q j P P' e p _ P1 P1); eauto using RE_none; rewrite Ei; auto).
    destruct (has_noisy c && negb (s_noisy e)) eqn:Eh.
    + apply andb_true_iff in Eh. destruct Eh as [Hn Hs]. apply negb_true_iff in Hs.
      destruct (reevaluate c p ind P1) as [P2|] eqn:Er; cbn [bind]; [|discriminate].
      intros H. apply use_point_eff in H. apply reevaluate_eff in Er; [|assumption].
      eapply (SE_point c q j P P' e p SLocal P1 P2); eauto.
    + intros H. apply use_point_eff in H.
      eapply (SE_point c q j P P' e p SLocal P1 P1); eauto using RE_none.
Qed.

(** ** Restart *)
Lemma submit_from_tickets noisy pts : forall m, map t_ticket (submit_from m noisy pts) = seq m (length pts).
Proof. induction pts as [|p r IH]; intros m; cbn; [reflexivity|]. now rewrite IH. Qed.
Lemma submit_from_spec noisy pts : forall m,
  map t_pos (submit_from m noisy pts) = pts /\ map t_at (submit_from m noisy pts) = pts /\
  Forall (fun t => t_noisy t = noisy /\ t_id t = SInit /\ t_at t = t_pos t) (submit_from m noisy pts).
Proof.
  induction pts as [|p r IH]; intros m; cbn; [auto|]. destruct (IH (S m)) as (A & B & F).
  rewrite A, B. repeat split; auto.
Qed.
Lemma submit_from_length noisy pts m : length (submit_from m noisy pts) = length pts.
Proof. rewrite <- (map_length t_ticket), submit_from_tickets. apply seq_length. Qed.

Record begin_eff (c : cfg) (q : pin) (kind : wkind) (P : pst) (w : wait) (P' : pst) : Prop := {
  be_ex : exists new prev nb,
    w_pend w = submit_from (p_next P) nb new /\ w_got w = [] /\ w_prev w = prev /\ w_inner w = false /\
    (nb = true -> noisy_mode (C (p_s P)) = true) /\
    (forall p, In p new -> exists pts, i_samples (q_inp q) = Some pts /\ In p pts) /\
    (forall e, In e prev -> exists jj, (jj < length (all_pos (T (p_s P))))%nat /\
       e = history_row (T (p_s P)) jj /\
       (noisy_mode (C (p_s P)) = true \/ nth jj (all_is_noisy (T (p_s P))) false = false)) /\
    (forall pts, i_samples (q_inp q) = Some pts -> (length new <= length pts)%nat) /\
    T (p_s P') = mark (T (p_s P)) /\ I (p_s P') = I (p_s P) /\ Rf (p_s P') = Rf (p_s P) /\
    C (p_s P') = add_evals (if nb then 0 else Z.of_nat (length new))
                           (if nb then Z.of_nat (length new) else 0) (bump_restarts (C (p_s P))) /\
    p_next P' = (p_next P + length new)%nat /\
    p_log P' = p_log P ++ map (fun t => PSubmit (t_ticket t) (t_at t) (t_noisy t) (t_id t)) (w_pend w) /\
    (new = [] \/ 0 <? itercount (C (p_s P)) = true \/ do_init_strategy c = true);
  be_cv : p_cv P' = p_cv P; be_k : p_k P' = p_k P }.

Lemma nth_error_firstn_lt {A} (l : list A) m : (length (firstn m l) <= length l)%nat.
Proof. rewrite firstn_length. lia. Qed.

Lemma restart_begin_eff c q kind P m P' : restart_begin c q kind P = Ok (m, P') ->
  exists w, m = PcWait kind w /\ begin_eff c q kind P w P'.
Proof.
  unfold restart_begin. cbv zeta. fold (mark (T (p_s P))). fold (bump_restarts (C (p_s P))).
  destruct (_ || _) eqn:Eb.
  - destruct (i_samples (q_inp q)) as [pts|] eqn:Es; [|discriminate].
    set (old := firstn _ _).
    match goal with |- context [let (_, _) := ?x in _] => destruct x as [new prev] eqn:Er end.
    set (acc := restart_accurate c (bump_restarts (C (p_s P)))).
    intros H; injection H as <- <-. eexists; split; [reflexivity|].
    assert (HR : incl new pts /\ (length new <= length pts)%nat /\
      (forall e, In e prev -> exists jj, (jj < length (all_pos (T (p_s P))))%nat /\
         e = history_row (T (p_s P)) jj /\
         (noisy_mode (C (p_s P)) = true \/ nth jj (all_is_noisy (T (p_s P))) false = false))).
    { destruct (nodes_at_restart (mark (T (p_s P))) =? 0)%nat.
      - injection Er as <- <-. split; [apply incl_refl|]. split; [lia|]. intros e [].
      - apply remove_existing_spec in Er. destruct Er as (S1 & S2 & S3 & S4).
        split; [assumption|]. split; [lia|]. intros e He.
        destruct (S4 e He) as (p & Hp & Hn & -> & Hm). exists (nearest p old). split; [|split; [reflexivity|]].
        + eapply Nat.lt_le_trans; [apply nearest_lt; eapply near_nonempty; eauto|].
          unfold old. apply nth_error_firstn_lt.
        + cbn in Hm. destruct Hm; auto. }
    destruct HR as (R1 & R2 & R3).
    constructor; [|reflexivity|reflexivity].
    exists new, prev, (negb acc). cbn [w_pend w_got w_prev w_inner p_s p_next p_log set_s set_next note T I Rf C set_C].
    repeat (split; [try reflexivity|]); auto.
    + intros Hnb. apply negb_true_iff in Hnb. unfold acc, restart_accurate in Hnb.
      cbn in Hnb. destruct (noisy_mode (C (p_s P))); auto.
    + intros p Hp. exists pts. auto.
    + intros pts' E. rewrite Es in E. injection E as <-. assumption.
    + destruct acc; reflexivity.
    + right. apply orb_true_iff in Eb. cbn in Eb. exact Eb.
  - intros H; injection H as <- <-. eexists; split; [reflexivity|].
    constructor; [|reflexivity|reflexivity].
    exists [], [], false. cbn [w_pend w_got w_prev w_inner p_s p_next p_log set_s T I Rf C].
    repeat (split; [try reflexivity|]); auto.
    all: try discriminate; try (intros ? []); try (cbn; lia).
    + symmetry. apply add_evals_0.
    + cbn. now rewrite app_nil_r.
Qed.

Record init_eff (q : pin) (j : nat) (w : wait) (P : pst) (w' : wait) (P' : pst) : Prop := {
  ie_ex : exists t v el eu, nth_error (w_pend w) j = Some t /\ answer_of q (t_noisy t) = (v, el, eu) /\
    w_pend w' = delete_at j (w_pend w) /\
    w_got w' = w_got w ++ [(t, (t_pos t, v, noisy_mode (C (p_s P)), (el, eu)))] /\
    w_need w' = w_need w /\ w_prev w' = w_prev w /\
    p_log P' = p_log P ++ [PAnswer (t_ticket t) v];
  ie_s : p_s P' = p_s P; ie_cv : p_cv P' = p_cv P; ie_next : p_next P' = p_next P;
  ie_k : p_k P' = p_k P }.
Lemma take_init_eff q j w P w' P' : take_init q j w P = Ok (w', P') -> init_eff q j w P w' P'.
Proof.
  unfold take_init. destruct (nth_error (w_pend w) j) as [t|] eqn:Et; [|discriminate].
  fold (answer_of q (t_noisy t)). destruct (answer_of q (t_noisy t)) as [[v el] eu] eqn:Ea.
  intros H; injection H as <- <-. constructor; auto.
  exists t, v, el, eu. cbn. auto 10.
Qed.

Record finish_eff (c : cfg) (q : pin) (kind : wkind) (w : wait) (P : pst) (m : pc) (P' : pst) : Prop := {
  fe_ex : exists usr uevs nu rows,
    restart_user c (C (p_s P)) (map snd (w_got w) ++ w_prev w) (q_inp q) = (usr, uevs, nu) /\
    user_spec c (C (p_s P)) (T (p_s P)) usr uevs nu /\
    rows = (map snd (w_got w) ++ w_prev w) ++ usr /\ rows <> [] /\
    T (p_s P') = restart_tabs c (T (p_s P)) rows /\
    same_incs (restart_incs (T (p_s P')) (I (p_s P))) (I (p_s P')) /\
    C (p_s P') = restart_ctrs c (fmin (I (p_s P'))) (add_evals nu 0 (C (p_s P))) /\
    p_next P' = (if (0 <? nu)%Z then p_next P + length usr else p_next P)%nat /\
    p_log P' = p_log P ++
       map (fun te => PRow (Some (t_ticket (fst te))) (e_pos (snd te)) (e_val (snd te))) (w_got w) ++
       map (fun e => PRow None (e_pos e) (e_val e)) (w_prev w) ++
       user_log (0 <? nu)%Z (p_next P) usr /\
    (nu = 0 \/ nu = Z.of_nat (length usr));
  fe_pend : pend (p_k P') = w_pend w; fe_tpos : tpos (p_k P') = map t_pos (w_pend w);
  fe_tnoisy : tnoisy (p_k P') = map t_noisy (w_pend w);
  fe_tval : length (tval (p_k P')) = length (w_pend w);
  fe_srch : srch (p_k P') = srch (p_k P); fe_tabu : tabu (p_k P') = [];
  fe_busy : busy (p_k P') = busy (p_k P);
  fe_m : match kind with WMid => m = PcPlan2 | _ => m = PcHead end;
  fe_lc : match kind with
          | WStart pa => it_start (lc (p_k P')) = itercount (C (p_s P')) /\ pause (lc (p_k P')) = pa
          | _ => lc (p_k P') = lc (p_k P) end;
  fe_cv : p_cv P' = p_cv P }.

Lemma restart_user_count c k gen i usr uevs nu : restart_user c k gen i = (usr, uevs, nu) ->
  nu = 0 \/ nu = Z.of_nat (length usr).
Proof.
  unfold restart_user. destruct (_ && _); [|intros H; injection H as <- <- <-; auto].
  cbv zeta. destruct (_ <? _)%nat; intros H; injection H as <- <- <-; auto.
  right. now rewrite !map_length, indexed_length.
Qed.

Lemma restart_finish_eff c q kind w P m P' : restart_finish c q kind w P = Ok (m, P') ->
  finish_eff c q kind w P m P'.
Proof.
  unfold restart_finish. cbv zeta.
  destruct (restart_user c (C (p_s P)) _ (q_inp q)) as [[usr uevs] nu] eqn:Eu.
  pose proof (restart_user_spec c _ (T (p_s P)) _ _ _ _ _ Eu) as U.
  pose proof (restart_user_count _ _ _ _ _ _ _ Eu) as HN.
  set (rows := (map snd (w_got w) ++ w_prev w) ++ usr) in *.
  destruct rows as [|e0 rest] eqn:Er; [discriminate|].
  assert (Hne : rows <> []) by (rewrite Er; discriminate). rewrite <- Er in *. clear Er e0 rest.
  match goal with |- context [current_gap c ?x] => destruct (current_gap c x) as [g|] eqn:Ec end;
    cbn [bind]; [|discriminate].
  destruct (length rows =? 1)%nat eqn:El; [discriminate|].
  destruct (_ && negb _); [discriminate|].
  match goal with |- context [log_all ?v ?gg ?x] =>
    destruct (log_all_fields v gg x) as (F1 & F2 & F3 & F4 & F5) end.
  intros H.
  set (s3 := log_all _ _ _) in *.
  assert (HE : exists usr uevs nu rows0,
    restart_user c (C (p_s P)) (map snd (w_got w) ++ w_prev w) (q_inp q) = (usr, uevs, nu) /\
    user_spec c (C (p_s P)) (T (p_s P)) usr uevs nu /\
    rows0 = (map snd (w_got w) ++ w_prev w) ++ usr /\ rows0 <> [] /\
    T s3 = restart_tabs c (T (p_s P)) rows0 /\
    same_incs (restart_incs (T s3) (I (p_s P))) (I s3) /\
    C s3 = restart_ctrs c (fmin (I s3)) (add_evals nu 0 (C (p_s P))) /\
    (if (0 <? nu)%Z then p_next P + length usr else p_next P)%nat
      = (if (0 <? nu)%Z then p_next P + length usr else p_next P)%nat /\
    p_log P ++
       map (fun te => PRow (Some (t_ticket (fst te))) (e_pos (snd te)) (e_val (snd te))) (w_got w) ++
       map (fun e => PRow None (e_pos e) (e_val e)) (w_prev w) ++
       user_log (0 <? nu) (p_next P) usr = p_log P ++
       map (fun te => PRow (Some (t_ticket (fst te))) (e_pos (snd te)) (e_val (snd te))) (w_got w) ++
       map (fun e => PRow None (e_pos e) (e_val e)) (w_prev w) ++
       user_log (0 <? nu) (p_next P) usr /\
    (nu = 0 \/ nu = Z.of_nat (length usr))).
  { exists usr, uevs, nu, rows. split; [exact Eu|]. split; [exact U|]. split; [reflexivity|].
    split; [exact Hne|]. split; [rewrite F1; reflexivity|]. split; [rewrite F1; exact F5|].
    split. { destruct F5 as (_ & A2 & _). rewrite F2, A2. reflexivity. }
    split; [reflexivity|]. split; [reflexivity|exact HN]. }
  destruct HE as (usr1 & uevs1 & nu1 & rows1 & HE0 & HE).
  rewrite Eu in HE0. injection HE0 as <- <- <-.
  destruct kind; injection H as <- <-; (constructor; [exists usr, uevs, nu, rows1; split; [exact Eu|exact HE]|..];
    cbn; rewrite ?map_length; auto).
Qed.

(** ** Planning *)
Inductive plan_eff (c : cfg) (q : pin) (P : pst) (m : pc) (P' : pst) : Prop :=
| PE_move k' : (m = PcHead \/ m = PcPlan2) -> quiet (p_s P) (p_s P') ->
    itercount (C (p_s P')) = itercount (C (p_s P)) ->
    p_next P' = p_next P -> p_log P' = p_log P -> p_k P' = k' -> same_lists (p_k P) k' ->
    busy k' = busy (p_k P) -> lc k' = lc (p_k P) -> plan_eff c q P m P'
| PE_search id bad k' : m = PcHead -> quiet (p_s P) (p_s P') ->
    itercount (C (p_s P')) = itercount (C (p_s P)) ->
    p_next P' = p_next P -> p_log P' = p_log P -> p_k P' = k' ->
    id <> SInit -> id <> SAdj ->
    same_lists (k_srch (srch (p_k P) ++ [mkStask (noisy_mode (C (p_s P))) id bad]) (p_k P)) k' ->
    busy k' = (match id with SRefine => true | _ => busy (p_k P) end) ->
    (id = SRefine -> busy (p_k P) = false) ->
    lc k' = lc (p_k P) -> plan_eff c q P m P'
| PE_restart kind w P0 : (kind = WMid \/ kind = WRest) -> m = PcWait kind w -> idle (p_k P) = true ->
    quiet (p_s P) (p_s P0) -> itercount (C (p_s P0)) = itercount (C (p_s P)) ->
    p_next P0 = p_next P -> p_log P0 = p_log P -> p_k P0 = p_k P ->
    begin_eff c q kind P0 w P' -> plan_eff c q P m P'.

Lemma same_lists_refl k : same_lists k k.
Proof. constructor; reflexivity. Qed.

Lemma plan_effect c q P m P' : plan c q P = Ok (m, P') -> plan_eff c q P m P'.
Proof.
  unfold plan. cbv zeta. destruct (skip_step c (C (p_s P))).
  - intros H; injection H as <- <-. eapply PE_move; eauto using same_lists_refl; try reflexivity.
    + apply quiet_advance.
    + apply advance_iter.
  - destruct (must_restart_parallel c (C (p_s P))).
    + destruct (idle (p_k P)) eqn:Ei.
      * intros H. apply restart_begin_eff in H. destruct H as (w & -> & B).
        eapply (PE_restart c q P _ P' WMid w P); auto using quiet_refl.
      * intros H; injection H as <- <-. eapply PE_move; eauto using same_lists_refl, quiet_refl.
    + intros H; injection H as <- <-. eapply PE_move; eauto using same_lists_refl, quiet_refl.
Qed.

Lemma cross_fields pc0 P : p_s (cross_validate pc0 P) = p_s P /\ p_log (cross_validate pc0 P) = p_log P /\
  p_next (cross_validate pc0 P) = p_next P /\ p_k (cross_validate pc0 P) = p_k P.
Proof. unfold cross_validate. cbv zeta. destruct (_ && _); auto. Qed.

Lemma plan2_effect pc0 q P m P' : plan2 pc0 q P = Ok (m, P') -> plan_eff (base pc0) q P m P'.
Proof.
  unfold plan2. cbv zeta. set (c := base pc0).
  destruct (cross_fields pc0 P) as (X1 & X2 & X3 & X4).
  set (P1 := cross_validate pc0 P) in *. clearbody P1.
  unfold linear_phase. cbv zeta.
  assert (HB : forall P2, (quiet (p_s P) (p_s P2) /\ itercount (C (p_s P2)) = itercount (C (p_s P)) /\
     p_log P2 = p_log P /\ p_next P2 = p_next P /\ p_k P2 = p_k P /\
     noisy_mode (C (p_s P2)) = noisy_mode (C (p_s P))) ->
    (if current_step (C (p_s P2)) =? restoration_step c
     then if idle (p_k P2)
          then restart_begin c q WRest (set_s (set_C (set_underdet false (C (p_s P2))) (p_s P2)) P2)
          else Ok (PcHead, P2)
     else if negb (busy (p_k P2)) &&
             Qle_bool (rcount (p_k P2))
               (inject_Z (itercount (C (p_s P2))) / inject_Z (refinement_frequency c))%Q
     then plan_refinement c q P2
     else Ok (PcHead, set_s (advance_st c (p_s (if current_step (C (p_s P2)) =? inf_step then submit_search SInf false P2
                  else if current_step (C (p_s P2)) =? local_search_step c
                       then submit_search SLocal (stale_all P2 [fmin_index (I (p_s P2))]) P2
                       else submit_search SGlobal (stale_all P2 [fmin_index (I (p_s P2))]) P2)))
                  (if current_step (C (p_s P2)) =? inf_step then submit_search SInf false P2
                  else if current_step (C (p_s P2)) =? local_search_step c
                       then submit_search SLocal (stale_all P2 [fmin_index (I (p_s P2))]) P2
                       else submit_search SGlobal (stale_all P2 [fmin_index (I (p_s P2))]) P2)))
     = Ok (m, P') -> plan_eff c q P m P').
  { intros P2 (Q1 & Q2 & Q3 & Q4 & Q5 & Q6).
    destruct (current_step (C (p_s P2)) =? restoration_step c).
    - destruct (idle (p_k P2)) eqn:Ei.
      + intros H. apply restart_begin_eff in H. destruct H as (w & -> & B).
        eapply PE_restart; [right; reflexivity|reflexivity|congruence|..|exact B]; cbn; auto.
        eapply quiet_trans; [exact Q1|].
        constructor; cbn; auto using same_incs_refl with zarith.
        exists []; rewrite app_nil_r; auto.
      + intros H; injection H as <- <-. eapply (PE_move c q P PcHead P2 (p_k P2)); auto; rewrite Q5; auto using same_lists_refl.
    - destruct (negb (busy (p_k P2)) && _) eqn:Eb.
      + apply andb_true_iff in Eb. destruct Eb as [Eb _]. apply negb_true_iff in Eb. rewrite Q5 in Eb.
        unfold plan_refinement. cbv zeta.
        match goal with |- bind ?x _ = _ -> _ => destruct x as [init|] end; cbn [bind]; [|discriminate].
        destruct (init && stale _ _); [discriminate|].
        destruct (init && (_ <? _)%nat); [discriminate|].
        set (s1 := if init then _ else _).
        assert (HS : quiet (p_s P2) s1 /\ itercount (C s1) = itercount (C (p_s P2)) /\
                     noisy_mode (C s1) = noisy_mode (C (p_s P2))).
        { unfold s1. destruct init; split; auto using quiet_refl, quiet_set_R. }
        destruct HS as (S1 & S2 & S3).
        destruct (stale_all _ _); [discriminate|].
        destruct (negb (i_ref_ok (q_inp q))).
        * intros H; injection H as <- <-. eapply (PE_move c q P PcHead _ (p_k P2)); cbn; rewrite ?Q5; auto using same_lists_refl.
          -- eapply quiet_trans; [exact Q1|]. eapply quiet_trans; [exact S1|]. apply quiet_advance.
          -- pose proof (advance_iter c s1) as AI. cbn in AI. congruence.
        * intros H; injection H as <- <-.
          match goal with |- context [submit_search SRefine ?b _] =>
            eapply (PE_search c q P _ _ SRefine b) end; cbn; try reflexivity; auto; try discriminate.
          -- eapply quiet_trans; [exact Q1|exact S1].
          -- congruence.
          -- rewrite Q5, S3, Q6. constructor; reflexivity.
          -- now rewrite Q5.
      + intros H; injection H as <- <-.
        assert (HC : forall id bad, id <> SInit -> id <> SAdj -> id <> SRefine ->
          plan_eff c q P PcHead (set_s (advance_st c (p_s (submit_search id bad P2))) (submit_search id bad P2))).
        { intros id bad I1 I2 I3. eapply (PE_search c q P _ _ id bad); cbn; try reflexivity; auto; try discriminate.
          - eapply quiet_trans; [exact Q1|apply quiet_advance].
          - pose proof (advance_iter c (p_s P2)) as AI. cbn in AI. congruence.
          - rewrite Q5, Q6. constructor; reflexivity.
          - rewrite Q5. destruct id; try reflexivity. congruence.
          - congruence.
          - now rewrite Q5. }
        destruct (_ =? inf_step); [apply HC; discriminate|].
        destruct (_ =? local_search_step c); apply HC; discriminate. }
  destruct (i_lin_ok (q_inp q)).
  - apply HB. rewrite X1, X2, X3, X4. auto 10 using quiet_refl.
  - destruct (_ && _).
    + intros H; injection H as <- <-. eapply (PE_move c q P PcHead _ (p_k P1)); cbn; rewrite ?X4, ?X1; auto using same_lists_refl.
      constructor; cbn; auto using same_incs_refl with zarith.
      exists []; rewrite app_nil_r; auto.
    + destruct (p_cv P1 =? 0)%nat; [discriminate|].
      apply HB. cbn. rewrite X1, X2, X3, X4. split; [|auto 10].
      apply quiet_set_step.
Qed.

(** ** Shutdown *)
Record final_eff (c : cfg) (q : pin) (t : task) (r : list task) (P P' : pst) : Prop := {
  fi_acc : t_noisy t = false;
  fi_ne : node_pos (T (p_s P)) <> [];
  fi_s : quiet (insert_node (t_pos t) (to_orig c (t_pos t)) (i_val (q_inp q)) false (0, 0)%Q (p_s P)) (p_s P');
  fi_it : itercount (C (p_s P')) = itercount (C (p_s P)) + 1;
  fi_next : p_next P' = p_next P;
  fi_log : p_log P' = p_log P ++ [PAnswer (t_ticket t) (i_val (q_inp q));
                                  PRow (Some (t_ticket t)) (to_orig c (t_pos t)) (i_val (q_inp q))];
  fi_pend : pend (p_k P') = r; fi_srch : srch (p_k P') = srch (p_k P);
  fi_busy : busy (p_k P') = busy (p_k P) }.
Lemma final_effect c q P m P' : final_step c q P = Ok (m, P') ->
  (pend (p_k P) = [] /\ m = PcDone /\ P' = P) \/
  (exists t r, pend (p_k P) = t :: r /\ m = PcFinal /\ final_eff c q t r P P').
Proof.
  unfold final_step. destruct (pend (p_k P)) as [|t r] eqn:Ep.
  - intros H; injection H as <- <-. auto.
  - cbv zeta. destruct (node_pos (T (p_s P))) as [|n0 nr] eqn:En; [discriminate|].
    destruct (t_noisy t) eqn:Et; [destruct (errs (lc (p_k P))); discriminate|].
    destruct (current_gap c _) as [g|]; cbn [bind]; [|discriminate].
    intros H; injection H as <- <-. right. exists t, r. split; [reflexivity|]. split; [reflexivity|].
    constructor; auto.
    + rewrite En; discriminate.
    + cbn [p_s set_s set_k note]. match goal with |- quiet ?a _ => change a with (add_node (t_pos t) (to_orig c (t_pos t)) (i_val (q_inp q)) (p_s P)) end.
      eapply quiet_trans; [apply (quiet_log (i_val (q_inp q)) g)|]. apply (quiet_iter (log_value (i_val (q_inp q)) g (add_node (t_pos t) (to_orig c (t_pos t)) (i_val (q_inp q)) (p_s P)))).
Qed.
