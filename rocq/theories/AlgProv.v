(** * Provenance of recorded values, incumbents. *)
From Verif Require Export AlgInv.
Open Scope Z_scope.

(** A value [v] is authentic for the point [p]: the black box (or the user) gave it at
    [p], or at a point linked to [p] by steps shorter than [eps_zero] (reuse of earlier
    evaluations). *)
Inductive authentic (eps : Q) (tr : list event) : point -> Q -> Prop :=
| auth_acc : forall p v, In (EvAcc p v) tr -> authentic eps tr p v
| auth_noisy : forall p v el eu, In (EvNoisy p v el eu) tr -> authentic eps tr p v
| auth_user : forall p v, In (EvUser p v) tr -> authentic eps tr p v
| auth_near : forall p q v, authentic eps tr q v ->
    (0 < eps)%Q -> (sqdist p q < eps * eps)%Q -> authentic eps tr p v.

Lemma authentic_mono eps tr tr' p v : incl tr tr' -> authentic eps tr p v -> authentic eps tr' p v.
Proof.
  intros Hi H. induction H.
  - apply auth_acc; auto.
  - eapply auth_noisy; eauto.
  - apply auth_user; auto.
  - eapply auth_near; eauto.
Qed.

Definition all_authentic (c : cfg) (s : st) : Prop :=
  Forall2 (authentic (eps_zero c) (trace s)) (all_pos (T s)) (all_val (T s)).

Lemma Forall2_mono {A B} (R S : A -> B -> Prop) l m :
  (forall a b, R a b -> S a b) -> Forall2 R l m -> Forall2 S l m.
Proof. intros H F. induction F; constructor; auto. Qed.

Lemma row_authentic c t mode tr es e :
  Forall2 (authentic (eps_zero c) tr) (all_pos t) (all_val t) ->
  row_origin c t mode es e -> authentic (eps_zero c) (tr ++ es) (e_pos e) (e_val e).
Proof.
  intros HF [H1 H2 H3|el eu H1 H2 H3 H4|H1 H2 H3 H4|j Hj ->].
  - apply auth_acc. apply in_or_app; auto.
  - eapply auth_noisy. apply in_or_app; eauto.
  - apply auth_user. apply in_or_app; auto.
  - cbn. eapply authentic_mono; [apply incl_appl, incl_refl|].
    now apply (Forall2_nth _ _ _ [] 0%Q HF).
Qed.

Lemma auth_restart c i s s' : restart c i s = Ok s' -> all_authentic c s -> all_authentic c s'.
Proof.
  intros H HA. apply restart_effect in H.
  destruct H as [(gen & evs & na & nn & usr & uevs & nu & G & _ & U & _ & _ & HT & _ & _ & _ & Ht)].
  unfold all_authentic. rewrite HT, Ht. cbn. apply Forall2_app.
  - eapply Forall2_mono; [|exact HA]. intros a b. apply authentic_mono. apply incl_appl, incl_refl.
  - assert (R : Forall (row_origin c (mark (T s)) (noisy_mode (bump_restarts (C s)))
                          (EvRestart :: evs ++ uevs)) (gen ++ usr)).
    { apply Forall_app; split; eapply Forall_impl.
      - intros e. apply row_origin_mono. apply incl_tl, incl_appl, incl_refl.
      - apply (gs_origin _ _ _ _ _ _ _ _ G).
      - intros e. apply row_origin_mono. apply incl_tl, incl_appr, incl_refl.
      - apply (us_origin _ _ _ _ _ _ U). }
    clear HT. induction R as [|e r He Hr IH]; cbn; constructor; auto.
    eapply row_authentic; [|exact He]. exact HA.
Qed.

Lemma Forall2_delete' {A B} (R : A -> B -> Prop) l m j : Forall2 R l m ->
  Forall2 R (delete_at j l) (delete_at j m).
Proof. intros H. now apply Forall2_delete. Qed.

Lemma eval_value_authentic c i po s l v noisy e es :
  aligned c (T s) -> all_authentic c s -> eval_events c i po s l v noisy e es ->
  authentic (eps_zero c) (trace s ++ es) po v.
Proof.
  intros HAl HA He. destruct (aligned_lengths _ _ HAl) as (_ & _ & _ & A4).
  assert (Hr : forall j, lookup_old c (T s) po = Some j ->
            authentic (eps_zero c) (trace s) po (nth j (all_val (T s)) 0%Q)).
  { intros j Hj. apply lookup_old_spec in Hj; [|lia]. destruct Hj as (_ & Hj & H1 & H2).
    eapply auth_near; eauto. now apply (Forall2_nth _ _ _ [] 0%Q HA). }
  destruct He as [j Hj Hn|j e Hj Hn Hm Hl|Hlk Hm|v el eu Hv Hm Hlk|v el eu Hv Hm Hlk Hreq];
    rewrite ?app_nil_r; auto.
  - apply auth_acc. apply in_or_app; right; simpl; auto.
  - eapply auth_noisy. apply in_or_app; right; simpl; eauto.
  - apply auth_acc. apply in_or_app; right; simpl; auto.
Qed.

Lemma auth_reach c ok s l : reach c ok s l -> all_authentic c s.
Proof.
  intros HR.
  assert (HP : aligned c (T s) /\ all_authentic c s); [|tauto].
  revert HR. apply (reach_preserves c ok (fun s => aligned c (T s) /\ all_authentic c s)).
  - intros s0 s1 Hq [H1 H2]. unfold all_authentic. rewrite (q_T _ _ Hq). split; [assumption|].
    destruct (q_trace _ _ Hq) as (es & -> & _).
    eapply Forall2_mono; [|exact H2]. intros a b. apply authentic_mono, incl_appl, incl_refl.
  - intros i s0 s1 _ H [H1 H2]. split; [eapply aligned_restart; eauto|eapply auth_restart; eauto].
  - intros j s0 s1 _ H [H1 H2]. split; [eapply aligned_remove; eauto|].
    apply remove_fields in H. destruct H as (_ & HT & _ & _ & _ & Ht).
    unfold all_authentic. rewrite HT, Ht. cbn. now apply Forall2_delete.
  - intros i q s0 l0 s1 l1 _ _ _ H [HA H2]. apply evaluate_sum in H.
    destruct H as (v & noisy & e & es & [He HT _ _ _ Ht _ _ _]).
    split; [rewrite HT; now apply aligned_add|].
    unfold all_authentic. rewrite HT, Ht. cbn. apply Forall2_app.
    + eapply Forall2_mono; [|exact H2]. intros a b. apply authentic_mono, incl_appl, incl_refl.
    + constructor; auto. eapply eval_value_authentic; eauto.
  - split; [|constructor]. constructor; cbn; auto. exists [], [], [], [], []. repeat split; auto.
Qed.

Lemma result_spec s v p : result s = Some (v, p) -> all_val (T s) <> [] /\
  v = nth (argmin (all_val (T s))) (all_val (T s)) 0%Q /\
  p = nth (argmin (all_val (T s))) (all_pos (T s)) [].
Proof.
  unfold result. destruct (all_val (T s)); [discriminate|]. intros H. split; [discriminate|].
  split; congruence.
Qed.
Lemma result_authentic c ok s l v p : reach c ok s l -> result s = Some (v, p) ->
  authentic (eps_zero c) (trace s) p v.
Proof.
  intros HR H. pose proof (auth_reach _ _ _ _ HR) as HA.
  apply result_spec in H. destruct H as (Hne & -> & ->).
  destruct (argmin_spec _ Hne) as (Hlt & _).
  apply (Forall2_nth _ _ _ [] 0%Q HA).
  apply Forall2_length in HA. unfold point in *. lia.
Qed.

(** ** Incumbents *)
Definition no_removal (c : cfg) : Prop := has_noisy c = false /\ (0 <= min_dist c)%Q.

Definition is_min_of (vals : list Q) (idx : nat) (f : option Q) : Prop :=
  first_min vals idx /\ f = Some (nth idx vals 0%Q).
Definition is_max_of (vals : list Q) (f : option Q) : Prop :=
  exists w, f = Some w /\ (exists x, In x vals /\ (x == w)%Q) /\
            forall x, In x vals -> (x <= w)%Q.

Record incumbents_ok (s : st) : Prop := {
  io_min : is_min_of (node_val (T s)) (fmin_index (I s)) (fmin (I s));
  io_max : is_max_of (node_val (T s)) (fmax (I s));
  io_best : is_min_of (all_val (T s)) (fbest_index (I s)) (fbest (I s));
  io_minflag : is_fmin_noisy (I s) = nth (fmin_index (I s)) (node_is_noisy (T s)) false;
  io_bestflag : is_fbest_noisy (I s) = nth (fbest_index (I s)) (all_is_noisy (T s)) false }.

Lemma incumbents_same s s' : T s' = T s -> same_incs (I s) (I s') ->
  incumbents_ok s -> incumbents_ok s'.
Proof.
  intros HT (A1 & A2 & A3 & A4 & A5 & A6 & A7) [B1 B2 B3 B4 B5].
  constructor; rewrite HT, ?A1, ?A2, ?A3, ?A4, ?A5, ?A6, ?A7; auto.
Qed.

Lemma min_of_snoc vals idx f v :
  is_min_of vals idx f ->
  is_min_of (vals ++ [v]) (if xlt v f then length vals else idx)
            (if xlt v f then Some v else f).
Proof.
  intros (Hm & ->). cbn. destruct (Qltb v (nth idx vals 0%Q)) eqn:E; qb.
  - split; [now apply first_min_snoc_lt with (i := idx)|].
    rewrite app_nth2, Nat.sub_diag by lia. reflexivity.
  - split; [now apply first_min_snoc_ge|].
    destruct Hm as (Hl & _). rewrite app_nth1 by assumption. reflexivity.
Qed.
Lemma max_of_snoc vals f v : is_max_of vals f ->
  is_max_of (vals ++ [v]) (match f with None => None | Some w => Some (Qmax w v) end).
Proof.
  intros (w & -> & (x & Hx & Exw) & Hm). exists (Qmax w v). split; [reflexivity|].
  split.
  - destruct (Q.max_spec w v) as [[H1 H2]|[H1 H2]].
    + exists v. split; [apply in_or_app; simpl; auto|]. now rewrite H2.
    + exists x. split; [apply in_or_app; auto|]. now rewrite H2.
  - intros y Hy. apply in_app_or in Hy. destruct Hy as [Hy|[<-|[]]].
    + eapply Qle_trans; [apply Hm; assumption|]. apply Q.le_max_l.
    + apply Q.le_max_r.
Qed.

Lemma incumbents_eval c i p s l s' l' :
  evaluate c i p (to_orig c p) s l = Ok (s', l') -> aligned c (T s) ->
  incumbents_ok s -> incumbents_ok s'.
Proof.
  intros H HA [B1 B2 B3 B4 B5]. apply evaluate_sum in H.
  destruct H as (v & noisy & e & es & [He HT (A1 & A2 & A3 & A4 & A5 & A6 & A7) _ _ _ _ _ _]).
  destruct (aligned_lengths _ _ HA) as (L1 & L2 & L3 & L4).
  pose proof (al_val _ _ HA) as Lv. pose proof (al_noisy _ _ HA) as Ln.
  rewrite HT in A1, A2, A3, A4, A5, A6, A7. cbn in A1, A2, A3, A4, A5, A6, A7.
  rewrite app_length in A1, A5. cbn in A1, A5.
  replace (length (node_pos (T s)) + 1 - 1)%nat with (length (node_val (T s))) in A1 by lia.
  replace (length (all_pos (T s)) + 1 - 1)%nat with (length (all_val (T s))) in A5 by lia.
  constructor; rewrite HT, ?A1, ?A2, ?A3, ?A4, ?A5, ?A6, ?A7; cbn.
  - now apply min_of_snoc.
  - now apply max_of_snoc.
  - now apply min_of_snoc.
  - destruct (xlt v (fmin (I s))).
    + rewrite app_nth2 by lia. replace (_ - _)%nat with 0%nat by lia. reflexivity.
    + destruct B1 as ((Hl & _) & _). rewrite app_nth1 by lia. assumption.
  - destruct (xlt v (fbest (I s))).
    + rewrite app_nth2 by lia. replace (_ - _)%nat with 0%nat by lia. reflexivity.
    + destruct B3 as ((Hl & _) & _). rewrite app_nth1 by lia. assumption.
Qed.

Lemma Qlist_max_spec l : l <> [] -> is_max_of l (Some (Qlist_max l)).
Proof.
  intros H. destruct (argmax_spec l H) as (Hl & Hm & _).
  exists (Qlist_max l). split; [reflexivity|]. unfold Qlist_max. split.
  - exists (nth (argmax l) l 0%Q). split; [now apply nth_In|reflexivity].
  - intros x Hx. apply In_nth with (d := 0%Q) in Hx. destruct Hx as (j & Hj & <-). auto.
Qed.

(** Before the first restart there is nothing recorded. *)
Definition virgin (s : st) : Prop := T s = tabs0 /\ fbest (I s) = None.

Lemma incumbents_restart c i s s' : restart c i s = Ok s' -> aligned c (T s) ->
  (virgin s \/ incumbents_ok s) -> incumbents_ok s'.
Proof.
  intros H HA HP. apply restart_effect in H.
  destruct H as [(gen & evs & na & nn & usr & uevs & nu & _ & _ & _ & Hne & _ & HT & HI & _)].
  destruct (aligned_lengths _ _ HA) as (L1 & L2 & L3 & L4).
  set (rows := gen ++ usr) in *. clearbody rows.
  assert (Hv : map e_val rows <> []) by (destruct rows; cbn; congruence).
  pose proof (argmin_spec _ Hv) as Hm.
  destruct HI as (A1 & A2 & A3 & A4 & A5 & A6 & A7).
  rewrite HT in A1, A2, A3, A4, A5, A6, A7. cbn in A1, A2, A3, A4, A5, A6, A7.
  set (vals := map e_val rows) in *. set (j := argmin vals) in *.
  assert (Hj : (j < length rows)%nat).
  { destruct Hm as (Hl & _). unfold vals in Hl. now rewrite map_length in Hl. }
  constructor; rewrite HT, ?A1, ?A2, ?A3, ?A4, ?A5, ?A6, ?A7; cbn; fold vals.
  - split; [assumption|reflexivity].
  - now apply Qlist_max_spec.
  - destruct HP as [(V1 & V2)|[_ _ (Hb & Hf) _ _]].
    + rewrite V1, V2. cbn. rewrite Nat.add_0_r. split; [assumption|reflexivity].
    + rewrite Hf. cbn [xlt].
      destruct (Qltb (nth j vals 0%Q) (nth (fbest_index (I s)) (all_val (T s)) 0%Q)) eqn:E; qb.
      * replace (j + length (all_pos (T s)))%nat with (length (all_val (T s)) + j)%nat by lia.
        split; [now apply first_min_app_lt with (i := fbest_index (I s))|].
        rewrite app_nth2 by lia. do 2 f_equal. lia.
      * split; [apply first_min_app_ge; auto|].
        { intros x Hx. eapply Qle_trans; [exact E|]. now apply first_min_In. }
        destruct Hb as (Hl & _). now rewrite app_nth1.
  - reflexivity.
  - destruct HP as [(V1 & V2)|[_ _ (Hb & Hf) _ Hfl]].
    + rewrite V1, V2. cbn. now rewrite Nat.add_0_r.
    + rewrite Hf. cbn [xlt].
      destruct (Qltb (nth j vals 0%Q) (nth (fbest_index (I s)) (all_val (T s)) 0%Q)) eqn:E; qb.
      * rewrite app_nth2 by lia. f_equal. lia.
      * destruct Hb as (Hl & _). rewrite app_nth1 by lia. assumption.
Qed.

Definition inc_inv (c : cfg) (s : st) : Prop :=
  aligned c (T s) /\ (virgin s \/ incumbents_ok s).

Lemma evaluate_not_virgin c i p po s l s' l' : virgin s -> accepted c s p ->
  evaluate c i p po s l = Ok (s', l') -> False.
Proof. intros (V & _) (Hn & _). rewrite V in Hn. cbn in Hn. congruence. Qed.

Lemma inc_inv_pres c ok : no_removal c ->
  (forall s s', quiet s s' -> inc_inv c s -> inc_inv c s') /\
  (forall i s s', ok i -> restart c i s = Ok s' -> inc_inv c s -> inc_inv c s') /\
  (forall j s s', (has_noisy c = true /\ noisy_mode (C s) = false \/ (min_dist c < 0)%Q) ->
    remove_node j s = Ok s' -> inc_inv c s -> inc_inv c s') /\
  (forall i q s l s' l', ok i ->
    (i_prop i = Some q \/
     has_noisy c = true /\ (exists s0 j, inc_inv c s0 /\ nth_error (node_pos (T s0)) j = Some q) \/
     (min_dist c < 0)%Q) ->
    accepted c s (clip q (l_lower c) (l_upper c)) ->
    evaluate c i (clip q (l_lower c) (l_upper c))
             (to_orig c (clip q (l_lower c) (l_upper c))) s l = Ok (s', l') ->
    inc_inv c s -> inc_inv c s').
Proof.
  intros (N1 & N2). split; [|split; [|split]].
  - intros s s' Hq (H1 & H2). split; [now rewrite (q_T _ _ Hq)|].
    destruct H2 as [(V1 & V2)|H2].
    + left. split; [now rewrite (q_T _ _ Hq)|]. destruct (q_I _ _ Hq) as (_ & _ & _ & _ & _ & E & _).
      congruence.
    + right. eapply incumbents_same; [apply (q_T _ _ Hq)|apply (q_I _ _ Hq)|assumption].
  - intros i s s' _ H (H1 & H2). split; [eapply aligned_restart; eauto|].
    right. eapply incumbents_restart; eauto.
  - intros j s s' [(H & _)|H]; [congruence|lra].
  - intros i q s l s' l' _ _ Hacc H (H1 & H2). split.
    + apply evaluate_sum in H. destruct H as (v & noisy & e & es & [_ HT _ _ _ _ _ _ _]).
      rewrite HT. now apply aligned_add.
    + destruct H2 as [H2|H2]; [exfalso; eapply evaluate_not_virgin; eauto|].
      right. eapply incumbents_eval; eauto.
Qed.

Lemma start_not_virgin c ok i0 pa s s' l' : no_removal c -> ok i0 ->
  (itercount (C s) = 0 \/ incumbents_ok s) -> inc_inv c s ->
  start_call c i0 pa s = Ok (s', l') -> incumbents_ok s'.
Proof.
  intros Hn Hok Hit (H1 & H2). unfold start_call.
  destruct (itercount (C s) =? 0) eqn:E.
  - destruct (restart c i0 s) as [s1|] eqn:E1; cbn [bind]; [|discriminate].
    destruct (current_gap c s1); cbn [bind]; [|discriminate].
    intros H; injection H as <- _. eapply incumbents_restart; eauto.
  - apply Z.eqb_neq in E. destruct Hit as [Hit|Hit]; [lia|].
    cbn [bind]. destruct (current_gap c s); cbn [bind]; [|discriminate].
    intros H; injection H as <- _. assumption.
Qed.

Lemma incumbents_reach c ok s l : no_removal c -> reach c ok s l -> incumbents_ok s.
Proof.
  intros Hn HR. induction HR as [i0 pa s l Hok H|i0 pa s0 l0 s l Hok HR IH H|i s0 l0 s l Hok HR IH H].
  - eapply (start_not_virgin c ok i0 pa (init_st c)); [assumption|eassumption|left; reflexivity| |eassumption].
    split; [constructor; cbn; auto; exists [], [], [], [], []; repeat split; auto|].
    left. split; reflexivity.
  - eapply (start_not_virgin c ok i0 pa s0); [assumption|eassumption|right; assumption| |eassumption].
    split; [eapply aligned_reach; eauto|right; assumption].
  - assert (HI : inc_inv c s0) by (split; [eapply aligned_reach; eauto|right; assumption]).
    destruct (inc_inv_pres c ok Hn) as (P1 & P2 & P3 & P4).
    pose proof (pass_preserves c ok (inc_inv c) P1 P2 P3 P4 _ _ _ _ _ Hok H HI) as (_ & [V|HV]); auto.
    (* a pass never empties the tables *)
    exfalso.
    pose proof (pass_preserves c ok (fun x => T x <> tabs0)) as PP.
    assert (T s <> tabs0); [|destruct V; congruence].
    refine (PP _ _ _ _ i s0 l0 s l Hok H _).
    + intros a b Hq Ha. now rewrite (q_T _ _ Hq).
    + intros i' a b _ Hr _ Hb. apply restart_effect in Hr.
      destruct Hr as [(gen & evs & na & nn & usr & uevs & nu & _ & _ & _ & Hne & _ & HT & _)].
      rewrite HT in Hb. unfold restart_tabs, tabs0 in Hb. injection Hb as Hb _ _ _ _ _ _ _.
      destruct (gen ++ usr); cbn in Hb; congruence.
    + destruct Hn. intros j a b [(? & _)|?]; [congruence|lra].
    + intros i' q a la b lb _ _ _ He _ Hb. apply evaluate_sum in He.
      destruct He as (v & noisy & e & es & [_ HT _ _ _ _ _ _ _]). rewrite HT in Hb.
      unfold tabs_add, tabs0 in Hb. injection Hb as Hb. destruct (node_pos (T a)); discriminate.
    + destruct IH as [((Hl & _) & _) _ _ _ _]. intros E. rewrite E in Hl. cbn in Hl. lia.
Qed.

(** ** C05: every value received is recorded, when nothing is removed. *)
Lemma count_ev_nonneg f es : 0 <= count_ev f es.
Proof. unfold count_ev. lia. Qed.
Definition recorded_value (s : st) (e : event) : Prop :=
  match e with
  | EvAcc _ v => In v (all_val (T s))
  | EvNoisy _ _ _ _ => False
  | EvUser _ v => In v (all_val (T s))
  | _ => True
  end.
Definition recorded_pos (s : st) (e : event) : Prop :=
  match e with
  | EvAcc p v => exists j, (j < length (all_pos (T s)))%nat /\
                   nth j (all_pos (T s)) [] = p /\ nth j (all_val (T s)) 0%Q = v
  | EvUser p v => exists j, (j < length (all_pos (T s)))%nat /\
                   nth j (all_pos (T s)) [] = p /\ nth j (all_val (T s)) 0%Q = v
  | EvNoisy _ _ _ _ => False
  | _ => True
  end.
Definition all_recorded (c : cfg) (s : st) : Prop :=
  aligned c (T s) /\ noisy_mode (C s) = false /\ Forall (recorded_pos s) (trace s).

Lemma recorded_ext s s' e a b :
  all_pos (T s') = all_pos (T s) ++ a -> all_val (T s') = all_val (T s) ++ b ->
  length (all_val (T s)) = length (all_pos (T s)) ->
  recorded_pos s e -> recorded_pos s' e.
Proof.
  intros Hp Hv Hl. destruct e; cbn; auto; intros (j & H1 & H2 & H3); exists j;
    rewrite Hp, Hv, app_length, !app_nth1 by lia; repeat split; auto; lia.
Qed.

Lemma recorded_restart c i s s' : restart c i s = Ok s' -> all_recorded c s -> all_recorded c s'.
Proof.
  intros H (HA & Hm & HF). pose proof (aligned_restart _ _ _ _ H HA) as HA'.
  apply restart_effect in H.
  destruct H as [(gen & evs & na & nn & usr & uevs & nu & G & _ & U & _ & _ & HT & _ & HC & _ & Ht)].
  destruct (aligned_lengths _ _ HA) as (L1 & L2 & L3 & L4).
  split; [assumption|]. split; [rewrite HC; cbn; assumption|].
  rewrite Ht. apply Forall_app; split.
  - eapply Forall_impl; [|exact HF]. intros e.
    eapply recorded_ext; [rewrite HT; reflexivity|rewrite HT; reflexivity|assumption].
  - assert (Hrow : forall e, In e (gen ++ usr) ->
        exists j, (j < length (all_pos (T s')))%nat /\
          nth j (all_pos (T s')) [] = e_pos e /\ nth j (all_val (T s')) 0%Q = e_val e).
    { intros e He. apply In_nth with (d := ([], 0%Q, false, (0, 0)%Q) : entry) in He.
      destruct He as (j & Hj & Ej). exists (length (all_pos (T s)) + j)%nat.
      rewrite HT. cbn. rewrite app_length, map_length, !app_nth2 by lia. split; [lia|].
      replace (length (all_pos (T s)) + j - length (all_pos (T s)))%nat with j by lia.
      replace (length (all_pos (T s)) + j - length (all_val (T s)))%nat with j by lia.
      rewrite <- Ej.
      split; [change ([] : point) with (e_pos ([], 0%Q, false, (0, 0)%Q))
             |change 0%Q with (e_val ([], 0%Q, false, (0, 0)%Q)) at 1]; apply map_nth. }
    constructor; [exact Logic.I|]. apply Forall_app; split.
    + pose proof (gs_rec _ _ _ _ _ _ _ _ G) as F. pose proof (gs_nn _ _ _ _ _ _ _ _ G) as Hnn.
      rewrite (gs_noisy _ _ _ _ _ _ _ _ G) in Hnn by exact Hm.
      apply Forall_forall. intros e He. rewrite Forall_forall in F. specialize (F e He).
      destruct e; cbn in *; auto; try tauto.
      * destruct F as (x & Hx & <- & <-). apply Hrow, in_or_app; auto.
      * assert (0 < count_ev is_noisy evs); [|lia].
        apply in_split in He. destruct He as (a & b & ->).
        rewrite count_ev_app, count_ev_cons. cbn [is_noisy].
        pose proof (count_ev_nonneg is_noisy a). pose proof (count_ev_nonneg is_noisy b). lia.
      * destruct F as (x & Hx & <- & <- & _). apply Hrow, in_or_app; auto.
    + pose proof (us_rec _ _ _ _ _ _ U) as F. pose proof (us_nn _ _ _ _ _ _ U) as Hnn.
      apply Forall_forall. intros e He. rewrite Forall_forall in F. specialize (F e He).
      destruct e; cbn in *; auto; try tauto.
      * destruct F as (x & Hx & <- & <-). apply Hrow, in_or_app; auto.
      * assert (0 < count_ev is_noisy uevs); [|lia].
        apply in_split in He. destruct He as (a & b & ->).
        rewrite count_ev_app, count_ev_cons. cbn [is_noisy].
        pose proof (count_ev_nonneg is_noisy a). pose proof (count_ev_nonneg is_noisy b). lia.
      * destruct F as (x & Hx & <- & <- & _). apply Hrow, in_or_app; auto.
Qed.

Lemma recorded_reach c ok s l : no_removal c -> reach c ok s l -> all_recorded c s.
Proof.
  intros (N1 & N2). apply (reach_preserves c ok (all_recorded c)).
  - intros s0 s1 Hq (H1 & H2 & H3). split; [now rewrite (q_T _ _ Hq)|].
    split. { destruct (noisy_mode (C s1)) eqn:E; [|reflexivity]. rewrite (q_mode _ _ Hq E) in H2. congruence. }
    destruct (q_trace _ _ Hq) as (es & -> & Hs). apply Forall_app; split.
    + eapply Forall_impl; [|exact H3]. intros e. unfold recorded_pos. now rewrite (q_T _ _ Hq).
    + eapply Forall_impl; [|exact Hs]. intros e. destruct e; cbn; tauto.
  - intros i s0 s1 _. apply recorded_restart.
  - intros j s0 s1 [(H & _)|H]; [congruence|lra].
  - intros i q s0 l0 s1 l1 _ _ _ H (H1 & H2 & H3). apply evaluate_sum in H.
    destruct H as (v & noisy & e & es & [He HT _ HC _ Ht _ _ _]).
    destruct (aligned_lengths _ _ H1) as (L1 & L2 & L3 & L4).
    split; [rewrite HT; now apply aligned_add|]. split; [rewrite HC; exact H2|].
    rewrite Ht. apply Forall_app; split.
    + eapply Forall_impl; [|exact H3]. intros e'.
      eapply recorded_ext; [rewrite HT; reflexivity|rewrite HT; reflexivity|assumption].
    + destruct He as [j Hj Hn|j e Hj Hn Hm Hl|Hlk Hm|v el eu Hv Hm Hlk|v el eu Hv Hm Hlk Hreq];
        try congruence; constructor; auto.
      exists (length (all_pos (T s0))). rewrite HT. cbn.
      rewrite app_length, !app_nth2 by lia. rewrite Nat.sub_diag, L1, Nat.sub_diag. cbn.
      repeat split; lia.
  - split; [constructor; cbn; auto; exists [], [], [], [], []; repeat split; auto|].
    split; [exact N1|constructor].
Qed.

Lemma result_optimal c ok s l v p : no_removal c -> reach c ok s l -> result s = Some (v, p) ->
  forall q w, In (EvAcc q w) (trace s) \/ In (EvUser q w) (trace s) -> (v <= w)%Q.
Proof.
  intros Hn HR H q w Hin. destruct (recorded_reach _ _ _ _ Hn HR) as (HA & _ & HF).
  rewrite Forall_forall in HF. destruct (aligned_lengths _ _ HA) as (L1 & _).
  assert (Hw : In w (all_val (T s))).
  { destruct Hin as [Hin|Hin]; specialize (HF _ Hin); cbn in HF;
      destruct HF as (j & Hj & _ & <-); apply nth_In; lia. }
  apply result_spec in H. destruct H as (Hne & -> & ->).
  apply first_min_In; auto. now apply argmin_spec.
Qed.
