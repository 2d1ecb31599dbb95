(** * Invariants of the serial machine: accounting, alignment, provenance, incumbents. *)
From Verif Require Export AlgRestart.
Open Scope Z_scope.

(** ** C01 accounting *)
Definition counted (s : st) : Prop :=
  evalcount (C s) = count_ev is_acc (trace s) /\
  noisy_evalcount (C s) = count_ev is_noisy (trace s).

Lemma silent_not_acc e : silent e -> is_acc e = false.
Proof. destruct e; cbn; tauto. Qed.
Lemma silent_not_noisy e : silent e -> is_noisy e = false.
Proof. destruct e; cbn; tauto. Qed.

Lemma counted_quiet s s' : quiet s s' -> counted s -> counted s'.
Proof.
  intros [_ _ He Hn _ _ _ _ (es & Ht & Hs)] (H1 & H2). unfold counted.
  rewrite He, Hn, Ht, !count_ev_app, H1, H2.
  rewrite (count_ev_silent is_acc es silent_not_acc Hs).
  rewrite (count_ev_silent is_noisy es silent_not_noisy Hs). lia.
Qed.
Lemma counted_restart c i s s' : restart c i s = Ok s' -> counted s -> counted s'.
Proof.
  intros H (H1 & H2). apply restart_effect in H.
  destruct H as [(gen & evs & na & nn & usr & uevs & nu & G & _ & U & _ & _ & _ & _ & HC & _ & Ht)].
  unfold counted. rewrite HC, Ht. cbn. rewrite !count_ev_app, !count_ev_cons, !count_ev_app.
  cbn. rewrite <- H1, <- H2. 
  rewrite (gs_na _ _ _ _ _ _ _ _ G), (gs_nn _ _ _ _ _ _ _ _ G),
    (us_na _ _ _ _ _ _ U), (us_nn _ _ _ _ _ _ U). lia.
Qed.
Lemma remove_fields j s s' : remove_node j s = Ok s' ->
  (j < length (node_pos (T s)))%nat /\ T s' = tabs_remove j (T s) /\
  I s' = I s /\ C s' = C s /\ Rf s' = Rf s /\ trace s' = trace s.
Proof.
  unfold remove_node. destruct (_ <? _)%nat eqn:E; [|discriminate].
  intros H; injection H as <-. apply Nat.ltb_lt in E. cbn. auto 10.
Qed.
Lemma counted_remove j s s' : remove_node j s = Ok s' -> counted s -> counted s'.
Proof.
  intros H. apply remove_fields in H. destruct H as (_ & _ & _ & HC & _ & Ht).
  unfold counted. now rewrite HC, Ht.
Qed.
Lemma counted_eval c i p po s l s' l' :
  evaluate c i p po s l = Ok (s', l') -> counted s -> counted s'.
Proof.
  intros H (H1 & H2). apply evaluate_sum in H.
  destruct H as (v & noisy & e & es & [Hev _ _ HC _ Ht _ _ _]).
  unfold counted. rewrite HC, Ht, !count_ev_app, <- H1, <- H2. cbn. lia.
Qed.
Lemma counted_reach c ok s l : reach c ok s l -> counted s.
Proof.
  apply reach_preserves.
  - apply counted_quiet.
  - intros i s0 s1 _. apply counted_restart.
  - intros j s0 s1 _. apply counted_remove.
  - intros i q s0 l0 s1 l1 _ _ _. apply counted_eval.
  - split; reflexivity.
Qed.

(** ** C07 alignment *)
Definition pos_rel (c : cfg) (p po : point) : Prop := po = to_orig c p \/ p = to_scaled c po.
Record aligned (c : cfg) (t : tabs) : Prop := {
  al_ex : exists opos oval onoisy oerr npos,
    length opos = nodes_at_restart t /\ length oval = nodes_at_restart t /\
    length onoisy = nodes_at_restart t /\ length oerr = nodes_at_restart t /\
    all_pos t = opos ++ npos /\ all_val t = oval ++ node_val t /\
    all_is_noisy t = onoisy ++ node_is_noisy t /\ all_err t = oerr ++ node_err t /\
    Forall2 (pos_rel c) (node_pos t) npos;
  al_val : length (node_val t) = length (node_pos t);
  al_noisy : length (node_is_noisy t) = length (node_pos t);
  al_err : length (node_err t) = length (node_pos t) }.

Lemma aligned_lengths c t : aligned c t ->
  length (all_val t) = length (all_pos t) /\ length (all_is_noisy t) = length (all_pos t) /\
  length (all_err t) = length (all_pos t) /\
  (nodes_at_restart t + length (node_pos t))%nat = length (all_pos t).
Proof.
  intros [(opos & oval & onoisy & oerr & npos & L1 & L2 & L3 & L4 & E1 & E2 & E3 & E4 & F) V N R].
  apply Forall2_length in F. rewrite E1, E2, E3, E4, !app_length. lia.
Qed.

Lemma aligned_restart c i s s' : restart c i s = Ok s' -> aligned c (T s) -> aligned c (T s').
Proof.
  intros H HA. apply restart_effect in H.
  destruct H as [(gen & evs & na & nn & usr & uevs & nu & _ & _ & _ & _ & _ & HT & _)].
  rewrite HT. set (rows := gen ++ usr). clearbody rows.
  destruct (aligned_lengths _ _ HA) as (A1 & A2 & A3 & A4).
  constructor; cbn; rewrite ?map_length; auto.
  exists (all_pos (T s)), (all_val (T s)), (all_is_noisy (T s)), (all_err (T s)), (map e_pos rows).
  repeat split; auto.
  induction rows; cbn; constructor; auto. right. reflexivity.
Qed.

Lemma Forall2_delete {A B} (R : A -> B -> Prop) l m : Forall2 R l m ->
  forall j, Forall2 R (delete_at j l) (delete_at j m).
Proof.
  intros H. induction H; intros [|j]; cbn; auto.
Qed.

Lemma aligned_remove c j s s' : remove_node j s = Ok s' -> aligned c (T s) -> aligned c (T s').
Proof.
  intros H HA. apply remove_fields in H. destruct H as (Hj & HT & _). rewrite HT.
  destruct HA as [(opos & oval & onoisy & oerr & npos & L1 & L2 & L3 & L4 & E1 & E2 & E3 & E4 & F) V N R].
  constructor; cbn; rewrite ?delete_at_length by lia; try lia.
  exists opos, oval, onoisy, oerr, (delete_at j npos).
  rewrite E1, E2, E3, E4.
  assert (D : forall (X : Type) (a b : list X), length a = nodes_at_restart (T s) ->
            delete_at (nodes_at_restart (T s) + j) (a ++ b) = a ++ delete_at j b).
  { intros X a b <-. apply delete_at_app_r. }
  rewrite !D by assumption.
  repeat split; auto. apply Forall2_delete; assumption.
Qed.

Lemma aligned_add c p v noisy e t : aligned c t ->
  aligned c (tabs_add p (to_orig c p) v noisy e t).
Proof.
  intros [(opos & oval & onoisy & oerr & npos & L1 & L2 & L3 & L4 & E1 & E2 & E3 & E4 & F) V N R].
  constructor; cbn; rewrite ?app_length; cbn; try lia.
  exists opos, oval, onoisy, oerr, (npos ++ [to_orig c p]).
  rewrite E1, E2, E3, E4, !app_assoc. repeat split; auto.
  apply Forall2_app; auto. constructor; auto. left; reflexivity.
Qed.

Lemma aligned_init c : aligned c (T (init_st c)).
Proof. constructor; cbn; auto. exists [], [], [], [], []. repeat split; auto. Qed.
Lemma aligned_reach c ok s l : reach c ok s l -> aligned c (T s).
Proof.
  apply (reach_preserves c ok (fun s => aligned c (T s))).
  - intros s0 s1 Hq. now rewrite (q_T _ _ Hq).
  - intros i s0 s1 _. apply aligned_restart.
  - intros j s0 s1 _. apply aligned_remove.
  - intros i q s0 l0 s1 l1 _ _ _ H HA. apply evaluate_sum in H.
    destruct H as (v & noisy & e & es & [_ HT _ _ _ _ _ _ _]). rewrite HT.
    now apply aligned_add.
  - constructor; cbn; auto. exists [], [], [], [], []. repeat split; auto.
Qed.

(** ** lookup_old *)
Lemma lookup_old_spec c t po j : (nodes_at_restart t <= length (all_pos t))%nat ->
  lookup_old c t po = Some j ->
  (j < nodes_at_restart t)%nat /\ (j < length (all_pos t))%nat /\
  (0 < eps_zero c /\ sqdist po (nth j (all_pos t) []) < eps_zero c * eps_zero c)%Q.
Proof.
  intros Hle. unfold lookup_old. cbv zeta.
  destruct (nodes_at_restart t =? 0)%nat eqn:E; [discriminate|]. apply Nat.eqb_neq in E.
  set (old := firstn (nodes_at_restart t) (all_pos t)).
  destruct (dist_lt po (nth (nearest po old) old []) (eps_zero c)) eqn:D; [|discriminate].
  intros H; injection H as <-. apply dist_lt_iff in D.
  assert (Hl : length old = nodes_at_restart t) by (unfold old; rewrite firstn_length; lia).
  assert (Hlt : (nearest po old < length old)%nat).
  { apply nearest_lt. intros E0. rewrite E0 in Hl. cbn in Hl. lia. }
  split; [lia|]. split; [lia|]. split; [tauto|].
  destruct D as [_ D].
  replace (nth (nearest po old) old []) with (nth (nearest po old) (all_pos t) []) in D; auto.
  rewrite <- (firstn_skipn (nodes_at_restart t) (all_pos t)) at 1.
  apply app_nth1. exact Hlt.
Qed.
Lemma lookup_old_none c t po : (nodes_at_restart t <= length (all_pos t))%nat ->
  lookup_old c t po = None ->
  forall q, In q (firstn (nodes_at_restart t) (all_pos t)) -> dist_lt po q (eps_zero c) = false.
Proof.
  intros Hle. unfold lookup_old. cbv zeta.
  destruct (nodes_at_restart t =? 0)%nat eqn:E.
  - apply Nat.eqb_eq in E. rewrite E. intros _ q [].
  - set (old := firstn (nodes_at_restart t) (all_pos t)).
    destruct (dist_lt po (nth (nearest po old) old []) (eps_zero c)) eqn:D; [discriminate|].
    intros _ q Hq. destruct (dist_lt po q (eps_zero c)) eqn:D2; [|reflexivity].
    apply dist_lt_iff in D2. destruct D2 as [P1 P2].
    assert (dist_lt po (nth (nearest po old) old []) (eps_zero c) = true); [|congruence].
    apply dist_lt_iff. split; [assumption|].
    pose proof (nearest_min po old q Hq). lra.
Qed.
