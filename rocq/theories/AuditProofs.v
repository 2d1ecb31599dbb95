(** * Proofs of additions to C10, C14, C22 and others found by auditing the statements. *)
From Verif Require Export SpecAudit StopProofs.
From Verif Require Import AlgFrame AlgInv AlgHist AlgSep AlgGlue.
From Coq Require Import Lia Lqa.
Open Scope Z_scope.

(** ** C14 *)
Definition K (tr0 : list event) (b : bool) (a : option (Q * Q)) (s : st) : Prop :=
  exists es, trace s = tr0 ++ es /\ fold_left note es (false, None) = (b, a).
Lemma K_app tr0 b a s s' es b' a' : K tr0 b a s -> trace s' = trace s ++ es -> fold_left note es (b, a) = (b', a') ->
  K tr0 b' a' s'.
Proof.
  intros (e0 & E1 & E2) H F. exists (e0 ++ es). split; [rewrite H, E1, app_assoc; reflexivity|].
  rewrite fold_left_app, E2. exact F.
Qed.
Lemma note_silent es : Forall silent es -> forall b a, exists b', fold_left note es (b, a) = (b', a) /\ (b = false -> b' = false).
Proof.
  induction 1 as [|e es He _ IH]; intros b a; [exists b; auto|]. cbn [fold_left].
  destruct e; try contradiction; cbn [note fst snd].
  - apply IH.
  - destruct (IH false a) as (b' & A & B). exists b'. auto.
Qed.
Lemma K_quiet tr0 b a s s' : K tr0 b a s -> quiet s s' -> exists b', K tr0 b' a s' /\ (b = false -> b' = false).
Proof.
  intros HK Hq. destruct (q_trace _ _ Hq) as (es & Ht & Hs). destruct (note_silent es Hs b a) as (b' & A & B).
  exists b'. split; [|exact B]. eapply K_app; eauto.
Qed.
Lemma note_sample es : (forall k, ~ In (EvStep k) es) -> forall a, fold_left note es (true, a) = (true, a).
Proof.
  induction es as [|e es IH]; intros H a; [reflexivity|]. cbn [fold_left].
  assert (note (true, a) e = (true, a)) as ->.
  { destruct e; try reflexivity. exfalso. eapply H. left. reflexivity. }
  apply IH. intros k Hk. eapply H. right. exact Hk.
Qed.
Lemma K_restart tr0 b a c i s s' : K tr0 b a s -> restart c i s = Ok s' -> K tr0 true a s'.
Proof.
  intros HK H. destruct (AlgSched.restart_trace _ _ _ _ H) as (es & Ht & _ & Hn & _).
  eapply K_app; [exact HK|exact Ht|]. cbn [fold_left note snd]. apply note_sample. exact Hn.
Qed.
Lemma eval_errs tr0 c i p po s l s' l' : K tr0 false (errs l) s -> evaluate c i p po s l = Ok (s', l') ->
  K tr0 false (errs l') s' /\
  exists noisy e, all_is_noisy (T s') = all_is_noisy (T s) ++ [noisy] /\ all_err (T s') = all_err (T s) ++ [e] /\
                  (noisy = true -> errs l' = Some e).
Proof.
  intros HK. unfold evaluate. cbv zeta. destruct (i_nval i) as [[v0 el0] eu0].
  assert (TR : forall v g x, trace (log_value v g x) = trace x) by reflexivity.
  assert (K0 : forall x, trace x = trace s -> K tr0 false (errs l) x).
  { intros x Hx. eapply K_app with (es := []); [exact HK|rewrite app_nil_r; exact Hx|reflexivity]. }
  assert (K1 : forall x v, trace x = trace s ++ [EvAcc po v] -> K tr0 false (errs l) x).
  { intros x v Hx. eapply K_app; [exact HK|exact Hx|reflexivity]. }
  assert (K2 : forall x v el eu, trace x = trace s ++ [EvNoisy po v el eu] -> K tr0 false (Some (el, eu)) x).
  { intros x v el eu Hx. eapply K_app; [exact HK|exact Hx|reflexivity]. }
  assert (K3 : forall x v el eu w, trace x = (trace s ++ [EvNoisy po v el eu]) ++ [EvAcc po w] -> K tr0 false (Some (el, eu)) x).
  { intros x v el eu w Hx. rewrite <- app_assoc in Hx. eapply K_app; [exact HK|exact Hx|reflexivity]. }
  destruct (negb (noisy_mode (C s))).
  - destruct (lookup_old c (T s) po) as [j|].
    + destruct (negb _).
      * match goal with |- context [bind (current_gap c ?x) _] => destruct (current_gap c x) end; cbn [bind]; [|discriminate].
        intros H; inversion H; subst; clear H. cbn [errs].
        split; [apply K0; reflexivity|]. eexists false, _. split; [reflexivity|]. split; [reflexivity|discriminate].
      * match goal with |- context [bind (current_gap c ?x) _] => destruct (current_gap c x) end; cbn [bind]; [|discriminate].
        intros H; inversion H; subst; clear H. cbn [errs].
        split; [eapply K1; reflexivity|]. eexists false, _. split; [reflexivity|]. split; [reflexivity|discriminate].
    + match goal with |- context [bind (current_gap c ?x) _] => destruct (current_gap c x) end; cbn [bind]; [|discriminate].
      intros H; inversion H; subst; clear H. cbn [errs].
      split; [eapply K1; reflexivity|]. eexists false, _. split; [reflexivity|]. split; [reflexivity|discriminate].
  - destruct (lookup_old c (T s) po) as [j|].
    + destruct (nth j (all_is_noisy (T s)) false).
      * destruct (errs l) as [[el eu]|] eqn:El; [|discriminate].
        destruct (require_accurate c s _).
        -- match goal with |- context [bind (current_gap c ?x) _] => destruct (current_gap c x) end; cbn [bind]; [|discriminate].
           intros H; inversion H; subst; clear H. cbn [errs]. rewrite ?El.
           split; [eapply K1; reflexivity|]. eexists false, _. split; [reflexivity|]. split; [reflexivity|discriminate].
        -- match goal with |- context [bind (current_gap c ?x) _] => destruct (current_gap c x) end; cbn [bind]; [|discriminate].
           intros H; inversion H; subst; clear H. cbn [errs]. rewrite ?El.
           split; [apply K0; reflexivity|]. eexists true, _. split; [reflexivity|]. split; reflexivity.
      * match goal with |- context [bind (current_gap c ?x) _] => destruct (current_gap c x) end; cbn [bind]; [|discriminate].
        intros H; inversion H; subst; clear H. cbn [errs].
        split; [apply K0; reflexivity|]. eexists false, _. split; [reflexivity|]. split; [reflexivity|discriminate].
    + cbn [errs]. destruct (require_accurate c _ _).
      * match goal with |- context [bind (current_gap c ?x) _] => destruct (current_gap c x) end; cbn [bind]; [|discriminate].
        intros H; inversion H; subst; clear H. cbn [errs].
        split; [eapply K3; reflexivity|]. eexists false, _. split; [reflexivity|]. split; [reflexivity|discriminate].
      * match goal with |- context [bind (current_gap c ?x) _] => destruct (current_gap c x) end; cbn [bind]; [|discriminate].
        intros H; inversion H; subst; clear H. cbn [errs].
        split; [eapply K2; reflexivity|]. eexists true, _. split; [reflexivity|]. split; reflexivity.
Qed.
(** At the head of the loop; and the row added by a pass. *)
Lemma delete_len {A B} j : forall (l : list A) (m : list B), length l = length m ->
  delete_at j l = l /\ delete_at j m = m \/ (length (delete_at j l) < length l)%nat.
Proof.
  induction j as [|j IH]; intros [|x l] [|y m] H; cbn in *; try discriminate; auto.
  destruct (IH l m ltac:(lia)) as [(A1 & A2)|A1]; [left; split; congruence|right; lia].
Qed.
Lemma pass_errs tr0 c i s l s' l' b : length (all_is_noisy (T s)) = length (all_err (T s)) -> K tr0 b (errs l) s -> pass c i s l = Cont s' l' ->
  (exists b', K tr0 b' (errs l') s') /\
  (forall e, restarts s' = restarts s -> all_is_noisy (T s') = all_is_noisy (T s) ++ [true] ->
     all_err (T s') = all_err (T s) ++ [e] -> errs l' = Some e).
Proof.
  unfold pass. intros HL HK H.
  assert (NO : forall (t : tabs) e, all_is_noisy t = all_is_noisy t ++ [true] -> errs l' = Some e).
  { intros t e X. apply (f_equal (@length bool)) in X. rewrite app_length in X. cbn in X. lia. }
  destruct (negb (loop_cond c s l (i_clock_ok i))); [discriminate|].
  destruct (skip_step c (C s)).
  { inversion H; subst. destruct (K_quiet _ _ _ _ _ HK (quiet_advance c s)) as (b' & A & _).
    split; [eauto|]. intros e _ X _. cbn in X. exact (NO _ e X). }
  destruct (if must_restart c (C s) then restart c i s else Ok s) as [s1|] eqn:E1; [|discriminate].
  assert (R1 : (exists b', K tr0 b' (errs l) s1) /\ restarts s <= restarts s1 /\ (restarts s1 = restarts s -> s1 = s)).
  { destruct (must_restart c (C s)).
    - pose proof (K_restart _ _ _ _ _ _ _ HK E1). apply restart_count in E1. split; [eauto|]. split; [lia|]. intros; lia.
    - inversion E1; subst. split; [eauto|]. split; [lia|auto]. }
  destruct R1 as ((b1 & HK1) & R1 & R2).
  pose proof (quiet_prepare c i s1) as Qp.
  destruct (prepare c i s1) as [s2|s2|er] eqn:E2; [| |discriminate].
  2: { inversion H; subst. specialize (Qp s' eq_refl). destruct (K_quiet _ _ _ _ _ HK1 Qp) as (b' & A & _).
       split; [eauto|]. intros e Hr X _. pose proof (quiet_restarts _ _ Qp). rewrite (q_T _ _ Qp), (R2 ltac:(lia)) in X. exact (NO _ e X). }
  specialize (Qp s2 eq_refl).
  destruct (K_quiet _ _ _ _ _ HK1 Qp) as (b2 & HK2 & _).
  set (s3 := emit [EvStep (current_step (C s2))] s2) in *.
  assert (HK3 : K tr0 false (errs l) s3) by (eapply K_app; [exact HK2|reflexivity|reflexivity]).
  assert (Q3 : quiet s1 s3) by (eapply quiet_trans; [exact Qp|apply quiet_emit_step]).
  destruct (negb (search_guard c s3)); [discriminate|].
  pose proof (quiet_restarts _ _ Q3) as R3.
  assert (FIN : forall s4 q, K tr0 false (errs l) s4 -> conclude c i s4 q l = Cont s' l' -> restarts s4 = restarts s1 ->
     (restarts s1 = restarts s -> all_is_noisy (T s4) = all_is_noisy (T s) /\ all_err (T s4) = all_err (T s) \/
        (length (all_is_noisy (T s4)) < length (all_is_noisy (T s)))%nat) ->
     (exists b', K tr0 b' (errs l') s') /\
     (forall e, restarts s' = restarts s -> all_is_noisy (T s') = all_is_noisy (T s) ++ [true] ->
        all_err (T s') = all_err (T s) ++ [e] -> errs l' = Some e)).
  { intros s4 q HK4 HC HR HT. apply conclude_effect in HC. destruct HC as [sx Hq _|q0 p0 s5 l5 s6 _ _ _ He Hq _].
    - destruct (K_quiet _ _ _ _ _ HK4 Hq) as (b' & A & _). split; [eauto|].
      intros e Hr X _. pose proof (quiet_restarts _ _ Hq). rewrite (q_T _ _ Hq) in X.
      destruct (HT ltac:(lia)) as [(Y & _)|Y].
      + rewrite Y in X. exact (NO _ e X).
      + rewrite X, app_length in Y. cbn in Y. lia.
    - pose proof (eval_restarts _ _ _ _ _ _ _ _ He) as HRe.
      destruct (eval_errs _ _ _ _ _ _ _ _ _ HK4 He) as (HK5 & noisy & e5 & A1 & A2 & A3).
      destruct (K_quiet _ _ _ _ _ HK5 Hq) as (b' & A & _). split; [eauto|].
      intros e Hr X1 X2. pose proof (quiet_restarts _ _ Hq). rewrite (q_T _ _ Hq) in X1, X2.
      destruct (HT ltac:(lia)) as [(Y1 & Y2)|Y].
      + rewrite A1, Y1 in X1. rewrite A2, Y2 in X2. apply app_inv_head in X1, X2. inversion X1; inversion X2; subst. auto.
      + rewrite A1 in X1. apply (f_equal (@length bool)) in X1. rewrite !app_length in X1. cbn in X1. lia. }
  pose proof (search_effect c i s3) as Hs.
  destruct Hs as [s4 Hq|s4 Hrs|Hne|j p s4 Hn Hm Hst Hj Hp Hd|r p s4 Hneg Hd|e].
  - inversion H; subst. destruct (K_quiet _ _ _ _ _ HK3 Hq) as (b' & A & _). split; [eauto|].
    intros e Hr X _. pose proof (quiet_restarts _ _ Hq). rewrite (q_T _ _ Hq), (q_T _ _ Q3), (R2 ltac:(lia)) in X. exact (NO _ e X).
  - inversion H; subst. pose proof (K_restart _ _ _ _ _ _ _ HK3 Hrs). split; [eauto|].
    apply restart_count in Hrs. intros e Hr. lia.
  - apply (FIN _ _ HK3 H); [lia|]. intros Hr. left. rewrite (q_T _ _ Q3), (R2 Hr). auto.
  - pose proof (remove_fields _ _ _ Hd) as (_ & HT4 & _ & _ & _ & Ht4).
    apply (FIN s4 _ (K_app _ _ _ _ s4 [] _ _ HK3 ltac:(rewrite app_nil_r; exact Ht4) eq_refl) H).
    + unfold restarts in *. rewrite Ht4. exact R3.
    + intros Hr. rewrite HT4, (q_T _ _ Q3), (R2 Hr). cbn. apply (delete_len _ _ _ HL).
  - pose proof (remove_fields _ _ _ Hd) as (_ & HT4 & _ & _ & _ & Ht4).
    apply (FIN s4 _ (K_app _ _ _ _ s4 [] _ _ HK3 ltac:(rewrite app_nil_r; exact Ht4) eq_refl) H).
    + unfold restarts in *. rewrite Ht4. exact R3.
    + intros Hr. rewrite HT4, (q_T _ _ Q3), (R2 Hr). cbn. apply (delete_len _ _ _ HL).
  - discriminate.
Qed.
Lemma start_errs c i0 pa s0 s l : start_call c i0 pa s0 = Ok (s, l) -> exists b, K (trace s0) b (errs l) s.
Proof.
  unfold start_call. assert (K0 : K (trace s0) false None s0) by (exists []; rewrite app_nil_r; auto).
  destruct (itercount (C s0) =? 0).
  - destruct (restart c i0 s0) as [s1|] eqn:E; cbn [bind]; [|discriminate].
    destruct (current_gap c s1); cbn [bind]; [|discriminate]. intros H; inversion H; subst. cbn.
    exists true. eapply K_restart; eauto.
  - cbn [bind]. destruct (current_gap c s0); cbn [bind]; [|discriminate]. intros H; inversion H; subst. cbn. eauto.
Qed.
Lemma run_errs tr0 c (ok : inp -> Prop) : forall is s l s' l' b, Forall ok is -> reach c ok s l -> K tr0 b (errs l) s ->
  run c is s l = Running s' l' -> exists b', K tr0 b' (errs l') s'.
Proof.
  induction is as [|i is IH]; intros s l s' l' b HF HR HK H; cbn in H; [inversion H; subst; eauto|].
  destruct (pass c i s l) as [s1 l1| |e] eqn:E; try discriminate. inversion HF; subst.
  pose proof (aligned_reach c ok s l HR) as A. apply aligned_lengths in A.
  destruct (pass_errs tr0 c i s l s1 l1 b ltac:(unfold point in *; lia) HK E) as ((b1 & HK1) & _).
  eapply IH; [eassumption| |exact HK1|exact H]. eapply reach_pass; eauto.
Qed.
Lemma recorded_bounds c (ok : inp -> Prop) i0 pa is s0 l0 s l i s' l' mine e :
  s0 = init_st c \/ reach c ok s0 l0 -> ok i0 -> Forall ok is -> ok i ->
  call c i0 pa is s0 = Running s l -> pass c i s l = Cont s' l' -> restarts_in (trace s') = restarts_in (trace s) ->
  all_is_noisy (T s') = all_is_noisy (T s) ++ [true] -> all_err (T s') = all_err (T s) ++ [e] ->
  trace s' = trace s0 ++ mine -> latest_bounds mine = Some e.
Proof.
  intros H0 Hi0 Hi Hok HC HP HR HN HE HT. unfold call in HC.
  destruct (start_call c i0 pa s0) as [[s1 l1]|] eqn:E; [|discriminate].
  destruct (start_errs _ _ _ _ _ _ E) as (b & HK).
  assert (R1 : reach c ok s1 l1).
  { destruct H0 as [->|H0]; [exact (reach_start c ok i0 pa _ _ Hi0 E)|exact (reach_again c ok i0 pa _ _ _ _ Hi0 H0 E)]. }
  destruct (run_errs _ c ok _ _ _ _ _ _ Hi R1 HK HC) as (b1 & HK1).
  pose proof (run_reach_at c ok _ _ _ _ _ Hi R1 HC) as R2.
  pose proof (aligned_reach c ok s l R2) as A. apply aligned_lengths in A.
  destruct (pass_errs (trace s0) c i s l s' l' b1 ltac:(unfold point in *; lia) HK1 HP) as ((b2 & es & X1 & X2) & Y).
  rewrite !restarts_in_eq in HR. rewrite X1 in HT. apply app_inv_head in HT. subst mine.
  unfold latest_bounds. rewrite X2. cbn. apply Y; assumption.
Qed.

(** ** C22: one iteration *)
Lemma iteration_exact c ok i s l s' l' : reach c ok s l -> pass c i s l = Cont s' l' ->
  restarts_in (trace s') = restarts_in (trace s) ->
  (itercount (C s') = itercount (C s) /\ num_stalled_iter (C s') = num_stalled_iter (C s) /\
   fmin_stall_check (C s') = fmin_stall_check (C s)) \/
  (itercount (C s') = itercount (C s) + 1 /\
   exists best ref, fmin (I s') = Some best /\ fmin_stall_check (C s) = Some ref /\
    ((best <= ref - eps_impr c * Qmax 1 (Qabs ref))%Q /\
       num_stalled_iter (C s') = 0 /\ fmin_stall_check (C s') = Some best \/
     (ref - eps_impr c * Qmax 1 (Qabs ref) < best)%Q /\
       num_stalled_iter (C s') = num_stalled_iter (C s) + 1 /\ fmin_stall_check (C s') = Some ref)).
Proof.
  intros HR HP Hr. rewrite !restarts_in_eq in Hr.
  destruct (ref_some_reach c ok s l HR) as ((r & Hr1) & (f & Hf)).
  destruct (pass_stall _ _ _ _ _ _ HP Hr) as [(Hi & A & B)|(Hi & sm & (A & B) & HI & (D & E))]; [left; auto|].
  right. split; [exact Hi|].
  assert (HF : exists b, fmin (I s') = Some b).
  { assert (R' : reach c any_inp s l).
    { clear - HR. induction HR; [eapply reach_start|eapply reach_again|eapply reach_pass]; eauto; exact Logic.I. }
    assert (R2 : reach c any_inp s' l') by (eapply reach_pass; [exact Logic.I|exact R'|exact HP]).
    exact (proj2 (ref_some_reach c any_inp s' l' R2)). }
  destruct HF as (best & Hb). exists best, r. split; [exact Hb|]. split; [exact Hr1|].
  revert D E. unfold stalling_update. rewrite <- HI, Hb, B, Hr1. unfold improves.
  destruct (Qle_bool best (r - eps_impr c * Qmax 1 (Qabs r))) eqn:Q; cbn; intros D E.
  - left. apply Qle_bool_iff in Q. auto.
  - right. split; [|split; [congruence|exact E]]. apply Qnot_le_lt. intros X. apply Qle_bool_iff in X. congruence.
Qed.

(** ** C10: any domain scaling *)
Lemma separation_any c (ok : inp -> Prop) s l : (0 <= min_dist c)%Q ->
  (forall i s1 s2, ok i -> restart c i s1 = Ok s2 -> all_apart (min_dist c) (node_pos (T s2))) ->
  reach c ok s l -> all_apart (min_dist c) (node_pos (T s)).
Proof.
  intros Hd Hok HR. apply apart_spec. revert HR.
  apply (reach_preserves c ok (fun s => separated (min_dist c) (node_pos (T s)))).
  - intros s0 s1 Hq. now rewrite (q_T _ _ Hq).
  - intros i s0 s1 Hi H _. apply apart_spec. eauto.
  - intros j s0 s1 _ H H1. apply remove_fields in H. destruct H as (_ & HT & _). rewrite HT. cbn. now apply FOP_delete.
  - intros i q s0 l0 s1 l1 _ _ Hacc H H1. eapply evaluate_separated; eauto.
  - constructor.
Qed.
