(** * Proofs of the exact form of C36: which noisy evaluations are followed by an accurate one. *)
From Verif Require Export AuditProofs.
From Verif Require Import AlgFrame AlgInv AlgHist AlgGlue.
From Coq Require Import Lia Lqa.
Open Scope Z_scope.

Definition promising (c : cfg) (best : option Q) (w : Q) : Prop :=
  (exists b, best = Some b /\ (w <= b - eps_impr c * Qmax 1 (Qabs b))%Q) \/
  (w <= target_objval c + eps_opt c * Qabs (target_objval c))%Q.
Lemma require_iff c s v : require_accurate c s v = true <-> promising c (fmin (I s)) v.
Proof.
  unfold require_accurate, promising, improves. rewrite orb_true_iff, Qle_bool_iff.
  destruct (fmin (I s)) as [b|].
  - rewrite Qle_bool_iff. split; (intros [H|H]; [left|right; exact H]).
    + eauto.
    + destruct H as (b' & E & H). inversion E; subst. exact H.
  - split; (intros [H|H]; [|right; exact H]); [discriminate|]. destruct H as (b' & E & _). discriminate.
Qed.
(** The events of an evaluation. *)
Inductive evals (c : cfg) (best : option Q) (po : point) : list event -> Prop :=
| V_none : evals c best po []
| V_acc w : evals c best po [EvAcc po w]
| V_noisy v el eu : ~ promising c best (v + el) -> evals c best po [EvNoisy po v el eu]
| V_both v el eu w : promising c best (v + el) -> evals c best po [EvNoisy po v el eu; EvAcc po w].
Lemma eval_evals c i p po s l s' l' : evaluate c i p po s l = Ok (s', l') ->
  exists es, trace s' = trace s ++ es /\ evals c (fmin (I s)) po es.
Proof.
  unfold evaluate. cbv zeta. destruct (i_nval i) as [[v0 el0] eu0].
  destruct (negb (noisy_mode (C s))).
  - destruct (lookup_old c (T s) po) as [j|].
    + destruct (negb _).
      * match goal with |- context [bind (current_gap c ?x) _] => destruct (current_gap c x) end; cbn [bind]; [|discriminate].
        intros H; inversion H; subst; clear H. exists []. rewrite app_nil_r. split; [reflexivity|constructor].
      * match goal with |- context [bind (current_gap c ?x) _] => destruct (current_gap c x) end; cbn [bind]; [|discriminate].
        intros H; inversion H; subst; clear H. eexists. split; [reflexivity|constructor].
    + match goal with |- context [bind (current_gap c ?x) _] => destruct (current_gap c x) end; cbn [bind]; [|discriminate].
      intros H; inversion H; subst; clear H. eexists. split; [reflexivity|constructor].
  - destruct (lookup_old c (T s) po) as [j|].
    + destruct (nth j (all_is_noisy (T s)) false).
      * destruct (errs l) as [[el eu]|] eqn:El; [|discriminate].
        destruct (require_accurate c s _).
        -- match goal with |- context [bind (current_gap c ?x) _] => destruct (current_gap c x) end; cbn [bind]; [|discriminate].
           intros H; inversion H; subst; clear H. eexists. split; [reflexivity|constructor].
        -- match goal with |- context [bind (current_gap c ?x) _] => destruct (current_gap c x) end; cbn [bind]; [|discriminate].
           intros H; inversion H; subst; clear H. exists []. rewrite app_nil_r. split; [reflexivity|constructor].
      * match goal with |- context [bind (current_gap c ?x) _] => destruct (current_gap c x) end; cbn [bind]; [|discriminate].
        intros H; inversion H; subst; clear H. exists []. rewrite app_nil_r. split; [reflexivity|constructor].
    + cbn [errs]. destruct (require_accurate c _ _) eqn:RA.
      * match goal with |- context [bind (current_gap c ?x) _] => destruct (current_gap c x) end; cbn [bind]; [|discriminate].
        intros H; inversion H; subst; clear H. eexists [_; _].
        split; [cbn; rewrite <- app_assoc; reflexivity|]. apply V_both. apply require_iff in RA. exact RA.
      * match goal with |- context [bind (current_gap c ?x) _] => destruct (current_gap c x) end; cbn [bind]; [|discriminate].
        intros H; inversion H; subst; clear H. eexists.
        split; [reflexivity|]. apply V_noisy. intros X. 
        match type of RA with require_accurate c ?x _ = _ => apply (require_iff c x) in X end.
        congruence.
Qed.
Definition calm (e : event) : Prop := match e with EvNoisy _ _ _ _ => False | EvAcc _ _ => False | _ => True end.
Lemma silent_calm es : Forall silent es -> Forall calm es.
Proof. apply Forall_impl. intros []; cbn; auto. Qed.
(** Without a restart a pass makes the evaluations of one point at most. *)
Lemma pass_evals c i s l s' l' : pass c i s l = Cont s' l' -> restarts s' = restarts s ->
  exists pre es post po, trace s' = trace s ++ pre ++ es ++ post /\ Forall calm pre /\ Forall calm post /\
    evals c (fmin (I s)) po es.
Proof.
  unfold pass. intros H HR.
  assert (Q : forall x y, quiet x y -> exists es, trace y = trace x ++ es /\ Forall calm es).
  { intros x y Hq. destruct (q_trace _ _ Hq) as (es & A & B). exists es. split; [exact A|now apply silent_calm]. }
  assert (NIL : forall es, trace s' = trace s ++ es -> Forall calm es ->
    exists pre es post po, trace s' = trace s ++ pre ++ es ++ post /\ Forall calm pre /\ Forall calm post /\
      evals c (fmin (I s)) po es).
  { intros es A B. exists es, [], [], []. rewrite !app_nil_r. repeat split; auto. constructor. }
  destruct (negb (loop_cond c s l (i_clock_ok i))); [discriminate|].
  destruct (skip_step c (C s)).
  { inversion H; subst. destruct (Q _ _ (quiet_advance c s)) as (es & A & B). eauto. }
  destruct (if must_restart c (C s) then restart c i s else Ok s) as [s1|] eqn:E1; [|discriminate].
  assert (R1 : restarts s <= restarts s1 /\ (restarts s1 = restarts s -> s1 = s)).
  { destruct (must_restart c (C s)).
    - apply restart_count in E1. split; [lia|]. intros; lia.
    - inversion E1; subst. split; [lia|auto]. }
  destruct R1 as (R1 & R2).
  pose proof (quiet_prepare c i s1) as Qp.
  destruct (prepare c i s1) as [s2|s2|er] eqn:E2; [| |discriminate].
  2: { inversion H; subst. specialize (Qp s' eq_refl). pose proof (quiet_restarts _ _ Qp).
       rewrite (R2 ltac:(lia)) in Qp. destruct (Q _ _ Qp) as (es & A & B). eauto. }
  specialize (Qp s2 eq_refl).
  set (s3 := emit [EvStep (current_step (C s2))] s2) in *.
  assert (Q3 : quiet s1 s3) by (eapply quiet_trans; [exact Qp|apply quiet_emit_step]).
  destruct (negb (search_guard c s3)); [discriminate|].
  pose proof (quiet_restarts _ _ Q3) as R3.
  assert (FIN : forall s4 q, trace s4 = trace s3 -> I s4 = I s3 -> conclude c i s4 q l = Cont s' l' ->
    exists pre es post po, trace s' = trace s ++ pre ++ es ++ post /\ Forall calm pre /\ Forall calm post /\
      evals c (fmin (I s)) po es).
  { intros s4 q HT4 HI4 HC.
    assert (RR : restarts s4 = restarts s1) by (unfold restarts in *; rewrite HT4; lia).
    apply conclude_effect in HC. destruct HC as [sx Hq _|q0 p0 s5 l5 s6 _ _ _ He Hq _].
    - pose proof (quiet_restarts _ _ Hq). rewrite (R2 ltac:(lia)) in Q3.
      destruct (Q _ _ Q3) as (e3 & A3 & B3). destruct (Q _ _ Hq) as (e4 & A4 & B4).
      apply (NIL (e3 ++ e4)); [rewrite A4, HT4, A3, app_assoc; reflexivity|apply Forall_app; auto].
    - pose proof (eval_restarts _ _ _ _ _ _ _ _ He) as HRe. pose proof (quiet_restarts _ _ Hq).
      rewrite (R2 ltac:(lia)) in Q3.
      destruct (Q _ _ Q3) as (e3 & A3 & B3). destruct (Q _ _ Hq) as (e6 & A6 & B6).
      destruct (eval_evals _ _ _ _ _ _ _ _ He) as (e5 & A5 & B5).
      exists e3, e5, e6. eexists. split; [rewrite A6, A5, HT4, A3, <- !app_assoc; reflexivity|].
      split; [exact B3|]. split; [exact B6|]. rewrite HI4 in B5.
      assert (fmin (I s3) = fmin (I s)) as X by (destruct (q_I _ _ Q3) as (_ & X & _); exact X).
      rewrite X in B5. exact B5. }
  pose proof (search_effect c i s3) as Hs.
  destruct Hs as [s4 Hq|s4 Hrs|Hne|j p s4 Hn Hm Hst Hj Hp Hd|r p s4 Hneg Hd|e].
  - inversion H; subst. pose proof (quiet_restarts _ _ Hq). rewrite (R2 ltac:(lia)) in Q3.
    destruct (Q _ _ (quiet_trans _ _ _ Q3 Hq)) as (es & A & B). eauto.
  - inversion H; subst. apply restart_count in Hrs. lia.
  - exact (FIN _ _ eq_refl eq_refl H).
  - pose proof (remove_fields _ _ _ Hd) as (_ & _ & HI4 & _ & _ & Ht4). exact (FIN _ _ Ht4 HI4 H).
  - pose proof (remove_fields _ _ _ Hd) as (_ & _ & HI4 & _ & _ & Ht4). exact (FIN _ _ Ht4 HI4 H).
  - discriminate.
Qed.
Lemma followed c i s l s' l' new p v el eu : pass c i s l = Cont s' l' ->
  restarts_in (trace s') = restarts_in (trace s) -> trace s' = trace s ++ new -> In (EvNoisy p v el eu) new ->
  ((exists w, In (EvAcc p w) new) <-> promising c (fmin (I s)) (v + el)).
Proof.
  intros HP HR HT HI. rewrite !restarts_in_eq in HR.
  destruct (pass_evals _ _ _ _ _ _ HP HR) as (pre & es & post & po & X & A & B & D).
  rewrite X in HT. apply app_inv_head in HT. subst new.
  rewrite Forall_forall in A, B.
  assert (N : forall e, In e (pre ++ es ++ post) -> ~ calm e -> In e es).
  { intros e Hi Hc. rewrite !in_app_iff in Hi. destruct Hi as [Hi|[Hi|Hi]]; [|exact Hi|]; exfalso; auto. }
  assert (M : forall e, In e es -> In e (pre ++ es ++ post)) by (intros e Hi; rewrite !in_app_iff; auto).
  pose proof (N _ HI ltac:(cbn; auto)) as H1.
  destruct D as [|w|v' el' eu' D|v' el' eu' w D]; cbn in H1.
  - contradiction.
  - destruct H1 as [H1|[]]; discriminate.
  - destruct H1 as [H1|[]]. inversion H1; subst. split; [|intros; contradiction].
    intros (w & Hw). apply N in Hw; [|cbn; auto]. destruct Hw as [Hw|[]]; discriminate.
  - destruct H1 as [H1|[H1|[]]]; [|discriminate]. inversion H1; subst. split; [auto|].
    intros _. exists w. apply M. right. left. reflexivity.
Qed.
