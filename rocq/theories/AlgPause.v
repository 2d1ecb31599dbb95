(** * History (C20), displayed gap (C79), user points (C15), pause and resume (C18). *)
From Verif Require Export AlgHist.
From Coq Require Import Lia Lqa.
Open Scope Z_scope.

(** ** C20 *)
Definition ole (a b : option Q) : Prop :=   (* a <= b, None = +infinity *)
  match a, b with
  | _, None => True
  | Some x, Some y => (x <= y)%Q
  | None, Some _ => False
  end.
Lemma ole_refl a : ole a a.
Proof. destruct a; cbn; [apply Qle_refl|exact Logic.I]. Qed.
Lemma ole_trans a b d : ole a b -> ole b d -> ole a d.
Proof. destruct a, b, d; cbn; try tauto. intros; lra. Qed.
Lemma xlt_true v o : xlt v o = true -> ole (Some v) o.
Proof. destruct o; cbn; [|auto]. intros H. apply Qltb_lt in H. lra. Qed.

Record grows (c : cfg) (s s' : st) : Prop := {
  gr_trace : exists es, trace s' = trace s ++ es;
  gr_ev : evalcount (C s) <= evalcount (C s');
  gr_nev : noisy_evalcount (C s) <= noisy_evalcount (C s');
  gr_it : itercount (C s) <= itercount (C s');
  gr_cyc : cyclecount (C s) <= cyclecount (C s');
  gr_nr : num_noisy_restarts (C s) <= num_noisy_restarts (C s');
  gr_best : ole (fbest (I s')) (fbest (I s));
  gr_hist : no_removal c -> exists a b d e,
    all_pos (T s') = all_pos (T s) ++ a /\ all_val (T s') = all_val (T s) ++ b /\
    all_is_noisy (T s') = all_is_noisy (T s) ++ d /\ all_err (T s') = all_err (T s) ++ e }.

Lemma grows_refl c s : grows c s s.
Proof.
  constructor; try lia; try apply ole_refl.
  - exists []. now rewrite app_nil_r.
  - intros _. exists [], [], [], []. rewrite !app_nil_r. auto.
Qed.
Lemma grows_trans c a b d : grows c a b -> grows c b d -> grows c a d.
Proof.
  intros [(e1 & T1) A1 A2 A3 A4 A5 A6 A7] [(e2 & T2) B1 B2 B3 B4 B5 B6 B7].
  constructor; try lia; try (eapply ole_trans; eauto).
  - exists (e1 ++ e2). rewrite T2, T1. now rewrite app_assoc.
  - intros Hn. destruct (A7 Hn) as (p1 & p2 & p3 & p4 & P1 & P2 & P3 & P4).
    destruct (B7 Hn) as (q1 & q2 & q3 & q4 & Q1 & Q2 & Q3 & Q4).
    exists (p1 ++ q1), (p2 ++ q2), (p3 ++ q3), (p4 ++ q4).
    rewrite Q1, Q2, Q3, Q4, P1, P2, P3, P4. rewrite !app_assoc. auto.
Qed.
Lemma grows_quiet c s s' : quiet s s' -> grows c s s'.
Proof.
  intros [HT HI He Hn Hit Hc Hm Hr (es & Ht & _)]. constructor; try lia.
  - eauto.
  - destruct HI as (_ & _ & _ & _ & _ & -> & _). apply ole_refl.
  - intros _. rewrite HT. exists [], [], [], []. rewrite !app_nil_r. auto.
Qed.
(** A restart keeps the whole history, in every mode. *)
Lemma restart_keeps c i s s' : restart c i s = Ok s' ->
  grows c s s' /\ exists a b d e,
    all_pos (T s') = all_pos (T s) ++ a /\ all_val (T s') = all_val (T s) ++ b /\
    all_is_noisy (T s') = all_is_noisy (T s) ++ d /\ all_err (T s') = all_err (T s) ++ e.
Proof.
  intros H. apply restart_effect in H.
  destruct H as [(gen & evs & na & nn & usr & uevs & nu & G & _ & U & _ & _ & HT & HI & HC & _ & Ht)].
  assert (E : exists a b d e,
    all_pos (T s') = all_pos (T s) ++ a /\ all_val (T s') = all_val (T s) ++ b /\
    all_is_noisy (T s') = all_is_noisy (T s) ++ d /\ all_err (T s') = all_err (T s) ++ e).
  { rewrite HT. cbn. do 4 eexists. repeat split; reflexivity. }
  split; [|exact E].
  pose proof (gs_na _ _ _ _ _ _ _ _ G). pose proof (gs_nn _ _ _ _ _ _ _ _ G).
  pose proof (us_na _ _ _ _ _ _ U).
  pose proof (count_ev_nonneg is_acc evs). pose proof (count_ev_nonneg is_noisy evs).
  pose proof (count_ev_nonneg is_acc uevs).
  constructor.
  - eauto.
  - rewrite HC. cbn. lia.
  - rewrite HC. cbn. lia.
  - rewrite HC. cbn. lia.
  - rewrite HC. cbn. lia.
  - rewrite HC. cbn. destruct (noisy_mode (C s)); lia.
  - destruct HI as (_ & _ & _ & _ & _ & -> & _). cbn.
    destruct (xlt _ (fbest (I s))) eqn:Ex; [now apply xlt_true|apply ole_refl].
  - intros _. exact E.
Qed.
Lemma pass_grows c i s l s' l' : pass c i s l = Cont s' l' -> grows c s s'.
Proof.
  intros H. refine (pass_preserves c any_inp (grows c s) _ _ _ _ i s l s' l' Logic.I H (grows_refl c s)).
  - intros a b Hq Ha. eapply grows_trans; [exact Ha|now apply grows_quiet].
  - intros j a b _ Hr Ha. eapply grows_trans; [exact Ha|]. now apply (restart_keeps c j).
  - intros j a b Hw Hr [T1 A1 A2 A3 A4 A5 A6 A7]. apply remove_fields in Hr.
    destruct Hr as (_ & _ & HI & HC & _ & Ht). constructor; rewrite ?HI, ?HC, ?Ht; auto.
    intros (N1 & N2). destruct Hw as [(? & _)|?]; [congruence|lra].
  - intros j q a la b lb _ _ _ He Ha. eapply grows_trans; [exact Ha|]. apply evaluate_sum in He.
    destruct He as (v & noisy & e & es & [_ HT HI HC _ Ht _ _ _]).
    pose proof (count_ev_nonneg is_acc es). pose proof (count_ev_nonneg is_noisy es).
    constructor; rewrite ?HC; cbn [add_evals evalcount noisy_evalcount itercount cyclecount num_noisy_restarts]; try lia.
    + eauto.
    + destruct HI as (_ & _ & _ & _ & _ & -> & _). cbn.
      destruct (xlt _ (fbest (I a))) eqn:Ex; [now apply xlt_true|apply ole_refl].
    + intros _. rewrite HT. cbn. do 4 eexists. repeat split; reflexivity.
Qed.
Lemma start_grows c i0 pa s s' l' : start_call c i0 pa s = Ok (s', l') -> grows c s s'.
Proof.
  unfold start_call. destruct (itercount (C s) =? 0).
  - destruct (restart c i0 s) as [s1|] eqn:E; cbn [bind]; [|discriminate].
    destruct (current_gap c s1); cbn [bind]; [|discriminate]. intros H; inversion H; subst.
    now apply (restart_keeps c i0).
  - cbn [bind]. destruct (current_gap c s); cbn [bind]; [|discriminate]. intros H; inversion H; subst.
    apply grows_refl.
Qed.
Lemma run_grows c : forall is s l s',
  (run c is s l = Done s' \/ exists l', run c is s l = Running s' l') -> grows c s s'.
Proof.
  induction is as [|i is IH]; intros s l s' H; cbn in H.
  - destruct H as [H|(l' & H)]; inversion H; subst; apply grows_refl.
  - destruct (pass c i s l) as [s1 l1| |e] eqn:E.
    + eapply grows_trans; [eapply pass_grows; eauto|]. eapply IH; eauto.
    + destruct H as [H|(l' & H)]; inversion H; subst; apply grows_refl.
    + destruct H as [H|(l' & H)]; discriminate.
Qed.

(** ** C79 *)
Lemma log_star_iff v g i : log_star v g i = true <->
  exists x f, g = Some x /\ fbest i = Some f /\ (v == f)%Q /\
    match best_gap_shown i with None => True | Some b => (x < b)%Q end.
Proof.
  unfold log_star. destruct g as [x|]; [|split; [discriminate|intros (? & ? & ? & _); discriminate]].
  rewrite andb_true_iff. split.
  - intros (H1 & H2). destruct (fbest i) as [f|]; [|discriminate]. exists x, f.
    repeat split; auto; [now apply Qeq_bool_eq|].
    destruct (best_gap_shown i); [|exact Logic.I]. now apply Qltb_lt.
  - intros (x' & f & E & Hf & Hv & Hb). injection E as <-. rewrite Hf. split.
    + destruct (best_gap_shown i); [|reflexivity]. now apply Qltb_lt.
    + now apply Qeq_eq_bool.
Qed.
Definition shown_ok (s s' : st) : Prop := ole (best_gap_shown (I s')) (best_gap_shown (I s)).
Lemma log_shown v g s : shown_ok s (log_value v g s).
Proof.
  unfold shown_ok, log_value, log_incs. destruct (log_star v g (I s)) eqn:E; [|apply ole_refl].
  cbn. apply log_star_iff in E. destruct E as (x & f & -> & _ & _ & Hb).
  destruct (best_gap_shown (I s)); cbn; [lra|exact Logic.I].
Qed.
Lemma log_all_shown vals g : forall s, shown_ok s (log_all vals g s).
Proof.
  induction vals as [|v r IH]; intros s; [apply ole_refl|].
  change (log_all (v :: r) g s) with (log_all r g (log_value v g s)).
  eapply ole_trans; [apply IH|apply log_shown].
Qed.
Lemma restart_shown c i s s' : restart c i s = Ok s' -> shown_ok s s'.
Proof.
  unfold restart. cbv zeta.
  destruct (restart_gen c _ _ i) as [[[[gen evs] na] nn]|]; cbn [bind]; [|discriminate].
  destruct (restart_user c _ gen i) as [[usr uevs] nu].
  destruct (gen ++ usr); [discriminate|].
  match goal with |- bind (current_gap c ?x) _ = _ -> _ => set (s2 := x) end.
  destruct (current_gap c s2); cbn [bind]; [|discriminate].
  destruct (_ =? 1)%nat; [discriminate|]. intros H.
  apply (f_equal (fun r => match r with Ok a => a | Fail _ => s end)) in H. cbv beta iota in H. subst s'.
  exact (log_all_shown _ _ s2).
Qed.
Lemma evaluate_shown c i p po s l s' l' : evaluate c i p po s l = Ok (s', l') -> shown_ok s s'.
Proof.
  unfold evaluate. cbv zeta. destruct (i_nval i) as [[v0 el0] eu0]. intros H.
  assert (L : forall v g x y, shown_ok x y -> shown_ok x (log_value v g y)).
  { intros v g x y Hxy. eapply ole_trans; [apply log_shown|exact Hxy]. }
  assert (N : forall q qo v b e x y, shown_ok x y -> shown_ok x (insert_node q qo v b e y)) by auto.
  assert (M : forall es k x y, shown_ok x y -> shown_ok x (emit es (set_C k y))) by auto.
  assert (R : forall x, shown_ok x x) by (intros; apply ole_refl).
  unfold add_node, add_noisy_node in H.
  repeat match type of H with
  | context [if ?b then _ else _] => destruct b
  | context [match lookup_old ?a ?b ?d with _ => _ end] => destruct (lookup_old a b d)
  | context [match errs ?l with _ => _ end] => destruct (errs l) as [[? ?]|]
  | context [bind (current_gap c ?x) _] => destruct (current_gap c x); cbn [bind] in H
  | Ok ?a = Ok _ => apply (f_equal (fun r => match r with Ok (x, _) => x | Fail _ => s end)) in H;
      cbv beta iota in H; subst s'; auto 10; fail
  | Fail _ = Ok _ => discriminate
  | _ => progress (cbn [errs] in H)
  end.
Qed.
Lemma pass_shown c i s l s' l' : pass c i s l = Cont s' l' -> shown_ok s s'.
Proof.
  intros H. refine (fine_pass c any_inp (shown_ok s) _ _ _ _ _ _ _ _ _ _ _ _ i s l s' l' Logic.I H (ole_refl _)).
  - auto.
  - intros j a b _ Hr Ha. eapply ole_trans; [eapply restart_shown; eauto|exact Ha].
  - auto.
  - auto.
  - auto.
  - auto.
  - auto.
  - intros j a b Hr. apply remove_fields in Hr. destruct Hr as (_ & _ & HI & _). unfold shown_ok. now rewrite HI.
  - intros j p a la b lb _ _ He Ha. eapply ole_trans; [eapply evaluate_shown; eauto|exact Ha].
  - intros j a b Hr. apply after_fields in Hr. destruct Hr as (_ & HI & _). unfold shown_ok. now rewrite HI.
  - auto.
  - intros a b Hr. apply end_fields in Hr. destruct Hr as (_ & HI & _). unfold shown_ok. now rewrite HI.
Qed.
Lemma run_shown c : forall is s l s',
  (run c is s l = Done s' \/ exists l', run c is s l = Running s' l') -> shown_ok s s'.
Proof.
  induction is as [|i is IH]; intros s l s' H; cbn in H.
  - destruct H as [H|(l' & H)]; inversion H; subst; apply ole_refl.
  - destruct (pass c i s l) as [s1 l1| |e] eqn:E.
    + eapply ole_trans; [eapply IH; eauto|eapply pass_shown; eauto].
    + destruct H as [H|(l' & H)]; inversion H; subst; apply ole_refl.
    + destruct H as [H|(l' & H)]; discriminate.
Qed.

(** ** C15: which user points are taken *)
Lemma select_user_spec c gen pts : (0 <= min_dist c)%Q -> forall earlier i j,
  In j (select_user c gen earlier i pts) <->
  (i <= j < i + length pts)%nat /\
  (forall q, In q gen -> (min_dist c * min_dist c < sqdist (nth (j - i) pts []) q)%Q) /\
  (forall q, In q earlier -> (min_dist c * min_dist c < sqdist (nth (j - i) pts []) q)%Q) /\
  (forall k, (k < j - i)%nat -> (min_dist c * min_dist c < sqdist (nth (j - i) pts []) (nth k pts []))%Q).
Proof.
  intros Hd. induction pts as [|p r IH]; intros earlier i j; cbn [select_user].
  - split; [intros []|]. cbn. lia.
  - rewrite in_app_iff, IH. clear IH. split.
    + intros [H|(H1 & H2 & H3 & H4)].
      * destruct (negb _ && negb _) eqn:E; [|destruct H]. destruct H as [<-|[]].
        apply andb_true_iff in E. destruct E as (E1 & E2).
        apply negb_true_iff in E1. apply negb_true_iff in E2.
        rewrite near_false in E1, E2 by assumption. rewrite Nat.sub_diag.
        split; [cbn; lia|]. split; [exact E1|]. split; [exact E2|]. intros k Hk. lia.
      * replace (j - i)%nat with (S (j - S i)) by lia. cbn [nth length].
        split; [lia|]. split; [exact H2|].
        split; [intros q Hq; apply H3, in_or_app; auto|].
        intros k Hk. destruct k as [|k]; [apply H3, in_or_app; cbn; auto|]. apply H4. lia.
    + intros (H1 & H2 & H3 & H4). cbn [length] in H1.
      destruct (Nat.eq_dec i j) as [<-|Hne].
      * left. rewrite Nat.sub_diag in *. cbn [nth] in *.
        replace (near (min_dist c) p gen) with false by (symmetry; apply near_false; auto).
        replace (near (min_dist c) p earlier) with false by (symmetry; apply near_false; auto).
        cbn. auto.
      * right. replace (j - i)%nat with (S (j - S i)) in * by lia. cbn [nth] in *.
        split; [lia|]. split; [exact H2|]. split.
        -- intros q Hq. apply in_app_or in Hq. destruct Hq as [Hq|[<-|[]]]; [auto|].
           apply (H4 0%nat). lia.
        -- intros k Hk. apply (H4 (S k)). lia.
Qed.

(** ** C18 *)
Definition with_pause (p it0 : Z) (l : loc) : loc := mkLoc (gap l) (errs l) it0 p.
Definition same_res (a b : run_result) : Prop :=
  match a, b with
  | Running s _, Running s' _ => s = s'
  | Done s, Done s' => s = s'
  | Failed e, Failed e' => e = e'
  | _, _ => False
  end.

(** Two local environments that differ only in the pause data and the unused errors. *)
Definition same_locals (c : cfg) (l l' : loc) : Prop :=
  gap l = gap l' /\ it_start l + pause l = it_start l' + pause l'.

Lemma evaluate_locals c i p po s l l' : has_noisy c = false -> noisy_mode (C s) = false -> gap l = gap l' ->
  match evaluate c i p po s l, evaluate c i p po s l' with
  | Ok (a, la), Ok (b, lb) => a = b /\ gap la = gap lb /\
       it_start la = it_start l /\ pause la = pause l /\
       it_start lb = it_start l' /\ pause lb = pause l'
  | Fail e, Fail e' => e = e'
  | _, _ => False
  end.
Proof.
  intros Hn Hm Hg. unfold evaluate. cbv zeta. rewrite Hm. cbn [negb].
  destruct (lookup_old c (T s) po) as [j|]; [destruct (negb _)|];
    match goal with |- context [bind (current_gap c ?x) _] => destruct (current_gap c x) end;
    cbn [bind gap it_start pause]; auto 8.
Qed.

Lemma conclude_locals c i s prop l l' : has_noisy c = false -> noisy_mode (C s) = false ->
  gap l = gap l' ->
  match conclude c i s prop l, conclude c i s prop l' with
  | Cont a la, Cont b lb => a = b /\ gap la = gap lb /\
       it_start la = it_start l /\ pause la = pause l /\
       it_start lb = it_start l' /\ pause lb = pause l'
  | Stop, Stop => True
  | Crash e, Crash e' => e = e'
  | _, _ => False
  end.
Proof.
  intros Hn Hm Hg. unfold conclude. cbv zeta.
  match goal with |- context [end_of_pass c ?x] => set (sd := x) end.
  assert (D : match match end_of_pass c sd with Ok s4 => Cont s4 l | Fail e => Crash e end,
                    match end_of_pass c sd with Ok s4 => Cont s4 l' | Fail e => Crash e end with
  | Cont a la, Cont b lb => a = b /\ gap la = gap lb /\
       it_start la = it_start l /\ pause la = pause l /\
       it_start lb = it_start l' /\ pause lb = pause l'
  | Stop, Stop => True
  | Crash e, Crash e' => e = e'
  | _, _ => False
  end).
  { destruct (end_of_pass c sd); auto 8. }
  destruct prop as [q|]; cbn [option_map]; [|exact D].
  destruct (node_pos (T s)) as [|x xs] eqn:En; [reflexivity|].
  destruct (near (min_dist c) (clip q (l_lower c) (l_upper c)) (x :: xs)); [exact D|].
  pose proof (evaluate_locals c i (clip q (l_lower c) (l_upper c))
                (to_orig c (clip q (l_lower c) (l_upper c))) s l l' Hn Hm Hg) as E.
  destruct (evaluate c i _ _ s l) as [[s1 l1]|e], (evaluate c i _ _ s l') as [[s1' l1']|e'];
    cbn [bind fst snd]; try tauto.
  destruct E as (<- & E).
  destruct (after_eval c i s1) as [s2|]; cbn [bind]; [|reflexivity].
  destruct (end_of_pass c s2) as [s3|]; cbn [bind]; [|reflexivity]. auto.
Qed.

Lemma pass_locals c i s l l' : has_noisy c = false -> noisy_mode (C s) = false ->
  gap l = gap l' -> loop_cond c s l (i_clock_ok i) = loop_cond c s l' (i_clock_ok i) ->
  match pass c i s l, pass c i s l' with
  | Cont a la, Cont b lb => a = b /\ gap la = gap lb /\ it_start la = it_start l /\ pause la = pause l /\
                            it_start lb = it_start l' /\ pause lb = pause l'
  | Stop, Stop => True
  | Crash e, Crash e' => e = e'
  | _, _ => False
  end.
Proof.
  intros Hn Hm Hg HL. unfold pass.
  rewrite <- HL. destruct (negb _); [exact Logic.I|].
  destruct (skip_step c (C s)); [auto 8|].
  destruct (if must_restart c (C s) then restart c i s else Ok s) as [s1|] eqn:E1; [|reflexivity].
  assert (M1 : noisy_mode (C s1) = false).
  { destruct (must_restart c (C s)); [rewrite (restart_mode _ _ _ _ E1); exact Hm|].
    inversion E1; subst; exact Hm. }
  pose proof (quiet_prepare c i s1) as Qp.
  destruct (prepare c i s1) as [s2|s2|e]; [| auto 8|reflexivity].
  assert (M2 : noisy_mode (C s2) = false).
  { specialize (Qp s2 eq_refl). destruct (noisy_mode (C s2)) eqn:E; [|reflexivity].
    rewrite (q_mode _ _ Qp E) in M1. discriminate. }
  destruct (negb (search_guard c _)); [reflexivity|].
  destruct (search c i _) as [s4 prop|s4|e] eqn:Es; [|auto 8|reflexivity].
  assert (M4 : noisy_mode (C s4) = false).
  { rewrite (search_step_point _ _ _ _ _ Es). exact M2. }
  pose proof (conclude_locals c i s4 prop l l' Hn M4 Hg) as HC.
  destruct (conclude c i s4 prop l), (conclude c i s4 prop l'); tauto.
Qed.

Lemma pass_mode c i s l s' l' : noisy_mode (C s) = false -> pass c i s l = Cont s' l' ->
  noisy_mode (C s') = false.
Proof.
  intros Hm H. refine (pass_preserves c any_inp (fun s => noisy_mode (C s) = false) _ _ _ _ i s l s' l' Logic.I H Hm).
  - intros a b Hq Ha. destruct (noisy_mode (C b)) eqn:E; [|reflexivity]. rewrite (q_mode _ _ Hq E) in Ha. discriminate.
  - intros j a b _ Hr Ha. now rewrite (restart_mode _ _ _ _ Hr).
  - intros j a b _ Hr Ha. apply remove_fields in Hr. destruct Hr as (_ & _ & _ & -> & _). exact Ha.
  - intros j q a la b lb _ _ _ He Ha. destruct (eval_ctrs _ _ _ _ _ _ _ _ He) as (x & y & ->). exact Ha.
Qed.

(** The pause only decides when the loop stops: equal gap and equal remaining
    iterations give equal runs. *)
Lemma run_same_remaining c : has_noisy c = false -> forall is s l l',
  noisy_mode (C s) = false -> gap l = gap l' -> it_start l + pause l = it_start l' + pause l' ->
  same_res (run c is s l) (run c is s l').
Proof.
  intros Hn. induction is as [|i is IH]; intros s l l' Hm Hg Hp; cbn; [reflexivity|].
  assert (HL : loop_cond c s l (i_clock_ok i) = loop_cond c s l' (i_clock_ok i)).
  { unfold loop_cond. rewrite Hg.
    replace (itercount (C s) - it_start l <? pause l) with (itercount (C s) - it_start l' <? pause l'); [reflexivity|].
    destruct (Z.ltb_spec (itercount (C s) - it_start l') (pause l')),
             (Z.ltb_spec (itercount (C s) - it_start l) (pause l)); lia. }
  pose proof (pass_locals c i s l l' Hn Hm Hg HL) as HP.
  destruct (pass c i s l) as [a la| |e] eqn:Ea, (pass c i s l') as [b lb| |e'] eqn:Eb; try tauto.
  - destruct HP as (<- & G & P1 & P2 & P3 & P4). apply IH; [eapply pass_mode; eauto|exact G|lia].
  - reflexivity.
Qed.
(** A run that has not stopped goes the same way with a longer pause. *)
Lemma run_longer_pause c : has_noisy c = false -> forall is s l l' sm lm,
  noisy_mode (C s) = false -> gap l = gap l' -> it_start l = it_start l' -> pause l <= pause l' ->
  run c is s l = Running sm lm ->
  exists lm', run c is s l' = Running sm lm' /\ gap lm' = gap lm /\
              it_start lm' = it_start l' /\ pause lm' = pause l' /\
              it_start lm = it_start l /\ pause lm = pause l /\ noisy_mode (C sm) = false.
Proof.
  intros Hn. induction is as [|i is IH]; intros s l l' sm lm Hm Hg Hi Hp H; cbn in H |- *.
  - inversion H; subst. exists l'. auto 8.
  - destruct (loop_cond c s l (i_clock_ok i)) eqn:EL.
    2: { unfold pass in H. rewrite EL in H. discriminate. }
    assert (HL : loop_cond c s l (i_clock_ok i) = loop_cond c s l' (i_clock_ok i)).
    { rewrite EL. symmetry. unfold loop_cond in *. rewrite <- Hg, <- Hi.
      apply andb_true_iff in EL. destruct EL as (EL & E7). rewrite E7, andb_true_r.
      repeat (apply andb_true_iff in EL; destruct EL as (EL & ?)).
      repeat (apply andb_true_iff; split); auto. apply Z.ltb_lt in EL. apply Z.ltb_lt. lia. }
    pose proof (pass_locals c i s l l' Hn Hm Hg HL) as HP.
    destruct (pass c i s l) as [a la| |e] eqn:Ea, (pass c i s l') as [b lb| |e'] eqn:Eb; try tauto; try discriminate.
    destruct HP as (<- & G & P1 & P2 & P3 & P4).
    assert (Hm' : noisy_mode (C a) = false) by (eapply pass_mode; eauto).
    destruct (IH a la lb sm lm Hm' G ltac:(congruence) ltac:(lia) H) as (lm' & A1 & A2 & A3 & A4 & A5 & A6 & A7).
    exists lm'. repeat split; congruence.
Qed.
Lemma run_app c : forall is1 is2 s l sm lm, run c is1 s l = Running sm lm ->
  run c (is1 ++ is2) s l = run c is2 sm lm.
Proof.
  induction is1 as [|i is1 IH]; intros is2 s l sm lm H; cbn in *; [inversion H; reflexivity|].
  destruct (pass c i s l); try discriminate. now apply IH.
Qed.

Lemma pause_resume c i0 i1 a b is1 is2 s0 s l sm lm :
  has_noisy c = false -> noisy_mode (C s0) = false -> 0 <= b ->
  start_call c i0 a s0 = Ok (s, l) ->          (* optimize(pause_after_iters = a) ... *)
  run c is1 s l = Running sm lm ->             (* ... runs ... *)
  itercount (C sm) - itercount (C s0) = a ->   (* ... until the pause *)
  itercount (C sm) <> 0 ->
  current_gap c sm = Ok (gap lm) ->
  same_res (call c i1 b is2 sm) (call c i0 (a + b) (is1 ++ is2) s0).
Proof.
  intros Hn Hm Hb Hs Hr Hp Hit Hg. unfold call.
  assert (Hs' : start_call c i0 (a + b) s0 = Ok (s, mkLoc (gap l) None (itercount (C s0)) (a + b))).
  { unfold start_call in *. destruct (if itercount (C s0) =? 0 then restart c i0 s0 else Ok s0) as [s1|]; cbn [bind] in *;
      [|discriminate]. destruct (current_gap c s1); cbn [bind] in *; [|discriminate].
    inversion Hs; subst. reflexivity. }
  rewrite Hs'.
  assert (Hl : it_start l = itercount (C s0) /\ pause l = a /\ noisy_mode (C s) = false).
  { unfold start_call in Hs. destruct (itercount (C s0) =? 0).
    - destruct (restart c i0 s0) as [s1|] eqn:E; cbn [bind] in *; [|discriminate].
      destruct (current_gap c s1); cbn [bind] in *; [|discriminate]. inversion Hs; subst.
      rewrite (restart_mode _ _ _ _ E). auto.
    - cbn [bind] in Hs. destruct (current_gap c s0); cbn [bind] in *; [|discriminate]. inversion Hs; subst. auto. }
  destruct Hl as (L1 & L2 & L3).
  destruct (run_longer_pause c Hn is1 s l (mkLoc (gap l) None (itercount (C s0)) (a + b)) sm lm L3 eq_refl)
    as (lm' & R1 & R2 & R3 & R4 & R5 & R6 & R7); [exact L1|cbn; lia|exact Hr|].
  rewrite (run_app _ _ is2 _ _ _ _ R1).
  unfold start_call. destruct (Z.eqb_spec (itercount (C sm)) 0) as [?|_]; [contradiction|].
  cbn [bind]. rewrite Hg. cbn [bind].
  apply run_same_remaining; auto. cbn in *. rewrite R3, R4. lia.
Qed.

(** The gap is up to date as long as no restart happened inside the call. *)
Definition fresh (c : cfg) (s : st) (l : loc) : Prop := current_gap c s = Ok (gap l).
Lemma gap_same c s s' : T s' = T s -> same_incs (I s) (I s') -> current_gap c s' = current_gap c s.
Proof.
  intros HT (_ & _ & _ & _ & H1 & H2 & _). unfold current_gap. now rewrite HT, H1, H2.
Qed.
Lemma gap_quiet c s s' : quiet s s' -> current_gap c s' = current_gap c s.
Proof. intros Hq. apply gap_same; [apply (q_T _ _ Hq)|apply (q_I _ _ Hq)]. Qed.
Lemma fresh_pass c i s l s' l' : no_removal c -> pass c i s l = Cont s' l' -> restarts s' = restarts s ->
  fresh c s l -> fresh c s' l'.
Proof.
  unfold pass, fresh. intros (N1 & N2) H Hr HF.
  destruct (negb (loop_cond c s l (i_clock_ok i))); [discriminate|].
  destruct (skip_step c (C s)).
  { inversion H; subst. rewrite (gap_quiet _ _ _ (quiet_advance c s)). exact HF. }
  destruct (if must_restart c (C s) then restart c i s else Ok s) as [s1|] eqn:E1; [|discriminate].
  assert (R1 : restarts s <= restarts s1 /\ (restarts s1 = restarts s -> s1 = s)).
  { destruct (must_restart c (C s)).
    - apply restart_count in E1. split; [lia|]. intros; lia.
    - inversion E1; subst. split; [lia|auto]. }
  destruct R1 as (R1 & R2).
  pose proof (quiet_prepare c i s1) as Qp.
  destruct (prepare c i s1) as [s2|s2|e] eqn:E2; [| |discriminate].
  2: { inversion H; subst. specialize (Qp s' eq_refl). rewrite (gap_quiet _ _ _ Qp).
       pose proof (quiet_restarts _ _ Qp). rewrite R2 by lia. exact HF. }
  specialize (Qp s2 eq_refl).
  pose proof (quiet_emit_step s2 (current_step (C s2))) as Qe.
  set (s3 := emit [EvStep (current_step (C s2))] s2) in *.
  assert (Q3 : quiet s1 s3) by (eapply quiet_trans; eauto). clear Qp Qe.
  destruct (negb (search_guard c s3)); [discriminate|].
  pose proof (quiet_restarts _ _ Q3) as R3.
  pose proof (search_effect c i s3) as Hs.
  destruct Hs as [s4 Hq|s4 Hrs|Hne|j p s4 Hn Hm Hst Hj Hp Hd|r p s4 Hneg Hd|e].
  - inversion H; subst. pose proof (quiet_restarts _ _ Hq).
    rewrite (gap_quiet _ _ _ Hq), (gap_quiet _ _ _ Q3), R2 by lia. exact HF.
  - inversion H; subst. apply restart_count in Hrs. lia.
  - apply conclude_effect in H. destruct H as [sx Hq _|q0 p0 s5 l5 s6 _ _ _ He Hq _].
    + pose proof (quiet_restarts _ _ Hq).
      rewrite (gap_quiet _ _ _ Hq), (gap_quiet _ _ _ Q3), R2 by lia. exact HF.
    + rewrite (gap_quiet _ _ _ Hq). apply evaluate_sum in He.
      destruct He as (v & noisy & e & es & [_ _ _ _ _ _ Hg _ _]). exact Hg.
  - congruence.
  - lra.
  - discriminate.
Qed.
Lemma restarts_mono c i s l s' l' : pass c i s l = Cont s' l' -> restarts s <= restarts s'.
Proof.
  intros H. apply pass_grows in H. destruct (gr_trace _ _ _ H) as (es & Ht). unfold restarts.
  rewrite Ht, count_ev_app. pose proof (count_ev_nonneg is_restart es). lia.
Qed.
Lemma run_restarts c : forall is s l sm lm, run c is s l = Running sm lm -> restarts s <= restarts sm.
Proof.
  induction is as [|i is IH]; intros s l sm lm H; cbn in H; [inversion H; lia|].
  destruct (pass c i s l) as [a la| |e] eqn:E; try discriminate.
  apply IH in H. apply restarts_mono in E. lia.
Qed.
Lemma fresh_run c : no_removal c -> forall is s l sm lm, run c is s l = Running sm lm ->
  restarts sm = restarts s -> fresh c s l -> fresh c sm lm.
Proof.
  intros Hn. induction is as [|i is IH]; intros s l sm lm H Hr HF; cbn in H; [inversion H; subst; exact HF|].
  destruct (pass c i s l) as [a la| |e] eqn:E; try discriminate.
  pose proof (run_restarts _ _ _ _ _ _ H). pose proof (restarts_mono _ _ _ _ _ _ E).
  apply (IH a la); [exact H|lia|]. eapply fresh_pass; eauto. lia.
Qed.
Lemma start_fresh c i0 pa s s' l' : start_call c i0 pa s = Ok (s', l') -> fresh c s' l'.
Proof.
  unfold start_call, fresh. destruct (if itercount (C s) =? 0 then restart c i0 s else Ok s) as [s1|]; cbn [bind];
    [|discriminate]. destruct (current_gap c s1) eqn:E; cbn [bind]; [|discriminate].
  intros H; inversion H; subst. exact E.
Qed.
