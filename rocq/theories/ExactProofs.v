(** * Proofs for C147 and additions to C61, C69, C72. *)
From Verif Require Export SpecExact.
From Verif Require Import ParEffects ParInv ParTabs ParBudget ParCap.
From Verif Require Import AlgFrame AlgHist AlgPause AlgGlue ModelAlg.
From Coq Require Import Lia Lqa.
Open Scope Z_scope.

Lemma due_iff c (w : Z) k s : C s = k ->
  ((current_step k <=? first_step c) &&
  (((w <=? 2 * Z.of_nat (length (discarded k))) &&
    Qle_bool (max_fraction_discarded c * inject_Z (Z.of_nat (length (discarded k))))%Q
             (inject_Z (Z.of_nat (count_true (discarded k))))) ||
   ((max_stalled_iterations c <=? num_stalled_iter k) &&
    (evalcount k + 3 * (Z.of_nat (n c) + 1 + cycle_length c) <? max_evaluations c) &&
    (cyclecount k <? max_cycles c - 1))) = true <-> restart_due c w s).
Proof.
  intros <-. unfold restart_due, many_discarded, stalled, first_step, cycle_length, inf_step.
  rewrite andb_true_iff, orb_true_iff, !andb_true_iff, !Z.leb_le, !Z.ltb_lt, Qle_bool_iff.
  replace (if do_infstep c then 0 else 0 + 1) with (if do_infstep c then 0 else 1) by (destruct (do_infstep c); reflexivity).
  tauto.
Qed.
Lemma serial_due_iff c s : must_restart c (C s) = true <-> restart_due c (discarded_window_size c) s.
Proof. apply due_iff. reflexivity. Qed.
Lemma parallel_due_iff c s : must_restart_parallel c (C s) = true <-> restart_due c (discarded_window_size c * num_cpus c) s.
Proof. apply due_iff. reflexivity. Qed.
Lemma disabled_iff c s : skip_step c (C s) = true <-> disabled c s.
Proof.
  unfold skip_step, disabled, inf_step, local_search_step.
  rewrite orb_true_iff, !andb_true_iff, !Z.eqb_eq, !negb_true_iff. tauto.
Qed.
Lemma nobody_iff P : idle (p_k P) = true <-> nobody_working P.
Proof.
  unfold idle, nobody_working. rewrite andb_true_iff, !Nat.eqb_eq, !length_zero_iff_nil. tauto.
Qed.
Lemma lifted_iff c s t : unlimited_refinement c s t = true <-> limit_lifted c s t.
Proof.
  unfold unlimited_refinement, limit_lifted. cbv zeta. rewrite !orb_true_iff, !Qle_bool_iff. tauto.
Qed.

(** ** Serial restarts *)
Lemma pass_due c i s l s' l' : pass c i s l = Cont s' l' -> ~ disabled c s -> restart_due c (discarded_window_size c) s ->
  restarts s < restarts s'.
Proof.
  intros H ND D. apply serial_due_iff in D.
  unfold pass in H. destruct (negb _); [discriminate|].
  destruct (skip_step c (C s)) eqn:Es; [exfalso; apply ND; now apply disabled_iff|].
  rewrite D in H. destruct (restart c i s) as [s1|] eqn:Er; [|discriminate].
  apply restart_count in Er.
  enough (restarts s1 <= restarts s') by lia.
  (* the rest of the pass is that of a pass from [s1] whose restart test fails *)
  clear D Es ND. destruct (prepare c i s1) as [s2|s2|] eqn:Ep; [| |discriminate].
  - assert (R2 : restarts s2 = restarts s1).
    { unfold prepare in Ep. cbv zeta in Ep. destruct (_ <=? _).
      - destruct (i_lin_ok i); injection Ep as <-; reflexivity.
      - destruct (_ =? _); [|injection Ep as <-; reflexivity].
        destruct (_ && stale _ _); [discriminate|]. destruct (_ && _)%bool; [discriminate|].
        destruct (stale _ _); [discriminate|]. destruct (negb _); [discriminate|].
        destruct (ref_iterate_index _); [|discriminate]. destruct (stale _ _); [discriminate|].
        injection Ep as <-. destruct (_ =? _); reflexivity. }
    destruct (negb (search_guard c _)); [discriminate|].
    set (s3 := emit _ s2) in *.
    assert (R3 : restarts s3 = restarts s2).
    { unfold s3, restarts, emit. cbn [trace]. unfold count_ev. rewrite filter_app, app_length. cbn. lia. }
    assert (CR : forall s4 pr, restarts s4 = restarts s3 -> conclude c i s4 pr l = Cont s' l' -> restarts s1 <= restarts s').
    { intros s4 pr R4 HC. unfold conclude in HC. cbv zeta in HC.
      assert (KE : forall a b, end_of_pass c a = Ok b -> restarts b = restarts a).
      { intros a b E. apply quiet_end in E. now apply quiet_restarts. }
      match type of HC with match ?d with _ => _ end = _ => destruct d as [[|]|] end.
      3: discriminate.
      - destruct (end_of_pass c _) as [s5|] eqn:E5 in HC; [|discriminate]. injection HC as <- <-.
        apply KE in E5. rewrite E5. cbn. unfold restarts in *. cbn [trace set_R set_C advance_st]. lia.
      - destruct (option_map _ pr) as [p|].
        + destruct (evaluate c i p _ s4 l) as [[s5 l5]|] eqn:E5; cbn [bind fst snd] in HC; [|discriminate].
          destruct (after_eval c i s5) as [s6|] eqn:E6; cbn [bind] in HC; [|discriminate].
          destruct (end_of_pass c s6) as [s7|] eqn:E7; cbn [bind] in HC; [|discriminate].
          injection HC as <- <-. apply KE in E7. apply eval_restarts in E5. apply quiet_after, quiet_restarts in E6. lia.
        + destruct (end_of_pass c _) as [s5|] eqn:E5 in HC; [|discriminate]. injection HC as <- <-.
          apply KE in E5. rewrite E5. cbn. unfold restarts in *. cbn [trace set_R set_C advance_st]. lia. }
    destruct (search c i s3) as [s4 pr|s4|] eqn:E4; [| |discriminate].
    + apply (CR s4 pr); [|exact H]. unfold search in E4. cbv zeta in E4.
      destruct (_ =? restoration_step c).
      * destruct (restoration_search c i s3) as [[[p r]|]|]; [| |discriminate].
        -- destruct (remove_node r s3) as [s5|] eqn:E5; [|discriminate]. injection E4 as <- _.
           unfold remove_node in E5. destruct (_ <? _)%nat; [|discriminate]. injection E5 as <-. reflexivity.
        -- destruct (_ && _); [discriminate|]. destruct (restart c i s3); discriminate.
      * destruct (_ =? local_search_step c); [|injection E4 as <- _; reflexivity].
        destruct (local_result c i s3) as [j|]; [|injection E4 as <- _; reflexivity].
        destruct (nth_error _ j); [|discriminate]. destruct (remove_node j s3) as [s5|] eqn:E5; [|discriminate].
        injection E4 as <- _. unfold remove_node in E5. destruct (_ <? _)%nat; [|discriminate]. injection E5 as <-. reflexivity.
    + injection H as <- <-. unfold search in E4. cbv zeta in E4.
      destruct (_ =? restoration_step c).
      * destruct (restoration_search c i s3) as [[[p r]|]|]; [| |discriminate].
        -- destruct (remove_node r s3); discriminate.
        -- destruct (_ && _).
           ++ injection E4 as <-. unfold restarts in *. cbn [trace set_C]. lia.
           ++ destruct (restart c i s3) as [s5|] eqn:E5; [|discriminate]. injection E4 as <-. apply restart_count in E5. lia.
      * destruct (_ =? local_search_step c); [|discriminate].
        destruct (local_result c i s3) as [j|]; [|discriminate].
        destruct (nth_error _ j); [|discriminate]. destruct (remove_node j s3) as [s5|] eqn:E5; discriminate.
  - injection H as <- <-. unfold prepare in Ep. cbv zeta in Ep. destruct (_ <=? _).
    { destruct (i_lin_ok i); discriminate. }
    destruct (_ =? _); [|discriminate].
    destruct (_ && stale _ _); [discriminate|]. destruct (_ && _)%bool; [discriminate|].
    destruct (stale _ _); [discriminate|]. destruct (negb _).
    + injection Ep as <-. destruct (_ =? _); unfold restarts; cbn; lia.
    + destruct (ref_iterate_index _); [|discriminate]. destruct (stale _ _); discriminate.
Qed.

(** ** Restoration *)
Lemma restoration_exact c i s : (0 <= min_dist c)%Q -> (0 <= init_sample_fraction c)%Q ->
  let k := length (node_pos (T s)) in
  forall fuel a, (k <= fuel + a)%nat ->
  match restoration c i s a (k - 1 - a) fuel with
  | Ok x => x = None /\ forall b, (a <= b)%nat -> attempted c k b -> i_restore i b <> None
  | Fail e => e = EAssert /\ exists b, (a <= b)%nat /\ attempted c k b /\ i_restore i b = None
  end.
Proof.
  intros Hd Hf k.
  assert (F : (0 <= init_sample_fraction c * inject_Z (Z.of_nat (n c) + 1))%Q).
  { apply Qmult_le_0_compat; [exact Hf|]. change 0%Q with (inject_Z 0). rewrite <- Zle_Qle. lia. }
  assert (Small : forall b, attempted c k b -> (b + 1 < k)%nat).
  { intros b (_ & L). assert (X : (inject_Z 0 < inject_Z (Z.of_nat k - 1 - Z.of_nat b))%Q) by (eapply Qle_lt_trans; [exact F|exact L]).
    rewrite <- Zlt_Qlt in X. lia. }
  induction fuel as [|f IH]; intros a Hk; cbn [restoration].
  - split; [reflexivity|]. intros b Hb A. apply Small in A. lia.
  - assert (G : forall b : nat, (a <= b)%nat -> attempted c k b ->
        ((Z.of_nat a <? max_consecutive_restoration c) &&
         Qltb (init_sample_fraction c * inject_Z (Z.of_nat (n c) + 1)) (inject_Z (Z.of_nat (k - 1 - a))))%bool = true).
    { intros b Hb A. pose proof (Small b A) as Sb. destruct A as [A1 A2]. apply andb_true_iff. split; [apply Z.ltb_lt; lia|].
      apply Qltb_lt. eapply Qlt_le_trans; [exact A2|]. rewrite <- Zle_Qle. lia. }
    destruct (_ && _)%bool eqn:E.
    2: { split; [reflexivity|]. intros b Hb A. pose proof (G b Hb A) as X. discriminate X. }
    apply andb_true_iff in E. destruct E as [E1 E2]. apply Z.ltb_lt in E1. apply Qltb_lt in E2.
    assert (Ha : (a + 1 < k)%nat).
    { assert (X : (inject_Z 0 < inject_Z (Z.of_nat (k - 1 - a)))%Q) by (eapply Qle_lt_trans; [exact F|exact E2]).
      rewrite <- Zlt_Qlt in X. lia. }
    assert (A : attempted c k a).
    { split; [exact E1|]. replace (Z.of_nat k - 1 - Z.of_nat a) with (Z.of_nat (k - 1 - a)) by lia. exact E2. }
    destruct (i_restore i a) as [[p b0]|] eqn:Er.
    + rewrite near_self; [|assumption|apply in_or_app; right; left; reflexivity].
      cbn [negb andb]. replace (k - 1 - a - 1)%nat with (k - 1 - S a)%nat by lia.
      specialize (IH (S a) ltac:(lia)).
      destruct (restoration c i s (S a) (k - 1 - S a) f) as [x|e].
      * destruct IH as [-> IH]. split; [reflexivity|]. intros b Hb Ab.
        destruct (Nat.eq_dec b a) as [->|N]; [rewrite Er; discriminate|]. apply IH; [lia|exact Ab].
      * destruct IH as (-> & b & Hb & Ab & Nb). split; [reflexivity|]. exists b. split; [lia|]. auto.
    + split; [reflexivity|]. exists a. auto.
Qed.
Lemma restoration_result c i s : (0 <= min_dist c)%Q -> (0 <= init_sample_fraction c)%Q ->
  match restoration_search c i s with
  | Ok x => x = None /\ forall b, attempted c (length (node_pos (T s))) b -> i_restore i b <> None
  | Fail e => e = EAssert /\ exists b, attempted c (length (node_pos (T s))) b /\ i_restore i b = None
  end.
Proof.
  intros Hd Hf. unfold restoration_search.
  pose proof (restoration_exact c i s Hd Hf (length (node_pos (T s))) 0%nat ltac:(lia)) as H. cbv zeta in H.
  rewrite Nat.sub_0_r in H. destruct (restoration c i s 0 _ _).
  - destruct H as [H1 H2]. split; [exact H1|]. intros b. apply H2. lia.
  - destruct H as (H1 & b & _ & H2 & H3). split; [exact H1|]. exists b. auto.
Qed.

(** ** Parallel *)
Lemma plan_exact c q P : let s := p_s P in
  (disabled c s -> plan c q P = Ok (PcHead, set_s (advance_st c s) P)) /\
  (~ disabled c s -> ~ restart_due c (discarded_window_size c * num_cpus c) s -> plan c q P = Ok (PcPlan2, P)) /\
  (~ disabled c s -> restart_due c (discarded_window_size c * num_cpus c) s -> ~ nobody_working P -> plan c q P = Ok (PcHead, P)) /\
  (~ disabled c s -> restart_due c (discarded_window_size c * num_cpus c) s -> nobody_working P -> plan c q P = restart_begin c q WMid P).
Proof.
  cbv zeta. rewrite <- disabled_iff, <- parallel_due_iff, <- nobody_iff. unfold plan. cbv zeta.
  destruct (skip_step c (C (p_s P))), (must_restart_parallel c (C (p_s P))), (idle (p_k P)); repeat split; try tauto; congruence.
Qed.

(** ** Estimates of pending evaluations *)
Lemma between_app l l' v : in_range_of l v -> in_range_of (l ++ l') v.
Proof. intros [(a & A1 & A2) (b & B1 & B2)]. split; [exists a|exists b]; split; auto; apply in_or_app; auto. Qed.
Lemma clip_between v s : incumbents_ok s -> node_val (T s) <> [] -> in_range_of (node_val (T s)) (clip_val v s).
Proof.
  intros [[(Hi & Hmin & _) Ef] (w & Ew & (x & Hx & Exw) & Hw) _ _ _] Hne. unfold clip_val. rewrite Ef, Ew.
  set (f := nth _ _ _) in *. assert (Hf : In f (node_val (T s))) by (apply nth_In; exact Hi).
  assert (Hfw : (f <= w)%Q) by (apply Hw; exact Hf).
  split.
  - exists f. split; [exact Hf|]. apply Q.min_glb; [apply Q.le_max_r|exact Hfw].
  - exists x. split; [exact Hx|]. rewrite Exw. apply Q.le_min_r.
Qed.
Lemma vals_ne s : incumbents_ok s -> node_val (T s) <> [].
Proof. intros [[(Hi & _) _] _ _ _ _] E. rewrite E in Hi. cbn in Hi. lia. Qed.
Definition estimates_ok (P : pst) : Prop := Forall (in_range_of (node_val (T (p_s P)))) (tval (p_k P)).
Definition est_inv (m : pc) (P : pst) : Prop :=
  match m with PcWait _ _ => True | PcFinal => True | PcDone => True | PcCrash _ => True | _ => estimates_ok P end.
Lemma est_frame P P' l : node_val (T (p_s P')) = node_val (T (p_s P)) ++ l -> Forall (in_range_of (node_val (T (p_s P)))) (tval (p_k P')) ->
  estimates_ok P'.
Proof. intros E H. unfold estimates_ok. rewrite E. eapply Forall_impl; [|exact H]. intros v. apply between_app. Qed.
Lemma Forall_delete {A} (R : A -> Prop) j l : Forall R l -> Forall R (delete_at j l).
Proof. rewrite !Forall_forall. intros H x Hx. apply H. eapply delete_at_incl; eauto. Qed.
Lemma popped_tval j nz e k : tval (popped j nz e k) = delete_at j (tval k).
Proof. unfold popped. destruct nz; reflexivity. Qed.
Lemma est_step pc0 q m P m' P' (ok : pin -> Prop) : has_noisy (base pc0) = false -> preach pc0 ok m P -> ok q -> no_error m ->
  pstep pc0 q m P = (m', P') -> no_error m' -> est_inv m P -> est_inv m' P'.
Proof.
  intros Hn HR Hok N H N' HI. assert (HR' : preach pc0 ok m' P') by (eapply pr_step; eauto).
  pose proof (pstep_effect _ _ _ _ _ _ H N') as E.
  destruct E as [-> -> -> _| -> -> -> _|b -> -> Hm| -> -> Hm| -> -> ->|kind w w' -> -> -> Ew Hw|b j -> -> E|j -> -> E|Hm E|j kind w w' -> -> E|kind w -> E|t r -> -> Ep E| -> -> Ep ->];
    try exact HI; try exact Logic.I.
  - destruct Hm as [(-> & _)|(-> & _)]; exact HI.
  - destruct Hm as [(-> & _)|(-> & _)]; exact HI.
  - pose proof (par_incumbents pc0 ok _ P Hn HR N ltac:(intros ? ? ?; discriminate)) as IO.
    unfold est_inv in *. destruct E as [t v el eu _ _ _ Es _ _ _ Ek|t v el eu _ _ _ _ _ Es _ _ _ Ek|t v el eu t' _ _ _ _ _ _ Q _ _ _ _ Ek|t v el eu _ _ _ _ _ Q _ _ _ _ SL _ _].
    + apply (est_frame P P' []); [rewrite Es, app_nil_r; reflexivity|]. rewrite Ek, popped_tval. now apply Forall_delete.
    + apply (est_frame P P' []); [rewrite Es, app_nil_r; reflexivity|]. rewrite Ek. cbn [k_tabu tval]. rewrite popped_tval. now apply Forall_delete.
    + apply (est_frame P P' []); [rewrite (q_T _ _ Q), app_nil_r; reflexivity|]. rewrite Ek. cbn [k_push tval]. rewrite popped_tval.
      apply Forall_app. split; [now apply Forall_delete|]. constructor; [|constructor]. apply clip_between; [exact IO|now apply vals_ne].
    + apply (est_frame P P' [v]); [rewrite (q_T _ _ Q); reflexivity|]. rewrite (sl_tval _ _ SL), popped_tval. now apply Forall_delete.
  - pose proof (par_incumbents pc0 ok _ P Hn HR N ltac:(intros ? ? ?; discriminate)) as IO.
    unfold est_inv in *. destruct E as [e P1 _ -> ->|e p id P1 P2 _ _ -> HRe HU _ _].
    + unfold discard_search. destruct (s_id e); exact HI.
    + destruct HRe as [->|Hc|? ? Hc]; try congruence.
      destruct HU as [Q _ _ _ _ SL _ _|p1 po jj v nz e1 _ _ _ _ _ _ _ _ _ Q _ _ _ _ SL _ _|p1 po _ _ _ _ _ ->].
      * apply (est_frame P P' []); [rewrite (q_T _ _ Q), app_nil_r; reflexivity|]. rewrite (sl_tval _ _ SL). exact HI.
      * apply (est_frame P P' [v]); [rewrite (q_T _ _ Q); reflexivity|]. rewrite (sl_tval _ _ SL). exact HI.
      * unfold submit_point, estimates_ok. cbn [p_s p_k note set_next set_k set_s set_C T k_push tval].
        apply Forall_app. split; [exact HI|]. constructor; [|constructor]. apply clip_between; [exact IO|now apply vals_ne].
  - assert (HP : estimates_ok P) by (destruct Hm as [->| ->]; exact HI).
    destruct E as [k' Hm' Q1 It En El Ek SL Eb Elc|id bad k' -> Q1 It En El Ek I1 I2 SL Eb Eb2 Elc|kind w P0 Hk -> Hi Q1 It En El Ek B].
    + assert (X : estimates_ok P').
      { apply (est_frame P P' []); [rewrite (q_T _ _ Q1), app_nil_r; reflexivity|]. rewrite Ek, (sl_tval _ _ SL). exact HP. }
      destruct Hm' as [->| ->]; exact X.
    + apply (est_frame P P' []); [rewrite (q_T _ _ Q1), app_nil_r; reflexivity|]. rewrite Ek, (sl_tval _ _ SL). exact HP.
    + exact Logic.I.
  - assert (W : m' = PcPlan2 \/ m' = PcHead) by (pose proof (fe_m _ _ _ _ _ _ _ E) as F; destruct kind; auto).
    assert (IO : incumbents_ok (p_s P')).
    { eapply par_incumbents; eauto. destruct W as [->| ->]; intros ? ? ?; discriminate. }
    enough (X : estimates_ok P') by (destruct W as [->| ->]; exact X).
    cbn [pstep] in H. apply finish_ok in H; [|exact N'].
    assert (HF : restart_finish (base pc0) q kind w P = Ok (m', P')).
    { unfold wait_step in H. cbv zeta in H. destruct (_ && _); [exact H|].
      destruct (ready q (w_pend w)) as [j|].
      - destruct (take_init q j w P) as [[w1 P1]|]; cbn [bind fst snd] in H; [|discriminate]. injection H as <- <-. destruct W; discriminate.
      - destruct (_ <=? _); [exact H|]. injection H as <- <-. destruct W; discriminate. }
    clear H. unfold restart_finish in HF. cbv zeta in HF.
    destruct (restart_user _ _ _ _) as [[usr uevs] nu].
    destruct ((map snd (w_got w) ++ w_prev w) ++ usr) as [|e0 rest]; [discriminate|].
    destruct (current_gap _ _) as [g|]; cbn [bind] in HF; [|discriminate].
    destruct (length (e0 :: rest) =? 1)%nat; [discriminate|].
    destruct (negb _ && _); [discriminate|].
    unfold estimates_ok. assert (Y : exists v, tval (p_k P') = map (fun _ => clip_val v (p_s P')) (w_pend w)).
    { exists (q_pred q). destruct kind; injection HF as <- <-; reflexivity. }
    destruct Y as (v & ->). rewrite Forall_forall. intros x Hx. apply in_map_iff in Hx. destruct Hx as (y & <- & _).
    apply clip_between; [exact IO|now apply vals_ne].
Qed.
Lemma est_reach pc0 ok m P : has_noisy (base pc0) = false -> preach pc0 ok m P -> no_error m -> est_inv m P.
Proof.
  intros Hn HR. induction HR as [q pa m P Hok H|q pa P0 m P Hok HR IH H|q m0 P0 m P Hok HR IH H]; intros N.
  - pose proof (pstart_effect _ _ _ _ _ _ H N) as [w It -> B|It -> Es El En SL Eb Ei Ep Eg]; [exact Logic.I|].
    unfold est_inv, estimates_ok. rewrite (sl_tval _ _ SL). constructor.
  - pose proof (pstart_effect _ _ _ _ _ _ H N) as [w It -> B|It -> Es El En SL Eb Ei Ep Eg]; [exact Logic.I|].
    unfold est_inv, estimates_ok. rewrite (sl_tval _ _ SL). constructor.
  - assert (N0 : no_error m0).
    { intros e ->. cbn in H. injection H as <- <-. now apply (N e). }
    eapply est_step; eauto.
Qed.

(** ** Re-evaluation *)
Lemma same_point_iff p q : same_point p q = true <-> Forall2 Qeq p q.
Proof.
  revert q. induction p as [|x p IH]; intros [|y q]; cbn; split; intros H; try discriminate; try constructor; try (now inversion H).
  - apply andb_true_iff in H. now apply Qeq_bool_iff.
  - apply andb_true_iff in H. now apply IH.
  - inversion H; subst. apply andb_true_iff. split; [now apply Qeq_bool_iff|now apply IH].
Qed.
Lemma find_point_spec p : forall ps i, match find_point p i ps with
  | Some j => (i <= j < i + length ps)%nat /\ Forall2 Qeq (nth (j - i) ps []) p /\
              forall b, (b < j - i)%nat -> ~ Forall2 Qeq (nth b ps []) p
  | None => forall x, In x ps -> ~ Forall2 Qeq x p end.
Proof.
  induction ps as [|x ps IH]; intros i; cbn [find_point].
  - intros x [].
  - destruct (same_point x p) eqn:E.
    + rewrite Nat.sub_diag. cbn [length nth]. split; [lia|]. split; [now apply same_point_iff|]. intros b Hb. lia.
    + assert (NE : ~ Forall2 Qeq x p) by (rewrite <- same_point_iff, E; discriminate).
      specialize (IH (S i)). destruct (find_point p (S i) ps) as [j|].
      * destruct IH as (A & B & D). cbn [length]. split; [lia|]. replace (j - i)%nat with (S (j - S i)) by lia. cbn [nth].
        split; [exact B|]. intros [|b] Hb; [exact NE|]. apply D. lia.
      * intros y [->|Hy]; auto.
Qed.
Lemma reevaluate_row c p ind P P' : reevaluate c p ind P = Ok P' ->
  (exists j, row_meant (node_pos (T (p_s P))) ind p j /\
     p_log P' = p_log P ++ [PUnrow (nodes_at_restart (T (p_s P)) + j)] /\ T (p_s P') = tabs_remove j (T (p_s P))) \/
  ((forall j, ~ holds_point (node_pos (T (p_s P))) j p) /\ p_log P' = p_log P /\ p_s P' = p_s P).
Proof.
  unfold reevaluate. cbv zeta. set (ps := node_pos (T (p_s P))).
  assert (D : forall j P1, bind (remove_node j (p_s P)) (fun s' => Ok (note [PUnrow (nodes_at_restart (T (p_s P)) + j)] (set_s s' P))) = Ok P1 ->
    p_log P1 = p_log P ++ [PUnrow (nodes_at_restart (T (p_s P)) + j)] /\ T (p_s P1) = tabs_remove j (T (p_s P))).
  { intros j P1 H. unfold remove_node in H. destruct (_ <? _)%nat; cbn [bind] in H; [|discriminate]. injection H as <-. auto. }
  destruct ((ind <? length ps)%nat && same_point (nth ind ps []) p) eqn:E.
  - intros H. apply D in H. left. exists ind. split; [|exact H]. left. split; [reflexivity|].
    apply andb_true_iff in E. destruct E as [E1 E2]. apply Nat.ltb_lt in E1. apply same_point_iff in E2. split; assumption.
  - assert (NH : ~ holds_point ps ind p).
    { intros [H1 H2]. apply Nat.ltb_lt in H1. apply same_point_iff in H2. rewrite H1, H2 in E. discriminate. }
    pose proof (find_point_spec p ps 0%nat) as F. destruct (find_point p 0 ps) as [j|].
    + destruct F as (F1 & F2 & F3). rewrite Nat.sub_0_r in *.
      destruct (bind (remove_node j (p_s P)) _) as [P1|] eqn:EB; cbn [bind]; [|discriminate].
      intros H; injection H as <-. apply D in EB. left. exists j. split; [|exact EB]. right. split; [exact NH|].
      split; [split; [lia|exact F2]|]. intros b Hb [_ H]. exact (F3 b Hb H).
    + intros H; injection H as <-. right. split; [|split; reflexivity]. intros j [H1 H2]. apply (F (nth j ps [])); [now apply nth_In|exact H2].
Qed.
Lemma use_log c q p nz id P P' : use_eff c q p nz id P P' -> exists es, p_log P' = p_log P ++ es /\ no_removal_in es.
Proof.
  intros [? ? ? ? El|? ? ? ? ? ? _ _ _ _ _ _ _ _ _ _ _ _ _ El|? ? _ _ _ _ _ ->].
  - exists []. rewrite app_nil_r. split; [exact El|]. intros j [].
  - eexists. split; [exact El|]. intros j [Hj|[]]. discriminate.
  - eexists. split; [reflexivity|]. intros j [Hj|[]]. discriminate.
Qed.
Lemma reeval_step pc0 q P m' P' j0 e p ind :
  pstep pc0 q PcSearches P = (m', P') -> no_error m' -> q_pick q = Some j0 -> nth_error (srch (p_k P)) j0 = Some e ->
  q_ans q = AReeval p ind -> s_id e = SLocal -> s_noisy e = false -> has_noisy (base pc0) = true ->
  exists es, no_removal_in es /\
  ((exists j, row_meant (node_pos (T (p_s P))) ind p j /\
      p_log P' = p_log P ++ PUnrow (nodes_at_restart (T (p_s P)) + j) :: es) \/
   ((forall j, ~ holds_point (node_pos (T (p_s P))) j p) /\ p_log P' = p_log P ++ es)).
Proof.
  intros H N Hq He Ha Hi Hs Hn. cbn [pstep] in H. unfold ready in H. rewrite Hq in H.
  assert (L : (j0 < length (srch (p_k P)))%nat) by (apply nth_error_Some; congruence).
  apply Nat.ltb_lt in L. rewrite L in H.
  destruct (take_search (base pc0) q j0 P) as [P1|] eqn:E; cbn [bind finish_step] in H.
  2: { injection H as <- _. exfalso. eapply N. reflexivity. }
  injection H as <- <-. unfold take_search in E. rewrite He in E. cbv zeta in E.
  destruct (s_bad e); [discriminate|]. rewrite Ha, Hi, Hs, Hn in E. cbn [andb negb] in E.
  set (P0 := set_k _ P) in E. destruct (reevaluate (base pc0) p ind P0) as [P2|] eqn:ER; cbn [bind] in E; [|discriminate].
  apply use_point_eff, use_log in E. destruct E as (es & El & Hes). exists es. split; [exact Hes|].
  apply reevaluate_row in ER. destruct ER as [(j & HR & HL & _)|(HR & HL & _)].
  - left. exists j. split; [exact HR|]. rewrite El, HL, <- app_assoc. reflexivity.
  - right. split; [exact HR|]. rewrite El, HL. reflexivity.
Qed.
Lemma other_no_removal pc0 q P m m' P' : pstep pc0 q m P = (m', P') -> no_error m' ->
  (has_noisy (base pc0) = false \/ m <> PcSearches) -> exists es, p_log P' = p_log P ++ es /\ no_removal_in es.
Proof.
  intros H N Hn. pose proof (pstep_effect _ _ _ _ _ _ H N) as E.
  assert (Z : exists es, p_log P = p_log P ++ es /\ no_removal_in es).
  { exists []. rewrite app_nil_r. split; [reflexivity|]. intros j []. }
  assert (O : forall P1, p_log P1 = p_log P -> exists es, p_log P1 = p_log P ++ es /\ no_removal_in es) by (intros P1 ->; exact Z).
  destruct E as [-> -> -> _| -> -> -> _|b -> -> Hm| -> -> Hm| -> -> ->|kind w w' -> -> -> Ew Hw|b j -> -> E|j -> -> E|Hm E|j kind w w' -> -> E|kind w -> E|t r -> -> Ep E| -> -> Ep ->];
    try exact Z.
  - destruct E as [t v el eu _ _ _ Es _ _ El Ek|t v el eu _ _ _ _ _ Es _ _ El Ek|t v el eu t' _ _ _ _ _ _ Q _ _ _ El Ek|t v el eu _ _ _ _ _ Q _ _ _ El SL _ _];
      eexists; (split; [exact El|]); intros x Hx; cbn in Hx; intuition discriminate.
  - destruct Hn as [Hn|Hn]; [|congruence].
    destruct E as [e P1 _ -> ->|e p id P1 P2 _ _ -> HRe HU _ _].
    + apply O. unfold discard_search. destruct (s_id e); reflexivity.
    + destruct HRe as [->|Hc|? ? Hc]; try congruence. now apply use_log in HU.
  - destruct E as [k' Hm' Q1 It En El Ek SL Eb Elc|id bad k' -> Q1 It En El Ek I1 I2 SL Eb Eb2 Elc|kind w P0 Hk -> Hi Q1 It En El Ek B]; auto.
    destruct B as [(new & prev & nb & _ & _ & _ & _ & _ & _ & _ & _ & _ & _ & _ & _ & _ & EL & _) _ _].
    rewrite EL, El. eexists. split; [reflexivity|]. intros x Hx. apply in_map_iff in Hx. destruct Hx as (y & Hy & _). discriminate.
  - destruct E as [(t & v & el & eu & _ & _ & _ & _ & _ & _ & EL) _ _ _ _]. rewrite EL. eexists. split; [reflexivity|]. intros x [Hx|[]]. discriminate.
  - destruct E as [(usr & uevs & nu & rows & _ & _ & _ & _ & _ & _ & _ & _ & EL & _) _ _ _ _ _ _ _ _ _ _].
    rewrite EL. eexists. split; [reflexivity|]. intros x Hx.
    apply in_app_or in Hx. destruct Hx as [Hx|Hx]; [apply in_map_iff in Hx; destruct Hx as (y & Hy & _); discriminate|].
    apply in_app_or in Hx. destruct Hx as [Hx|Hx]; [apply in_map_iff in Hx; destruct Hx as (y & Hy & _); discriminate|].
    unfold user_log in Hx. destruct (0 <? nu).
    + apply in_flat_map in Hx. destruct Hx as (y & _ & Hy). cbn in Hy. intuition discriminate.
    + apply in_map_iff in Hx; destruct Hx as (y & Hy & _); discriminate.
  - rewrite (fi_log _ _ _ _ _ _ E). eexists. split; [reflexivity|]. intros x [Hx|[Hx|[]]]; discriminate.
Qed.
