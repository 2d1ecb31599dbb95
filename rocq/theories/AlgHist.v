(** * Stalling (C22), discard window (C78), displayed gap (C79), history (C20). *)
From Verif Require Export AlgSched.
From Coq Require Import Lia Lqa.
Open Scope Z_scope.

Definition is_restart (e : event) : bool := match e with EvRestart => true | _ => false end.
Definition restarts (s : st) : Z := count_ev is_restart (trace s).
Definition same_stall (s s' : st) : Prop :=
  num_stalled_iter (C s') = num_stalled_iter (C s) /\
  fmin_stall_check (C s') = fmin_stall_check (C s).

(** The specification: [stall eps r0 n0 fs r n]: starting from reference [r0] and
    [n0] stalled iterations, after iterations ending with best values [fs] the reference
    is [r] and [n] iterations stalled. *)
Inductive stall (eps : Q) : option Q -> Z -> list (option Q) -> option Q -> Z -> Prop :=
| stall_nil : forall r n, stall eps r n [] r n
| stall_improved : forall r0 n0 fs r n f,
    stall eps r0 n0 fs (Some r) n -> (f <= r - eps * Qmax 1 (Qabs r))%Q ->
    stall eps r0 n0 (fs ++ [Some f]) (Some f) 0
| stall_not : forall r0 n0 fs r n f,
    stall eps r0 n0 fs (Some r) n -> (r - eps * Qmax 1 (Qabs r) < f)%Q ->
    stall eps r0 n0 (fs ++ [Some f]) (Some r) (n + 1).

(** Closed form: the counter is the number of iterations after the last improving one. *)
Lemma stall_closed eps r0 n0 fs r n : stall eps r0 n0 fs r n ->
  exists a b, fs = a ++ b /\
    n = (match a with [] => n0 | _ => 0 end) + Z.of_nat (length b) /\
    r = last a r0 /\
    Forall (fun f => exists x y, f = Some x /\ r = Some y /\ (y - eps * Qmax 1 (Qabs y) < x)%Q) b /\
    (a <> [] -> exists a' x y m, a = a' ++ [Some x] /\ stall eps r0 n0 a' (Some y) m /\
                (x <= y - eps * Qmax 1 (Qabs y))%Q).
Proof.
  induction 1 as [r n|r0 n0 fs r n f H IH Hi|r0 n0 fs r n f H IH Hi].
  - exists [], []. cbn. repeat split; auto; try lia. intros; congruence.
  - exists (fs ++ [Some f]), []. rewrite app_nil_r. repeat split; auto.
    + destruct fs; reflexivity.
    + now rewrite last_last.
    + intros _. exists fs, f, r, n. auto.
  - destruct IH as (a & b & -> & -> & Hr & HF & Ha). exists a, (b ++ [Some f]).
    rewrite app_assoc. repeat split; auto.
    + rewrite app_length. cbn. destruct a; lia.
    + apply Forall_app; split; [assumption|]. constructor; [|constructor]. exists f, r. auto.
Qed.

Lemma improves_iff eps f r : improves eps f r = true <-> (f <= r - eps * Qmax 1 (Qabs r))%Q.
Proof. unfold improves. apply Qle_bool_true. Qed.

Lemma same_stall_refl s : same_stall s s.
Proof. split; reflexivity. Qed.
Lemma same_stall_trans a b d : same_stall a b -> same_stall b d -> same_stall a d.
Proof. intros (A & B) (E & F). split; congruence. Qed.

Lemma restart_count c i s s' : restart c i s = Ok s' -> restarts s' = restarts s + 1.
Proof.
  intros H. destruct (restart_trace _ _ _ _ H) as (es & Ht & _ & _ & Hn).
  unfold restarts. rewrite Ht, count_ev_app, count_ev_cons. cbn [is_restart].
  rewrite (count_ev_none is_restart es); [lia|]. intros e He. destruct e; try reflexivity. contradiction.
Qed.
Lemma quiet_restarts s s' : quiet s s' -> restarts s' = restarts s.
Proof.
  intros Hq. destruct (q_trace _ _ Hq) as (es & Ht & Hs). unfold restarts. rewrite Ht, count_ev_app.
  rewrite (count_ev_silent is_restart es); [lia| |assumption]. intros e. destruct e; cbn; tauto.
Qed.
Lemma eval_restarts c i p po s l s' l' : evaluate c i p po s l = Ok (s', l') -> restarts s' = restarts s.
Proof.
  intros H. destruct (eval_trace _ _ _ _ _ _ _ _ H) as (es & Ht & He).
  unfold restarts. rewrite Ht, count_ev_app, (count_ev_none is_restart es); [lia|].
  intros e Hin. destruct (He e Hin) as [E|E]; destruct e; try discriminate; reflexivity.
Qed.

(** A pass without restart: either the iteration is not completed and nothing changes, or
    the counter is updated with the new best value. *)
Lemma pass_stall c i s l s' l' : pass c i s l = Cont s' l' -> restarts s' = restarts s ->
  (itercount (C s') = itercount (C s) /\ same_stall s s') \/
  (itercount (C s') = itercount (C s) + 1 /\
   exists sm, same_stall s sm /\ I s' = I sm /\ same_stall (stalling_update c sm) s').
Proof.
  intros H Hr.
  pose (P := fun x => restarts s < restarts x \/
             restarts x = restarts s /\ itercount (C x) = itercount (C s) /\ same_stall s x).
  assert (PQ : forall x y, quiet x y -> itercount (C y) = itercount (C x) -> same_stall x y -> P x -> P y).
  { intros x y Hq Hi Hs. unfold P. rewrite (quiet_restarts _ _ Hq), Hi.
    intros [?|(? & ? & ?)]; [auto|]. right. split; [auto|]. split; [auto|]. eapply same_stall_trans; eauto. }
  assert (E : ends c P s').
  { refine (fine_pass_end c any_inp P _ _ _ _ _ _ _ _ _ _ _ i s l s' l' Logic.I H _).
    - intros x _. apply PQ; [apply quiet_advance|apply advance_iter|].
      split; [apply (advance_ctrs c (C x))|apply (advance_ctrs c (C x))].
    - intros j x y _ HH. apply restart_count in HH. unfold P. intros [?|(? & _)]; left; lia.
    - intros x _. apply PQ; [apply quiet_set_step|reflexivity|split; reflexivity].
    - intros x r. apply PQ; [apply quiet_set_R|reflexivity|split; reflexivity].
    - intros x _. apply PQ; [apply quiet_cycle_step|reflexivity|split; reflexivity].
    - intros x _. apply PQ; [apply quiet_emit_step|reflexivity|split; reflexivity].
    - intros x _. apply PQ; [apply quiet_underdet|apply (advance_iter c x)|].
      split; apply (advance_ctrs c (C x)).
    - intros j x y HH. apply remove_fields in HH. destruct HH as (_ & _ & _ & HC & _ & Ht).
      unfold P, restarts, same_stall. rewrite HC, Ht. auto.
    - intros j p x lx y ly _ _ HH. pose proof (eval_restarts _ _ _ _ _ _ _ _ HH) as Hx.
      destruct (eval_ctrs _ _ _ _ _ _ _ _ HH) as (a & b & HC).
      unfold P, same_stall. rewrite Hx, HC. auto.
    - intros j x y HH. apply PQ; [eapply quiet_after; eauto|eapply after_iter; eauto|].
      apply after_fields in HH. split; tauto.
    - intros x. apply PQ.
      + eapply quiet_trans; [apply quiet_advance|].
        eapply quiet_trans; [apply quiet_disc|]. apply quiet_set_R.
      + apply (advance_iter c x).
      + split; apply (advance_ctrs c (C x)).
    - right. split; [reflexivity|]. split; [reflexivity|apply same_stall_refl]. }
  destruct E as [[E|(_ & E1 & E2)]|(sm & [E|(E0 & E1 & E2)] & He)].
  - lia.
  - left. auto.
  - pose proof (quiet_restarts _ _ (quiet_end _ _ _ He)). lia.
  - right. pose proof (end_iter _ _ _ He). split; [lia|]. exists sm. split; [exact E2|].
    split; [now apply end_fields in He|].
    unfold end_of_pass in He. cbv zeta in He. destruct (_ =? 0); [discriminate|].
    assert (Z : same_stall (stalling_update c sm) (phase_update c (stalling_update c
                  (set_C (set_iter (itercount (C sm) + 1) (C sm)) sm)))).
    { destruct (phase_fields c (stalling_update c (set_C (set_iter (itercount (C sm) + 1) (C sm)) sm)))
        as (_ & _ & _ & _ & _ & _ & _ & A & B). unfold same_stall. rewrite A, B.
      unfold stalling_update. cbn. destruct (fmin (I sm)), (fmin_stall_check (C sm)); cbn; auto.
      destruct (improves _ _ _); cbn; auto. }
    destruct (_ mod _ =? 0); inversion He; subst; exact Z.
Qed.

(** Passes without restart, with the best values at the ends of the completed iterations. *)
Inductive stretch (c : cfg) : st -> list (option Q) -> st -> loc -> Prop :=
| str_nil : forall s l, stretch c s [] s l
| str_pass : forall i s0 fs s l s' l', stretch c s0 fs s l ->
    pass c i s l = Cont s' l' -> restarts s' = restarts s ->
    stretch c s0 (fs ++ if itercount (C s') =? itercount (C s) then [] else [fmin (I s')]) s' l'.

(** In reachable states the reference value is finite: no comparison with inf. *)
Lemma ref_some_reach c ok s l : reach c ok s l ->
  (exists r, fmin_stall_check (C s) = Some r) /\ (exists f, fmin (I s) = Some f).
Proof.
  pose (P := fun x : st => (exists r, fmin_stall_check (C x) = Some r) /\ (exists f, fmin (I x) = Some f)).
  assert (PS : forall x y, fmin_stall_check (C y) = fmin_stall_check (C x) -> fmin (I y) = fmin (I x) ->
    P x -> P y).
  { intros x y H1 H2 (A & B). unfold P. rewrite H1, H2. auto. }
  assert (PR : forall i x y, restart c i x = Ok y -> P y).
  { intros i x y HH. destruct (restart_step _ _ _ _ HH) as (_ & _ & _ & Hf & _).
    apply restart_effect in HH.
    destruct HH as [(gen & evs & na & nn & usr & uevs & nu & _ & _ & _ & _ & _ & _ & HI & _)].
    destruct HI as (_ & HI & _). unfold P. rewrite Hf, HI. cbn. eauto. }
  assert (PP : forall i x lx y ly, pass c i x lx = Cont y ly -> P x -> P y).
  { intros i x lx y ly. refine (fine_pass c any_inp P _ _ _ _ _ _ _ _ _ _ _ _ i x lx y ly Logic.I).
    - intros a _. apply PS; [apply (advance_ctrs c (C a))|reflexivity].
    - intros j a b _ HH _. eapply PR; eauto.
    - intros a _. now apply PS.
    - intros a r. now apply PS.
    - intros a _. now apply PS.
    - intros a _. now apply PS.
    - intros a _. apply PS; [apply (advance_ctrs c (C a))|reflexivity].
    - intros j a b HH. apply remove_fields in HH. destruct HH as (_ & _ & HI & HC & _). apply PS; congruence.
    - intros j p a la b lb _ _ HH (A & (f & B)). apply evaluate_sum in HH.
      destruct HH as (v & noisy & e & es & [_ _ (_ & HI & _) HC _ _ _ _ _]). unfold P. rewrite HC, HI.
      split; [exact A|]. cbn. destruct (xlt v (fmin (I a))); eauto.
    - intros j a b HH. apply after_fields in HH. destruct HH as (_ & HI & _ & _ & HC & _). apply PS; congruence.
    - intros a. apply PS; [apply (advance_ctrs c (C a))|reflexivity].
    - intros a b HH (A & B). unfold P. destruct (end_fields _ _ _ HH) as (_ & HI & _). rewrite HI.
      split; [|exact B]. unfold end_of_pass in HH. cbv zeta in HH. destruct (_ =? 0); [discriminate|].
      set (s1 := set_C (set_iter (itercount (C a) + 1) (C a)) a) in *.
      assert (Z : exists r, fmin_stall_check (C (phase_update c (stalling_update c s1))) = Some r).
      { destruct (phase_fields c (stalling_update c s1)) as (_ & _ & _ & _ & _ & _ & _ & _ & ->).
        unfold stalling_update. cbn. destruct A as (r & ->), B as (f & ->).
        destruct (improves _ _ _); cbn; eauto. }
      destruct (_ mod _ =? 0); inversion HH; subst; exact Z. }
  intros H. change (P s). induction H as [i0 pa s l _ H|i0 pa s0 l0 s l _ HR IH H|i s0 l0 s l _ HR IH H].
  - unfold start_call in H. cbn [itercount C init_st ctrs0] in H. rewrite Z.eqb_refl in H.
    destruct (restart c i0 _) as [s1|] eqn:E; cbn [bind] in H; [|discriminate].
    destruct (current_gap c s1); cbn [bind] in H; [|discriminate]. inversion H; subst. eauto.
  - unfold start_call in H. destruct (itercount (C s0) =? 0).
    + destruct (restart c i0 _) as [s1|] eqn:E; cbn [bind] in H; [|discriminate].
      destruct (current_gap c s1); cbn [bind] in H; [|discriminate]. inversion H; subst. eauto.
    + cbn [bind] in H. destruct (current_gap c s0); cbn [bind] in H; [|discriminate].
      inversion H; subst. exact IH.
  - eauto.
Qed.

Lemma stretch_stall c s0 fs s l :
  stretch c s0 fs s l ->
  (exists r, fmin_stall_check (C s0) = Some r) -> (exists f, fmin (I s0) = Some f) ->
  stall (eps_impr c) (fmin_stall_check (C s0)) (num_stalled_iter (C s0)) fs
        (fmin_stall_check (C s)) (num_stalled_iter (C s)) /\
  (exists r, fmin_stall_check (C s) = Some r).
Proof.
  intros H (r0 & Hr0) (f0 & Hf0). induction H as [s l|i s0 fs s l s' l' H IH Hp Hr].
  - split; [constructor|eauto].
  - destruct (IH Hr0 Hf0) as (IH1 & (r & IH2)).
    destruct (pass_stall _ _ _ _ _ _ Hp Hr) as [(Hi & A & B)|(Hi & sm & (A & B) & HI & (D & E))].
    + rewrite Hi, Z.eqb_refl, app_nil_r, A, B. eauto.
    + replace (itercount (C s') =? itercount (C s)) with false by (symmetry; apply Z.eqb_neq; lia).
      rewrite D, E. unfold stalling_update. rewrite <- HI, B, IH2.
      (* the best value is finite: it was before, and passes keep it finite *)
      assert (Hf : exists f, fmin (I s') = Some f).
      { clear - Hp Hf0 H Hr. 
        assert (M : forall i x lx y ly, pass c i x lx = Cont y ly ->
                 (exists f, fmin (I x) = Some f) -> exists f, fmin (I y) = Some f).
        { clear. intros i x lx y ly.
          refine (pass_preserves c any_inp (fun x => exists f, fmin (I x) = Some f) _ _ _ _ i x lx y ly Logic.I).
          - intros a b Hq (f & Hf). destruct (q_I _ _ Hq) as (_ & -> & _). eauto.
          - intros j a b _ HH _. apply restart_effect in HH.
            destruct HH as [(gen & evs & na & nn & usr & uevs & nu & _ & _ & _ & _ & _ & _ & HI & _)].
            destruct HI as (_ & HI & _). rewrite HI. cbn. eauto.
          - intros j a b _ HH. apply remove_fields in HH. destruct HH as (_ & _ & -> & _). auto.
          - intros j q a la b lb _ _ _ HH (f & Hf). apply evaluate_sum in HH.
            destruct HH as (v & noisy & e & es & [_ _ (_ & HI & _) HC _ _ _ _ _]). rewrite HI. cbn.
            destruct (xlt v (fmin (I a))); eauto. }
        assert (M2 : forall fs s l, stretch c s0 fs s l -> exists f, fmin (I s) = Some f).
        { induction 1; eauto. }
        eapply M; eauto. }
      destruct Hf as (f & Hf). rewrite Hf. rewrite IH2 in IH1.
      destruct (improves (eps_impr c) f r) eqn:Ei; cbn.
      * split; [|eauto]. apply improves_iff in Ei. eapply stall_improved; eauto.
      * split; [|eauto]. rewrite A. eapply stall_not; eauto.
        destruct (Qlt_le_dec (r - eps_impr c * Qmax 1 (Qabs r)) f) as [?|Hle]; [assumption|].
        apply improves_iff in Hle. congruence.
Qed.

(** ** C78: window of recent outcomes *)
Definition last_n {A} (m : nat) (l : list A) : list A := skipn (length l - m) l.
Lemma push_window_last {A} m (l : list A) x : push_window m l x = last_n m (l ++ [x]).
Proof. reflexivity. Qed.
Lemma last_n_length {A} m (l : list A) : length (last_n m l) = Nat.min m (length l).
Proof. unfold last_n. rewrite skipn_length. lia. Qed.
Lemma skipn_skipn' {A} a : forall b (l : list A), skipn a (skipn b l) = skipn (a + b) l.
Proof.
  intros b. induction b as [|b IH]; intros l; [now rewrite Nat.add_0_r|].
  destruct l as [|x l]; [now rewrite !skipn_nil|]. rewrite <- Nat.add_succ_comm. cbn. apply IH.
Qed.
Lemma last_n_snoc {A} m (l : list A) x : last_n m (last_n m l ++ [x]) = last_n m (l ++ [x]).
Proof.
  unfold last_n at 1. rewrite app_length, last_n_length. cbn [length]. unfold last_n.
  destruct (Nat.le_gt_cases m (length l)) as [H|H].
  - replace (Nat.min m (length l) + 1 - m)%nat with 1%nat by lia.
    rewrite app_length. cbn [length].
    replace (length l + 1 - m)%nat with (1 + (length l - m))%nat by lia.
    rewrite !skipn_app, skipn_skipn', skipn_length. f_equal. f_equal. lia.
  - replace (Nat.min m (length l) + 1 - m)%nat with 0%nat by lia.
    rewrite app_length. cbn [length].
    replace (length l + 1 - m)%nat with 0%nat by lia. replace (length l - m)%nat with 0%nat by lia. reflexivity.
Qed.

Lemma window_reach c ok s l : reach c ok s l -> (length (discarded (C s)) <= window c)%nat.
Proof.
  apply (fine_reach c ok (fun s => (length (discarded (C s)) <= window c)%nat)); cbn beta.
  - intros a _. change (C (advance_st c a)) with (advance c (C a)).
    destruct (advance_ctrs c (C a)) as (_ & _ & _ & _ & _ & _ & _ & ->). auto.
  - intros j a b _ HH _. destruct (restart_step _ _ _ _ HH) as (_ & _ & _ & _ & -> & _). cbn. lia.
  - auto.
  - auto.
  - auto.
  - auto.
  - intros a _. cbn -[advance].
    destruct (advance_ctrs c (C a)) as (_ & _ & _ & _ & _ & _ & _ & ->). auto.
  - intros j a b HH. apply remove_fields in HH. destruct HH as (_ & _ & _ & -> & _). auto.
  - intros j p a la b lb _ _ HH. destruct (eval_ctrs _ _ _ _ _ _ _ _ HH) as (x & y & ->). auto.
  - intros j a b HH _. apply after_fields in HH. destruct HH as (_ & _ & _ & _ & _ & ->).
    rewrite push_window_last, last_n_length. lia.
  - intros a _.
    change (discarded (C (discard_st c a))) with (push_window (window c) (discarded (advance c (C a))) true).
    rewrite push_window_last, last_n_length. lia.
  - intros a b HH. apply end_fields in HH. destruct HH as (_ & _ & _ & _ & _ & _ & -> & _). auto.
  - cbn. lia.
Qed.

(** Why the outcome [b] of an iteration is pushed: [true] for a discarded proposal (no
    record made), [false] for a new record. *)
Definition outcome_of (c : cfg) (t t' : tabs) (b : bool) : Prop :=
  if b then t' = t else exists p v noisy e, t' = tabs_add p (to_orig c p) v noisy e t.

Lemma conclude_window c i s prop l s' l' : conclude c i s prop l = Cont s' l' ->
  exists b, discarded (C s') = last_n (window c) (discarded (C s) ++ [b]) /\
            outcome_of c (T s) (T s') b.
Proof.
  unfold conclude. cbv zeta. intros H.
  assert (D : match end_of_pass c (discard_st c s) with Ok s4 => Cont s4 l | Fail e => Crash e end
              = Cont s' l' -> exists b, discarded (C s') = last_n (window c) (discarded (C s) ++ [b]) /\
            outcome_of c (T s) (T s') b).
  { destruct (end_of_pass c (discard_st c s)) as [s4|] eqn:E; [|discriminate].
    intros HH; inversion HH; subst. apply end_fields in E.
    destruct E as (E1 & _ & _ & _ & _ & _ & E2 & _). exists true. cbn [outcome_of]. rewrite E1, E2.
    split; [|reflexivity].
    change (discarded (C (discard_st c s))) with (push_window (window c) (discarded (advance c (C s))) true).
    destruct (advance_ctrs c (C s)) as (_ & _ & _ & _ & _ & _ & _ & ->). reflexivity. }
  destruct prop as [q|]; cbn [option_map] in H; [|apply D; exact H].
  destruct (node_pos (T s)) as [|x xs] eqn:En; [discriminate|].
  destruct (near (min_dist c) (clip q (l_lower c) (l_upper c)) (x :: xs)) eqn:Enear;
    [apply D; exact H|].
  destruct (evaluate c i _ _ s l) as [[s1 l1]|] eqn:Ee; cbn [bind fst snd] in H; [|discriminate].
  destruct (after_eval c i s1) as [s2|] eqn:Ea; cbn [bind] in H; [|discriminate].
  destruct (end_of_pass c s2) as [s3|] eqn:Eend; cbn [bind] in H; [|discriminate].
  inversion H; subst. exists false.
  apply end_fields in Eend. destruct Eend as (E1 & _ & _ & _ & _ & _ & E2 & _).
  apply after_fields in Ea. destruct Ea as (A1 & _ & _ & _ & _ & A2).
  apply evaluate_sum in Ee.
  destruct Ee as (v & noisy & e & es & [_ HT _ HC _ _ _ _ _]).
  rewrite E2, A2, HC. split; [reflexivity|]. cbn. rewrite E1, A1, HT. do 4 eexists. reflexivity.
Qed.

Lemma pass_window c i s l s' l' : pass c i s l = Cont s' l' -> restarts s' = restarts s ->
  (itercount (C s') = itercount (C s) /\ discarded (C s') = discarded (C s) /\ T s' = T s) \/
  (itercount (C s') = itercount (C s) + 1 /\ exists b,
     discarded (C s') = last_n (window c) (discarded (C s) ++ [b]) /\
     (no_removal c -> outcome_of c (T s) (T s') b)).
Proof.
  unfold pass. intros H Hr.
  destruct (negb (loop_cond c s l (i_clock_ok i))); [discriminate|].
  destruct (skip_step c (C s)) eqn:Esk.
  { inversion H; subst. left. split; [apply advance_iter|].
    split; [apply (advance_ctrs c (C s))|reflexivity]. }
  destruct (if must_restart c (C s) then restart c i s else Ok s) as [s1|] eqn:E1;
    [|discriminate].
  assert (R1 : restarts s <= restarts s1 /\ (restarts s1 = restarts s -> s1 = s)).
  { destruct (must_restart c (C s)).
    - apply restart_count in E1. split; [lia|]. intros; lia.
    - inversion E1; subst. split; [lia|auto]. }
  destruct R1 as (R1 & R2).
  assert (PR : forall p x, prepare c i s1 = p -> prep_state p = Some x ->
     T x = T s1 /\ discarded (C x) = discarded (C s1) /\ itercount (C x) = itercount (C s1) /\
     restarts x = restarts s1).
  { intros p x Hp Hx.
    refine (fine_prepare c (fun x => T x = T s1 /\ discarded (C x) = discarded (C s1) /\
      itercount (C x) = itercount (C s1) /\ restarts x = restarts s1) _ _ _ i s1 x _ _);
      try (rewrite Hp; exact Hx); cbn; auto. }
  destruct (prepare c i s1) as [s2|s2|e] eqn:E2; [| |discriminate].
  2: { inversion H; subst. destruct (PR _ _ eq_refl eq_refl) as (P1 & P2 & P3 & P4).
       rewrite P4 in Hr. rewrite R2 in * by assumption. left. auto. }
  destruct (PR _ _ eq_refl eq_refl) as (P1 & P2 & P3 & P4). clear PR.
  set (s3 := emit [EvStep (current_step (C s2))] s2) in *.
  assert (R3 : restarts s3 = restarts s2).
  { unfold restarts, s3. cbn [trace emit]. rewrite count_ev_app, count_ev_cons, count_ev_nil. cbn. lia. }
  destruct (negb (search_guard c _)); [discriminate|].
  assert (Fin : forall s4 prop, C s4 = C s3 -> (no_removal c -> T s4 = T s3) ->
     restarts s4 = restarts s3 -> conclude c i s4 prop l = Cont s' l' ->
     itercount (C s') = itercount (C s) + 1 /\ exists b,
     discarded (C s') = last_n (window c) (discarded (C s) ++ [b]) /\
     (no_removal c -> outcome_of c (T s) (T s') b)).
  { intros s4 prop HC4 HT4 HR4 Hc.
    assert (restarts s' = restarts s4).
    { apply conclude_effect in Hc. destruct Hc as [sx Hq _|q0 p0 s5 l5 s6 _ _ _ He Hq _].
      - now apply quiet_restarts in Hq.
      - apply quiet_restarts in Hq. apply eval_restarts in He. lia. }
    assert (s1 = s) by (apply R2; lia). subst s1.
    pose proof (conclude_window _ _ _ _ _ _ _ Hc) as (b & B1 & B2).
    apply conclude_effect in Hc.
    split. { destruct Hc; rewrite HC4 in *; unfold s3 in *; cbn in *; lia. }
    exists b. rewrite B1, HC4. unfold s3. cbn [C emit]. rewrite P2. split; [reflexivity|].
    intros Hn. rewrite (HT4 Hn) in B2. unfold s3 in B2. cbn [T emit] in B2. now rewrite P1 in B2. }
  unfold search in H. cbv zeta in H.
  destruct (current_step (C s3) =? restoration_step c) eqn:Er.
  { destruct (restoration_search c i s3) as [[[p r]|]|e] eqn:E; [| |discriminate].
    - destruct (remove_node r s3) eqn:Erm; [|discriminate]. right.
      apply remove_fields in Erm. destruct Erm as (_ & _ & _ & HC & _ & Ht).
      apply (Fin _ _ HC) in H; [exact H| |unfold restarts; now rewrite Ht].
      intros (_ & Hd). exfalso. unfold restoration_search in E. cbv zeta in E.
      apply restoration_none in E; [discriminate|assumption].
    - destruct (_ && _).
      + inversion H; subst. left.
        assert (s1 = s).
        { apply R2. unfold restarts in *. cbn [trace set_C] in Hr. lia. }
        subst s1. cbn -[advance].
        destruct (advance_ctrs c (C s2)) as (-> & _ & _ & _ & _ & _ & _ & ->). auto.
      + destruct (restart c i s3) as [s4|] eqn:Ers; [|discriminate]. inversion H; subst. apply restart_count in Ers. lia. }
  destruct (current_step (C s3) =? local_search_step c).
  { destruct (local_result c i s3) as [j|] eqn:El.
    - destruct (nth_error (node_pos (T s3)) j); [|discriminate].
      destruct (remove_node j s3) eqn:Erm; [|discriminate]. right.
      apply remove_fields in Erm. destruct Erm as (_ & _ & _ & HC & _ & Ht).
      apply (Fin _ _ HC) in H; [exact H| |unfold restarts; now rewrite Ht].
      intros (Hn & _). exfalso. unfold local_result in El. rewrite Hn in El. discriminate.
    - right. eapply Fin; eauto. }
  right. eapply Fin; eauto.
Qed.

(** The window after a stretch of passes without restart. *)
Lemma pass_restart_reason c i s l s' l' : pass c i s l = Cont s' l' -> restarts s' <> restarts s ->
  (must_restart c (C s) = true) \/ (i_lin_ok i = false /\ current_step (C s) <= local_search_step c)
  \/ current_step (C s) = restoration_step c.
Proof.
  unfold pass. intros H Hr.
  destruct (negb (loop_cond c s l (i_clock_ok i))); [discriminate|].
  destruct (skip_step c (C s)) eqn:Esk. { inversion H; subst. exfalso. apply Hr. reflexivity. }
  destruct (must_restart c (C s)); [auto|]. right.
  destruct (Z.eq_dec (current_step (C s)) (restoration_step c)) as [?|Hne]; [auto|]. left.
  unfold prepare in H. cbv zeta in H.
  destruct (current_step (C s) <=? local_search_step c) eqn:El.
  - destruct (i_lin_ok i); [|split; [reflexivity|now apply Z.leb_le]]. exfalso.
    destruct (negb (search_guard c _)); [discriminate|].
    set (s3 := emit [EvStep (current_step (C s))] s) in *.
    assert (R3 : restarts s3 = restarts s).
    { unfold restarts, s3. cbn [trace emit]. rewrite count_ev_app, count_ev_cons, count_ev_nil. cbn. lia. }
    assert (CR : forall s4 prop, restarts s4 = restarts s3 -> conclude c i s4 prop l = Cont s' l' -> False).
    { intros s4 prop H4 Hc. apply conclude_effect in Hc. destruct Hc as [sx Hq _|q0 p0 s5 l5 s6 _ _ _ He Hq _].
      - apply quiet_restarts in Hq. lia.
      - apply quiet_restarts in Hq. apply eval_restarts in He. lia. }
    unfold search in H. cbv zeta in H. change (current_step (C s3)) with (current_step (C s)) in H.
    replace (current_step (C s) =? restoration_step c) with false in H by (symmetry; now apply Z.eqb_neq).
    destruct (current_step (C s) =? local_search_step c).
    + destruct (local_result c i s3) as [j|].
      * destruct (nth_error _ j); [|discriminate]. destruct (remove_node j s3) eqn:Erm; [|discriminate].
        apply remove_fields in Erm. destruct Erm as (_ & _ & _ & _ & _ & Ht). eapply CR; [|exact H].
        unfold restarts. now rewrite Ht.
      * eapply CR; [|exact H]. reflexivity.
    + eapply CR; [|exact H]. reflexivity.
  - exfalso.
    assert (Hp : forall x, prep_state (prepare c i s) = Some x -> quiet s x) by apply quiet_prepare.
    unfold prepare in Hp. cbv zeta in Hp. rewrite El in Hp.
    match type of H with match ?p with _ => _ end = _ => destruct p as [s2|s2|e] eqn:Ep end; [| |discriminate].
    2: { inversion H; subst. specialize (Hp s' eq_refl). apply quiet_restarts in Hp. lia. }
    specialize (Hp s2 eq_refl). 
    assert (Hst : current_step (C s2) = current_step (C s)).
    { destruct (current_step (C s) =? refinement_step c); [|inversion Ep; reflexivity].
      repeat match type of Ep with
      | (if ?b then _ else _) = _ => destruct b; try discriminate
      | match ?b with Some _ => _ | None => _ end = _ => destruct b; try discriminate
      end; inversion Ep; subst; cbn; try reflexivity;
        destruct (num_cons_refinement (Rf s) =? 0); reflexivity. }
    apply quiet_restarts in Hp.
    destruct (negb (search_guard c _)); [discriminate|].
    set (s3 := emit [EvStep (current_step (C s2))] s2) in *.
    assert (R3 : restarts s3 = restarts s2).
    { unfold restarts, s3. cbn [trace emit]. rewrite count_ev_app, count_ev_cons, count_ev_nil. cbn. lia. }
    assert (CR : forall s4 prop, restarts s4 = restarts s3 -> conclude c i s4 prop l = Cont s' l' -> False).
    { intros s4 prop H4 Hc. apply conclude_effect in Hc. destruct Hc as [sx Hq _|q0 p0 s5 l5 s6 _ _ _ He Hq _].
      - apply quiet_restarts in Hq. lia.
      - apply quiet_restarts in Hq. apply eval_restarts in He. lia. }
    unfold search in H. cbv zeta in H. change (current_step (C s3)) with (current_step (C s2)) in H.
    rewrite Hst in H.
    replace (current_step (C s) =? restoration_step c) with false in H by (symmetry; now apply Z.eqb_neq).
    replace (current_step (C s) =? local_search_step c) with false in H
      by (symmetry; apply Z.eqb_neq; apply Z.leb_gt in El; lia).
    eapply CR; [|exact H]. reflexivity.
Qed.
