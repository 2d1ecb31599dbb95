(** * Why [optimize] stops: proofs of C146 (serial). *)
From Verif Require Export SpecStop.
From Verif Require Import DomainProofs.
From Verif Require Import AlgFrame AlgPause AlgGlue ModelAlg.
From Coq Require Import Lia Lqa.
Open Scope Z_scope.

Lemma within_gap c v : (0 < eps_zero c)%Q -> (within_target c v <-> (compute_gap c v <= eps_opt c)%Q).
Proof.
  intros H. unfold within_target. pose proof (gap_le c v (eps_opt c) H) as G.
  destruct (gap_den_cases c) as [[L E]|[L E]]; rewrite E in G; rewrite G; clear G.
  - split; [intros (A & _); auto|]. intros A. split; [auto|]. intros F. exfalso. apply (Qlt_not_le _ _ F L).
  - split; [intros (_ & A); specialize (A L); lra|]. intros A. split; [|intros _; lra].
    intros F. exfalso. apply (Qlt_not_le _ _ L F).
Qed.
Lemma within_le c v w : within_target c v -> (w <= v)%Q -> within_target c w.
Proof. intros (A & B) H. split; intros X; [specialize (A X)|specialize (B X)]; lra. Qed.

Lemma gap_gt_false c g : gap_gt c g = false <-> exists x, g = Some x /\ (x <= eps_opt c)%Q.
Proof.
  unfold gap_gt. destruct g as [x|]; [|split; [discriminate|intros (x & X & _); discriminate]].
  split.
  - intros H. exists x. split; [reflexivity|]. apply Qnot_lt_le. intros F. unfold Qltb in H.
    destruct (Qle_bool x (eps_opt c)) eqn:E; [apply Qle_bool_iff in E; lra|discriminate].
  - intros (y & E & H). inversion E; subst. unfold Qltb. apply Qle_bool_iff in H. rewrite H. reflexivity.
Qed.
Lemma loop_cond_false c s l b : loop_cond c s l b = false <->
  limit_reached c (it_start l) (pause l) s b \/ exists g, gap l = Some g /\ (g <= eps_opt c)%Q.
Proof.
  rewrite <- (gap_gt_false c (gap l)). unfold loop_cond, limit_reached.
  rewrite !andb_false_iff, !Z.ltb_ge.
  split.
  - intros [[[[[[H|H]|H]|H]|H]|H]|H]; auto 10.
    destruct (search_space_size c) as [z|]; [|discriminate]. apply Z.ltb_ge in H. left. do 3 right. left. eauto.
  - intros [[H|[H|[H|[(z & E & H)|[H|H]]]]]|H]; auto 10.
    rewrite E. apply Z.ltb_ge in H. auto 10.
Qed.
Lemma pass_stop c i s l : pass c i s l = Stop <-> loop_cond c s l (i_clock_ok i) = false.
Proof.
  split.
  - unfold pass. destruct (loop_cond c s l (i_clock_ok i)); [|reflexivity]. cbn [negb].
    destruct (skip_step c (C s)); [discriminate|].
    destruct (if must_restart c (C s) then restart c i s else Ok s) as [s1|]; [|discriminate].
    destruct (prepare c i s1); [|discriminate|discriminate].
    destruct (negb _); [discriminate|]. destruct (search c i _); [|discriminate|discriminate].
    unfold conclude. destruct (option_map _ _) as [q|]; [|destruct (end_of_pass c _); discriminate].
    destruct (node_pos (T s2)); [discriminate|].
    destruct (near _ _ _); [destruct (end_of_pass c _); discriminate|].
    match goal with |- context [match ?b with Ok _ => _ | Fail _ => _ end] => destruct b as [[? ?]|]; discriminate end.
  - unfold pass. intros ->. reflexivity.
Qed.

(** ** The gap always belongs to a value of the history *)
Definition gap_real (c : cfg) (s : st) (l : loc) : Prop :=
  forall g, gap l = Some g -> exists v, In v (all_val (T s)) /\ (compute_gap c v <= g)%Q.
Lemma gap_real_grow c s l s' : no_removal c -> grows c s s' -> gap_real c s l -> gap_real c s' l.
Proof.
  intros N G H g E. destruct (H g E) as (v & A & B). exists v. split; [|exact B].
  destruct (gr_hist _ _ _ G N) as (a & b & d & e & _ & X & _). rewrite X. apply in_or_app. auto.
Qed.
Lemma fresh_value c ok s l : has_noisy c = false -> (0 <= min_dist c)%Q -> reach c ok s l ->
  exists v p, result s = Some (v, p) /\ current_gap c s = Ok (Some (compute_gap c (v + 0)%Q)) /\
    fbest (I s) = Some v /\ (forall x, In x (all_val (T s)) -> (v <= x)%Q) /\ In v (all_val (T s)).
Proof.
  intros H1 H2 HR. destruct (incumbents_spec c ok s l H1 H2 HR) as (_ & ((F1 & F2 & F3) & FB) & _).
  pose proof (aligned_reach c ok s l HR) as A. apply aligned_lengths in A.
  set (j := fbest_index (I s)) in *.
  assert (Hj : (j < length (all_pos (T s)))%nat) by (unfold point in *; lia).
  pose proof (single_phase_spec c ok s l j H1 H2 HR Hj) as FL.
  pose proof (flags_spec c ok s l j HR Hj FL) as FE.
  assert (HL : (j < length (all_err (T s)))%nat) by (unfold point in *; lia).
  assert (NE : all_val (T s) <> []) by (destruct (all_val (T s)); [cbn in F1; lia|discriminate]).
  destruct (argmin_spec (all_val (T s)) NE) as (G1 & G2 & G3).
  assert (EJ : argmin (all_val (T s)) = j).
  { set (a := argmin (all_val (T s))) in *. destruct (lt_eq_lt_dec a j) as [[X|X]|X]; [|exact X|].
    - specialize (F3 a X). specialize (G2 j F1). lra.
    - specialize (G3 j X). specialize (F2 a G1). lra. }
  exists (nth j (all_val (T s)) 0%Q), (nth j (all_pos (T s)) []).
  split.
  { unfold result. destruct (all_val (T s)); [congruence|]. rewrite EJ. reflexivity. }
  split.
  { unfold current_gap. fold j. rewrite (nth_error_nth' _ (1,1)%Q HL), FE, FB. reflexivity. }
  split; [exact FB|]. split; [|apply nth_In; exact F1].
  intros x Hx. apply (In_nth _ _ 0%Q) in Hx. destruct Hx as (k & Hk & <-). apply F2. exact Hk.
Qed.
Lemma gap_plus0 c v : (compute_gap c (v + 0) == compute_gap c v)%Q.
Proof. unfold compute_gap. apply Qdiv_comp; [ring|reflexivity]. Qed.
Lemma fresh_real c ok s l : has_noisy c = false -> (0 <= min_dist c)%Q -> reach c ok s l -> fresh c s l -> gap_real c s l.
Proof.
  intros H1 H2 HR HF g E. destruct (fresh_value c ok s l H1 H2 HR) as (v & p & _ & A & _ & _ & B).
  unfold fresh in HF. rewrite HF in A. inversion A as [X]. rewrite E in X. inversion X; subst g.
  exists v. split; [exact B|]. rewrite gap_plus0. lra.
Qed.
(** A pass leaves the gap alone or ends with an up-to-date one. *)
Lemma pass_gap c i s l s' l' : pass c i s l = Cont s' l' -> no_removal c ->
  gap l' = gap l /\ all_pos (T s') = all_pos (T s) \/ gap l' = gap l /\ restarts s <> restarts s' \/ fresh c s' l'.
Proof.
  unfold pass. intros H (N1 & N2).
  destruct (negb (loop_cond c s l (i_clock_ok i))); [discriminate|].
  destruct (skip_step c (C s)); [inversion H; subst; left; auto|].
  destruct (if must_restart c (C s) then restart c i s else Ok s) as [s1|] eqn:E1; [|discriminate].
  assert (R1 : restarts s <= restarts s1 /\ (restarts s1 = restarts s -> s1 = s)).
  { destruct (must_restart c (C s)).
    - apply restart_count in E1. split; [lia|]. intros; lia.
    - inversion E1; subst. split; [lia|auto]. }
  destruct R1 as (R1 & R2).
  assert (D : forall s'' , quiet s1 s'' -> all_pos (T s'') = all_pos (T s) \/ restarts s <> restarts s'').
  { intros s'' Hq. pose proof (quiet_restarts _ _ Hq).
    destruct (Z.eq_dec (restarts s1) (restarts s)) as [X|X]; [left|right; lia].
    rewrite (q_T _ _ Hq), (R2 X). reflexivity. }
  pose proof (quiet_prepare c i s1) as Qp.
  destruct (prepare c i s1) as [s2|s2|e] eqn:E2; [| |discriminate].
  2: { inversion H; subst. specialize (Qp s' eq_refl). destruct (D _ Qp); auto. }
  specialize (Qp s2 eq_refl).
  pose proof (quiet_emit_step s2 (current_step (C s2))) as Qe.
  set (s3 := emit [EvStep (current_step (C s2))] s2) in *.
  assert (Q3 : quiet s1 s3) by (eapply quiet_trans; eauto). clear Qp Qe.
  destruct (negb (search_guard c s3)); [discriminate|].
  pose proof (quiet_restarts _ _ Q3) as R3.
  pose proof (search_effect c i s3) as Hs.
  destruct Hs as [s4 Hq|s4 Hrs|Hne|j p s4 Hn Hm Hst Hj Hp Hd|r p s4 Hneg Hd|e].
  - inversion H; subst. destruct (D s'); [eapply quiet_trans; eauto| |]; auto.
  - inversion H; subst. apply restart_count in Hrs. right. left. split; [reflexivity|]. lia.
  - apply conclude_effect in H. destruct H as [sx Hq _|q0 p0 s5 l5 s6 _ _ _ He Hq _].
    + destruct (D sx); [eapply quiet_trans; eauto| |]; auto.
    + right. right. unfold fresh. rewrite (gap_quiet _ _ _ Hq). apply evaluate_sum in He.
      destruct He as (v & noisy & e & es & [_ _ _ _ _ _ Hg _ _]). exact Hg.
  - congruence.
  - lra.
  - discriminate.
Qed.
Lemma gap_real_reach c ok s l : has_noisy c = false -> (0 <= min_dist c)%Q -> reach c ok s l -> gap_real c s l.
Proof.
  intros H1 H2 HR. induction HR as [i0 pa s l Hi Hs|i0 pa s0 l0 s l Hi HR IH Hs|i s0 l0 s l Hi HR IH Hp].
  - apply (fresh_real c ok); auto; [econstructor; eauto|eapply start_fresh; eauto].
  - apply (fresh_real c ok); auto; [eapply reach_again; eauto|eapply start_fresh; eauto].
  - assert (HR' : reach c ok s l) by (eapply reach_pass; eauto).
    assert (K : gap l = gap l0 -> gap_real c s l).
    { intros X g E. rewrite X in E. exact (gap_real_grow _ _ _ _ (conj H1 H2) (pass_grows _ _ _ _ _ _ Hp) IH g E). }
    destruct (pass_gap _ _ _ _ _ _ Hp (conj H1 H2)) as [(X & _)|[(X & _)|X]]; [auto|auto|].
    exact (fresh_real c ok s l H1 H2 HR' X).
Qed.

Lemma stop_is_real c ok i s l : has_noisy c = false -> (0 <= min_dist c)%Q -> (0 < eps_zero c)%Q -> reach c ok s l ->
  pass c i s l = Stop -> limit_reached c (it_start l) (pause l) s (i_clock_ok i) \/ target_met c s.
Proof.
  intros H1 H2 H3 HR H. apply pass_stop in H. apply loop_cond_false in H. destruct H as [H|(g & E & L)]; [auto|right].
  destruct (gap_real_reach c ok s l H1 H2 HR g E) as (w & A & B).
  destruct (fresh_value c ok s l H1 H2 HR) as (v & p & R & _ & _ & M & _).
  exists v, p. split; [exact R|]. apply (within_le c w); [|apply M; exact A].
  apply within_gap; [exact H3|]. lra.
Qed.
Lemma fresh_stops c ok i s l : has_noisy c = false -> (0 <= min_dist c)%Q -> (0 < eps_zero c)%Q -> reach c ok s l ->
  fresh c s l -> target_met c s -> pass c i s l = Stop.
Proof.
  intros H1 H2 H3 HR HF (v & p & R & W). apply pass_stop. apply loop_cond_false. right.
  destruct (fresh_value c ok s l H1 H2 HR) as (v' & p' & R' & A & _). rewrite R in R'. inversion R'; subst v' p'.
  unfold fresh in HF. rewrite HF in A. inversion A as [X]. eexists. split; [exact X|].
  rewrite gap_plus0. apply within_gap; assumption.
Qed.
Lemma run_done c : forall is s l s', run c is s l = Done s' -> exists pre i post l',
  is = pre ++ i :: post /\ run c pre s l = Running s' l' /\ pass c i s' l' = Stop.
Proof.
  induction is as [|i r IH]; intros s l s' H; cbn in H; [discriminate|].
  destruct (pass c i s l) as [s1 l1| |e] eqn:E; [|inversion H; subst|discriminate].
  - destruct (IH _ _ _ H) as (pre & j & post & l' & -> & A & B). exists (i :: pre), j, post, l'.
    split; [reflexivity|]. split; [|exact B]. cbn. rewrite E. exact A.
  - exists [], i, r, l. split; [reflexivity|]. split; [reflexivity|exact E].
Qed.
Lemma pass_locals c i s l s' l' : pass c i s l = Cont s' l' -> it_start l' = it_start l /\ pause l' = pause l.
Proof.
  unfold pass. intros H.
  destruct (negb (loop_cond c s l (i_clock_ok i))); [discriminate|].
  destruct (skip_step c (C s)); [inversion H; subst; auto|].
  destruct (if must_restart c (C s) then restart c i s else Ok s) as [s1|]; [|discriminate].
  destruct (prepare c i s1) as [s2|s2|e]; [|inversion H; subst; auto|discriminate].
  destruct (negb _); [discriminate|]. destruct (search c i _) as [s4 q|s4|e]; [|inversion H; subst; auto|discriminate].
  unfold conclude in H. destruct (option_map _ _) as [p|]; [|destruct (end_of_pass c _); inversion H; subst; auto].
  destruct (node_pos (T s4)); [discriminate|].
  destruct (near _ _ _); [destruct (end_of_pass c _); inversion H; subst; auto|].
  destruct (evaluate c i p (to_orig c p) s4 l) as [[sa la]|] eqn:E; cbn [bind fst snd] in H; [|discriminate].
  destruct (after_eval c i sa) as [sb|]; cbn [bind] in H; [|discriminate].
  destruct (end_of_pass c sb); cbn [bind] in H; [|discriminate]. inversion H; subst.
  apply evaluate_effect in E. destruct E as (v & no & e & s0 & g & _ & _ & _ & _ & A & B). auto.
Qed.
Lemma run_locals c : forall is s l s' l', run c is s l = Running s' l' -> it_start l' = it_start l /\ pause l' = pause l.
Proof.
  induction is as [|i r IH]; intros s l s' l' H; cbn in H; [inversion H; auto|].
  destruct (pass c i s l) as [s1 l1| |e] eqn:E; try discriminate.
  destruct (pass_locals _ _ _ _ _ _ E), (IH _ _ _ _ H). split; congruence.
Qed.
Lemma start_locals c i0 pa s0 s l : start_call c i0 pa s0 = Ok (s, l) -> it_start l = itercount (C s0) /\ pause l = pa.
Proof.
  unfold start_call. destruct (if _ : bool then _ else _) as [s1|]; cbn [bind]; [|discriminate].
  destruct (current_gap c s1); cbn [bind]; [|discriminate]. intros H; inversion H; subst. auto.
Qed.
Lemma run_reach_at c (ok : inp -> Prop) : forall is s l s' l', Forall ok is -> reach c ok s l ->
  run c is s l = Running s' l' -> reach c ok s' l'.
Proof.
  induction is as [|i is IH]; intros s l s' l' HF HR H; cbn in H; [inversion H; subst; exact HR|].
  inversion HF; subst. destruct (pass c i s l) as [s1 l1| |e] eqn:E; try discriminate.
  apply (IH s1 l1); [assumption| |exact H]. eapply reach_pass; eauto.
Qed.
Lemma call_stops c (ok : inp -> Prop) i0 pa is s0 l0 s' : has_noisy c = false -> (0 <= min_dist c)%Q -> (0 < eps_zero c)%Q ->
  ok i0 -> Forall ok is -> s0 = init_st c \/ reach c ok s0 l0 -> call c i0 pa is s0 = Done s' ->
  exists i, In i is /\ (limit_reached c (itercount (C s0)) pa s' (i_clock_ok i) \/ target_met c s').
Proof.
  intros H1 H2 H3 O1 O2 HS H. unfold call in H.
  destruct (start_call c i0 pa s0) as [[s l]|] eqn:E; [|discriminate].
  destruct (run_done _ _ _ _ _ H) as (pre & i & post & l' & -> & A & B).
  exists i. split; [apply in_or_app; right; left; reflexivity|].
  assert (HR : reach c ok s l) by (destruct HS as [->|HS]; [econstructor; eauto|eapply reach_again; eauto]).
  assert (HR' : reach c ok s' l').
  { apply Forall_app in O2. apply (run_reach_at c ok pre s l s' l'); [apply O2|exact HR|exact A]. }
  destruct (start_locals _ _ _ _ _ _ E) as (L1 & L2). destruct (run_locals _ _ _ _ _ _ A) as (L3 & L4).
  rewrite <- L1, <- L2, <- L3, <- L4. exact (stop_is_real c ok i s' l' H1 H2 H3 HR' B).
Qed.
(** ** Once the target is met *)
Lemma call_at_target c (ok : inp -> Prop) i0 pa i is s0 l0 : has_noisy c = false -> (0 <= min_dist c)%Q -> (0 < eps_zero c)%Q -> ok i0 ->
  reach c ok s0 l0 -> itercount (C s0) <> 0 -> target_met c s0 -> call c i0 pa (i :: is) s0 = Done s0.
Proof.
  intros H1 H2 H3 O HR NZ HT. destruct (start_call c i0 pa s0) as [[s l]|e] eqn:E.
  - assert (s = s0).
    { unfold start_call in E. destruct (Z.eqb_spec (itercount (C s0)) 0); [contradiction|]. cbn [bind] in E.
      destruct (current_gap c s0); cbn [bind] in E; [|discriminate]. inversion E; auto. }
    subst s. unfold call. rewrite E. cbn [run].
    assert (HR' : reach c ok s0 l) by (eapply reach_again; eauto).
    rewrite (fresh_stops c ok i s0 l H1 H2 H3 HR' (start_fresh _ _ _ _ _ _ E) HT). reflexivity.
  - unfold start_call in E. destruct (Z.eqb_spec (itercount (C s0)) 0); [contradiction|]. cbn [bind] in E.
    destruct (fresh_value c ok s0 l0 H1 H2 HR) as (v & p & _ & X & _). rewrite X in E. discriminate.
Qed.
Lemma eval_then_stop c (ok : inp -> Prop) i s l s' l' j : has_noisy c = false -> (0 <= min_dist c)%Q -> (0 < eps_zero c)%Q ->
  ok i -> reach c ok s l -> pass c i s l = Cont s' l' -> restarts_in (trace s') = restarts_in (trace s) ->
  all_pos (T s') <> all_pos (T s) -> target_met c s' -> pass c j s' l' = Stop.
Proof.
  intros H1 H2 H3 O HR HP NR NE HT. rewrite !restarts_in_eq in NR.
  assert (HR' : reach c ok s' l') by (eapply reach_pass; eauto).
  destruct (pass_gap _ _ _ _ _ _ HP (conj H1 H2)) as [(_ & X)|[(_ & X)|X]]; [congruence|congruence|].
  exact (fresh_stops c ok j s' l' H1 H2 H3 HR' X HT).
Qed.
Lemma no_restart_then_stop c (ok : inp -> Prop) i0 pa s0 l0 s l is sm lm j : has_noisy c = false -> (0 <= min_dist c)%Q -> (0 < eps_zero c)%Q ->
  ok i0 -> Forall ok is -> s0 = init_st c \/ reach c ok s0 l0 ->
  start_call c i0 pa s0 = Ok (s, l) -> run c is s l = Running sm lm -> restarts_in (trace sm) = restarts_in (trace s) ->
  target_met c sm -> pass c j sm lm = Stop.
Proof.
  intros H1 H2 H3 O1 O2 HS E A NR HT.
  assert (HR : reach c ok s l) by (destruct HS as [->|HS]; [econstructor; eauto|eapply reach_again; eauto]).
  assert (HR' : reach c ok sm lm) by (eapply run_reach_at; eauto).
  apply (fresh_stops c ok j sm lm H1 H2 H3 HR'); [|exact HT].
  exact (gap_up_to_date c i0 pa s0 s l is sm lm (conj H1 H2) E A NR).
Qed.
(** ** Error bounds *)
Lemma gap_with_errors c s g v el eu x : (0 < eps_zero c)%Q -> current_gap c s = Ok (Some g) -> (g <= eps_opt c)%Q ->
  fbest (I s) = Some v -> nth_error (all_err (T s)) (fbest_index (I s)) = Some (el, eu) -> (x <= v + eu)%Q ->
  within_target c x.
Proof.
  intros H G L FB E X. unfold current_gap in G. rewrite E, FB in G. cbn [snd] in G. inversion G; subst g.
  apply (within_le c (v + eu)%Q); [|exact X]. apply within_gap; assumption.
Qed.
