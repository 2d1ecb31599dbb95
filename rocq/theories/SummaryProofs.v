(** * The summary line: proofs. *)
From Verif Require Import BaseLemmas AlgRestart AlgInv AlgProv AlgGlue StopProofs ParTabs ParStop.
From Verif Require Export ModelSummary.
From Coq Require Import Lia Lqa.
Open Scope Z_scope.

(** The best value ever recorded. *)
Definition below (t : tabs) (i : incs) : Prop :=
  forall x, In x (all_val t) -> exists f, fbest i = Some f /\ (f <= x)%Q.

Lemma below_add t i p po v b e : below t i -> below (tabs_add p po v b e t) (incs_add v b (tabs_add p po v b e t) i).
Proof.
  intros H x Hx. cbn in Hx. apply in_app_or in Hx. cbn. unfold xlt.
  destruct Hx as [Hx|[<-|[]]].
  - destruct (H x Hx) as (f & -> & Hf). destruct (Qltb v f) eqn:E; [|eauto].
    exists v. split; [reflexivity|]. apply Qltb_lt in E. lra.
  - destruct (fbest i) as [f|] eqn:Ef; [|exists v; split; [reflexivity|lra]].
    destruct (Qltb v f) eqn:E; [exists v; split; [reflexivity|lra]|].
    exists f. split; [reflexivity|]. destruct (Qlt_le_dec v f) as [L|L]; [|exact L].
    apply Qltb_lt in L. congruence.
Qed.
Lemma below_restart c t i rows : rows <> [] -> below t i ->
  below (restart_tabs c (mark t) rows) (restart_incs (restart_tabs c (mark t) rows) i).
Proof.
  intros Hne H x Hx. cbn in Hx. apply in_app_or in Hx.
  assert (Hv : map e_val rows <> []) by (destruct rows; cbn; congruence).
  destruct (argmin_spec _ Hv) as (G1 & G2 & _). cbn.
  set (vals := map e_val rows) in *. set (j := argmin vals) in *. set (w := nth j vals 0%Q) in *.
  unfold xlt. destruct Hx as [Hx|Hx].
  - destruct (H x Hx) as (f & -> & Hf). destruct (Qltb w f) eqn:E; [|eauto].
    exists w. split; [reflexivity|]. apply Qltb_lt in E. lra.
  - assert (Hw : (w <= x)%Q).
    { apply (In_nth _ _ 0%Q) in Hx. destruct Hx as (k & Hk & <-). apply G2. exact Hk. }
    destruct (fbest i) as [f|] eqn:Ef; [|exists w; split; [reflexivity|exact Hw]].
    destruct (Qltb w f) eqn:E; [exists w; split; [reflexivity|exact Hw]|].
    exists f. split; [reflexivity|]. destruct (Qlt_le_dec w f) as [L|L]; [|lra].
    apply Qltb_lt in L. congruence.
Qed.
Lemma delete_incl {A} (l : list A) j : incl (delete_at j l) l.
Proof.
  revert j. induction l as [|a l IH]; intros [|j] x Hx; cbn in *; auto.
  destruct Hx as [<-|Hx]; [left; reflexivity|right; eapply IH; eauto].
Qed.
Lemma below_remove t i j : below t i -> below (tabs_remove j t) i.
Proof. intros H x Hx. apply H. cbn in Hx. eapply delete_incl; eauto. Qed.
Lemma below_same t i i' : same_incs i i' -> below t i -> below t i'.
Proof.
  intros (_ & _ & _ & _ & _ & E & _) H x Hx. rewrite E. auto.
Qed.

Lemma authentic_produced eps tr p v : authentic eps tr p v -> exists q, produced tr q v.
Proof.
  intros H. induction H.
  - exists p. left. assumption.
  - exists p. right; left. eauto.
  - exists p. right; right. assumption.
  - assumption.
Qed.
Lemma produced_mono tr es p v : produced tr p v -> produced (tr ++ es) p v.
Proof.
  intros [H|[(el & eu & H)|H]]; [left|right; left; exists el, eu|right; right]; apply in_or_app; auto.
Qed.

Definition best_real (s : st) : Prop := forall f, fbest (I s) = Some f -> exists p, produced (trace s) p f.
Definition sum_inv (c : cfg) (s : st) : Prop :=
  aligned c (T s) /\ all_authentic c s /\ below (T s) (I s) /\ best_real s.

Lemma auth_value c s v : all_authentic c s -> In v (all_val (T s)) -> exists p, produced (trace s) p v.
Proof.
  intros H Hv. apply (In_nth _ _ 0%Q) in Hv. destruct Hv as (k & Hk & <-).
  eapply authentic_produced. apply (Forall2_nth _ _ _ [] 0%Q H).
  apply Forall2_length in H. unfold point in *. lia.
Qed.

Lemma sum_inv_reach c ok s l : reach c ok s l -> sum_inv c s.
Proof.
  apply (reach_preserves c ok (sum_inv c)).
  - intros s0 s1 Hq (H1 & H2 & H3 & H4). unfold sum_inv, all_authentic. rewrite (q_T _ _ Hq).
    destruct (q_trace _ _ Hq) as (es & Et & _). split; [exact H1|]. split.
    { rewrite Et. eapply Forall2_mono; [|exact H2]. intros a b. apply authentic_mono, incl_appl, incl_refl. }
    split; [eapply below_same; [apply (q_I _ _ Hq)|exact H3]|].
    intros f Ef. destruct (q_I _ _ Hq) as (_ & _ & _ & _ & _ & E & _). rewrite E in Ef.
    destruct (H4 f Ef) as (p & Hp). exists p. rewrite Et. now apply produced_mono.
  - intros i s0 s1 _ H (H1 & H2 & H3 & H4).
    assert (HA : all_authentic c s1) by (eapply auth_restart; eauto).
    split; [eapply aligned_restart; eauto|]. split; [exact HA|].
    apply restart_effect in H.
    destruct H as [(gen & evs & na & nn & usr & uevs & nu & G & _ & U & Hne & _ & HT & HI & _ & _ & Ht)].
    split.
    { eapply below_same; [exact HI|]. rewrite HT. now apply below_restart. }
    intros f Ef. destruct HI as (_ & _ & _ & _ & _ & E & _). rewrite E in Ef. rewrite HT in Ef. cbn in Ef.
    set (vals := map e_val (gen ++ usr)) in *.
    destruct (xlt (nth (argmin vals) vals 0%Q) (fbest (I s0))).
    + injection Ef as <-. eapply auth_value; [exact HA|]. rewrite HT. cbn. apply in_or_app. right. fold vals. apply nth_In.
      apply argmin_spec. unfold vals. destruct (gen ++ usr); cbn; congruence.
    + destruct (H4 f Ef) as (p & Hp). exists p. rewrite Ht. now apply produced_mono.
  - intros j s0 s1 _ H (H1 & H2 & H3 & H4). split; [eapply aligned_remove; eauto|].
    apply remove_fields in H. destruct H as (_ & HT & HI & _ & _ & Ht). split.
    { unfold all_authentic. rewrite HT, Ht. cbn. now apply Forall2_delete. }
    split; [rewrite HT, HI; now apply below_remove|].
    intros f Ef. rewrite HI in Ef. rewrite Ht. auto.
  - intros i q s0 l0 s1 l1 _ _ _ H (H1 & H2 & H3 & H4). apply evaluate_sum in H.
    destruct H as (v & noisy & e & es & [He HT HI _ _ Ht _ _ _]).
    assert (HV : authentic (eps_zero c) (trace s0 ++ es) (to_orig c (clip q (l_lower c) (l_upper c))) v)
      by (eapply eval_value_authentic; eauto).
    split; [rewrite HT; now apply aligned_add|]. split.
    { unfold all_authentic. rewrite HT, Ht. cbn. apply Forall2_app; [|constructor; auto].
      eapply Forall2_mono; [|exact H2]. intros a b. apply authentic_mono, incl_appl, incl_refl. }
    split; [eapply below_same; [exact HI|]; rewrite HT; now apply below_add|].
    intros f Ef. destruct HI as (_ & _ & _ & _ & _ & E & _). rewrite E in Ef. cbn in Ef.
    destruct (xlt v (fbest (I s0))).
    + injection Ef as <-. rewrite Ht. eapply authentic_produced; eauto.
    + destruct (H4 f Ef) as (p & Hp). exists p. rewrite Ht. now apply produced_mono.
  - split; [apply aligned_init|]. split; [constructor|]. split; [intros x []|]. intros f Ef. discriminate Ef.
Qed.

Lemma summary_exists c s v p : aligned c (T s) -> below (T s) (I s) -> result s = Some (v, p) ->
  exists f e m, fbest (I s) = Some f /\ (f <= v)%Q /\
    nth_error (all_err (T s)) (argmin (all_val (T s))) = Some e /\
    nth_error (all_is_noisy (T s)) (argmin (all_val (T s))) = Some m /\
    summarize c s = Ok (mkSummary (itercount (C s)) (evalcount (C s)) (noisy_evalcount (C s)) (cyclecount (C s))
                                  m (Some f) (Some (compute_gap c (f + snd e)%Q))).
Proof.
  intros HA HB HR. apply result_spec in HR. destruct HR as (Hne & -> & ->).
  destruct (argmin_spec _ Hne) as (Hlt & _). apply aligned_lengths in HA.
  set (j := argmin (all_val (T s))) in *.
  destruct (nth_error (all_err (T s)) j) as [e|] eqn:Ee; [|apply nth_error_None in Ee; unfold point in *; lia].
  destruct (nth_error (all_is_noisy (T s)) j) as [m|] eqn:Em; [|apply nth_error_None in Em; unfold point in *; lia].
  destruct (HB _ (nth_In _ 0%Q Hlt)) as (f & Ef & Hf).
  exists f, e, m. split; [exact Ef|]. split; [exact Hf|]. split; [reflexivity|]. split; [reflexivity|].
  unfold summarize. fold j. rewrite Ee, Em, Ef. destruct (all_val (T s)); [congruence|]. reflexivity.
Qed.

Lemma par_below pc0 ok m P : preach pc0 ok m P -> no_error m -> not_wait m -> below (T (p_s P)) (I (p_s P)).
Proof.
  intros HR N NW.
  assert (X : keeps below below m P).
  { eapply (keeps_reach pc0 ok); eauto.
    - intros x [].
    - intros t i i'. apply below_same.
    - intros p v b e s _ H. unfold insert_node. cbn. now apply below_add.
    - intros _ j s s' Hr H. apply remove_fields in Hr. destruct Hr as (_ & -> & -> & _). now apply below_remove.
    - intros t i rows. apply below_restart. }
  destruct m; try exact X. exfalso. eapply NW; reflexivity.
Qed.
