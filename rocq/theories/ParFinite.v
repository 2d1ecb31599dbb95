(** * Parallel optimizer: all points ever sent to a worker are pairwise different (single phase, no
    scaling, well separated starting points). *)
From Coq Require Import Permutation.
From Verif Require Export ParApart.
From Verif Require AlgDistinct.
From Verif Require Import AlgMode ParBudget ParBox ParReuse ParStop ParTabs ParProv ParInv.
From Verif Require Import AlgBox AlgSep AlgGlue SpecAlg SpecExact ExactProofs.
From Verif Require Import ModelAlg ModelParallel.
From Verif Require SpecParSpace.
Notation sent := SpecParSpace.sent.
From Coq Require Import Lia Lqa.
Open Scope Z_scope.

Lemma sent_app a b : sent (a ++ b) = sent a ++ sent b.
Proof. apply flat_map_app. Qed.
Lemma in_sent log p : In p (sent log) <-> exists k nz id, In (PSubmit k p nz id) log.
Proof.
  unfold SpecParSpace.sent. rewrite in_flat_map. split.
  - intros (e & He & Hp). destruct e; cbn in Hp; try contradiction. destruct Hp as [->|[]]. eauto.
  - intros (k & nz & id & H). eexists. split; [exact H|]. cbn. auto.
Qed.
Lemma sent_none es : (forall e, In e es -> match e with PSubmit _ _ _ _ => False | _ => True end) -> sent es = [].
Proof.
  intros H. destruct (sent es) as [|p r] eqn:E; [reflexivity|].
  assert (X : In p (sent es)) by (rewrite E; left; reflexivity). apply in_sent in X. destruct X as (k & nz & id & X).
  destruct (H _ X).
Qed.
Lemma sent_tasks ts : sent (map (fun t => PSubmit (t_ticket t) (t_at t) (t_noisy t) (t_id t)) ts) = map t_at ts.
Proof. induction ts as [|t ts IH]; [reflexivity|]. cbn. f_equal. exact IH. Qed.

(** Submissions of a step: none, one proposal, or a sample. *)
Lemma step_submits pc0 (ok : pin -> Prop) q m P m' P' : has_noisy (base pc0) = false ->
  (length (init_node_pos (base pc0)) <= length (init_node_val (base pc0)))%nat ->
  preach pc0 ok m P -> pstep pc0 q m P = (m', P') -> no_error m' ->
  sent (p_log P') = sent (p_log P) \/
  (m = PcSearches /\ exists p nz id, p_log P' = p_log P ++ [PSubmit (p_next P) (to_orig (base pc0) p) nz id] /\
   near (min_dist (base pc0)) p (node_pos (T (p_s P))) = false /\ near (min_dist (base pc0)) p (tpos (p_k P)) = false /\
   lookup_old (base pc0) (T (p_s P)) (to_orig (base pc0) p) = None) \/
  (exists kind w, not_wait m /\ m' = PcWait kind w /\ sent (p_log P') = sent (p_log P) ++ map t_at (w_pend w)).
Proof.
  intros Hn HV HR H N.
  assert (N0 : no_error m).
  { intros e ->. cbn in H. injection H as <- <-. now apply (N e). }
  pose proof (proj1 (proj1 (exact_reach pc0 ok m P Hn HR N0))) as EX.
  destruct (quiet_reach pc0 ok m P Hn HR N0) as (_ & QP & _).
  pose proof (pstep_effect _ _ _ _ _ _ H N) as E.
  assert (O : forall P1 es, p_log P1 = p_log P ++ es -> (forall e, In e es -> match e with PSubmit _ _ _ _ => False | _ => True end) ->
    sent (p_log P1) = sent (p_log P)).
  { intros P1 es -> F. rewrite sent_app, (sent_none es F), app_nil_r. reflexivity. }
  destruct E as [-> -> -> _| -> -> -> _|b -> -> Hm| -> -> Hm| -> -> ->|kind w w' -> -> -> Ew Hw|b j -> -> E|j -> -> E|Hm E|j kind w w' -> -> E|kind w -> E|t r -> -> Ep E| -> -> Ep ->];
    try (left; reflexivity).
  - left. assert (HN : forall t, nth_error (pend (p_k P)) j = Some t -> t_noisy t = false).
    { intros t Ht. apply nth_error_In in Ht. rewrite Forall_forall in QP. auto. }
    destruct E as [t v el eu _ _ _ Es _ _ El Ek|t v el eu Ht _ Hz _ _ Es _ _ El Ek|t v el eu t' Ht _ Hz _ _ _ Q _ _ _ El Ek|t v el eu _ _ _ _ _ Q _ _ _ El SL _ _];
      try (eapply O; [exact El|]; intros e He; cbn in He; repeat (destruct He as [<-|He]; [exact Logic.I|]); destruct He; fail).
    all: rewrite (HN t Ht) in Hz; discriminate.
  - cbn [pstep] in H. destruct (ready q (srch (p_k P))) as [j'|] eqn:Er.
    + apply finish_ok in H; [|exact N]. destruct (take_search _ _ _ _) as [P1|] eqn:ET; cbn [bind] in H; [|discriminate].
      injection H as <-. unfold take_search in ET. destruct (nth_error (srch (p_k P)) j') as [e|]; [|discriminate]. cbv zeta in ET.
      destruct (s_bad e); [discriminate|].
      assert (K : forall p nz id, use_point (base pc0) q p nz id (set_k (k_srch (delete_at j' (srch (p_k P))) (p_k P)) P) = Ok P1 ->
        sent (p_log P1) = sent (p_log P) \/
        (exists p nz id, p_log P1 = p_log P ++ [PSubmit (p_next P) (to_orig (base pc0) p) nz id] /\
         near (min_dist (base pc0)) p (node_pos (T (p_s P))) = false /\ near (min_dist (base pc0)) p (tpos (p_k P)) = false /\
         lookup_old (base pc0) (T (p_s P)) (to_orig (base pc0) p) = None)).
      { clear ET. intros p0 nz id ET. pose proof ET as ET'. unfold use_point in ET. cbv zeta in ET.
        set (p := clip p0 (l_lower (base pc0)) (l_upper (base pc0))) in *.
        cbn [set_k p_s p_k tpos k_srch] in ET.
        destruct (node_pos (T (p_s P))) as [|n0 nr] eqn:En; [discriminate|]. rewrite <- En in *.
        destruct (near _ _ _ || near _ _ _) eqn:Enr.
        { injection ET as <-. left. unfold discard_search; destruct id; reflexivity. }
        apply orb_false_iff in Enr. destruct Enr as (N1 & N2).
        destruct (lookup_old (base pc0) (T (p_s P)) (to_orig (base pc0) p)) as [jj|] eqn:El.
        - left. assert (E9 : nth jj (all_is_noisy (T (p_s P))) false = false).
          { destruct (nth_in_or_default jj (all_is_noisy (T (p_s P))) false) as [X|X]; [|exact X]. rewrite Forall_forall in EX. auto. }
          rewrite E9 in ET. cbn [negb] in ET. rewrite orb_true_r in ET. apply reuse_iid in ET. destruct ET as (_ & _ & EL & _).
          eapply O; [exact EL|]. intros e0 He. cbn in He. repeat (destruct He as [<-|He]; [exact Logic.I|]). destruct He.
        - right. injection ET as <-. exists p, nz, id. split; [reflexivity|]. auto. }
      destruct (q_ans q) as [[p|] adj|p ind].
      * apply K in ET. destruct ET as [ET|ET]; auto.
      * injection ET as <-. left. unfold discard_search; destruct (s_id e); reflexivity.
      * rewrite Hn in ET. cbn [andb] in ET. destruct (s_id e); apply K in ET; destruct ET as [ET|ET]; auto.
    + destruct (_ <=? _); injection H as HH1 HH2; subst; left; reflexivity.
  - destruct E as [k' Hm' Q1 It En El Ek SL Eb Elc|id bad k' -> Q1 It En El Ek I1 I2 SL Eb Eb2 Elc|kind w P0 Hk -> Hi Q1 It En El Ek B]; [left; rewrite El; reflexivity|left; rewrite El; reflexivity|].
    right. right. exists kind, w. split; [destruct Hm; subst m; discriminate|]. split; [reflexivity|].
    pose proof B as [(new & prev & nb & W1 & _ & _ & _ & _ & _ & _ & _ & _ & _ & _ & _ & _ & EL & _) _ _].
    rewrite EL, El, sent_app, sent_tasks. reflexivity.
  - left. destruct E as [(t & v & el & eu & _ & _ & _ & _ & _ & _ & EL) _ _ _ _]. eapply O; [exact EL|].
    intros e He. cbn in He. repeat (destruct He as [<-|He]; [exact Logic.I|]). destruct He.
  - left. destruct E as [(usr & uevs & nu & rows & EU & _ & _ & _ & _ & _ & _ & _ & EL & _) _ _ _ _ _ _ _ _ _ _].
    assert (NU : nu = 0).
    { unfold restart_user in EU. destruct (_ && _); [|congruence]. cbv zeta in EU.
      rewrite (proj2 (Nat.ltb_ge _ _) HV) in EU. congruence. }
    subst nu. cbn [Z.ltb Z.compare] in EL. eapply O; [exact EL|]. intros e He.
    apply in_app_or in He. destruct He as [He|He]; [apply in_map_iff in He; destruct He as (y & <- & _); exact Logic.I|].
    apply in_app_or in He. destruct He as [He|He]; [apply in_map_iff in He; destruct He as (y & <- & _); exact Logic.I|].
    unfold user_log in He. apply in_map_iff in He; destruct He as (y & <- & _); exact Logic.I.
  - left. rewrite (fi_log _ _ _ _ _ _ E). rewrite sent_app. cbn. rewrite ?app_nil_r. reflexivity.
Qed.

Lemma FOP_app_l {A} (R : A -> A -> Prop) a b : ForallOrdPairs R (a ++ b) -> ForallOrdPairs R a.
Proof.
  induction a as [|x a IH]; intros H; [constructor|]. cbn in H. inversion H as [|y l F G]; subst. constructor; [|auto].
  rewrite Forall_forall in *. intros y Hy. apply F, in_or_app. auto.
Qed.
Section Finite.
  Variables (pc0 : pcfg) (ok : pin -> Prop).
  Let c := base pc0.
  Let d := min_dist c.
  Let dim := length (var_lower c).
  Hypothesis Hn : has_noisy c = false.
  Hypothesis Hsc : scaling_on (affine c) (integer_vars c) = false.
  Hypothesis Hbox : length (var_upper c) = length (var_lower c).
  Hypothesis Hd : (0 <= d)%Q.
  Hypothesis He : (0 <= eps_zero c)%Q.
  Hypothesis Hem : (eps_zero c <= d)%Q.
  Hypothesis Hv : (length (init_node_pos c) <= length (init_node_val c))%nat.
  Hypothesis Hu : forall u, In u (init_node_pos c) -> length u = dim.
  Hypothesis Hs : forall q pts, ok q -> i_samples (q_inp q) = Some pts ->
    separated (d + 2 * eps_zero c) pts /\
    (forall p, In p pts -> length p = dim) /\
    (forall p u, In p pts -> In u (init_node_pos c) -> apart d u p).
  Hypothesis Hp : forall q p, ok q -> proposes q p -> length p = dim.

  Lemma far_apart p q : apart d p q -> dist_lt q p (eps_zero c) = false.
  Proof. intros H. apply apart_sym in H. apply (far_lt _ d); auto. Qed.
  Lemma begin_apart q kind P w P' : ok q -> restart_begin c q kind P = Ok (PcWait kind w, P') ->
    Forall (fun p => length p = dim) (all_pos (T (p_s P))) -> AlgDistinct.apart (eps_zero c) (map t_at (w_pend w)).
  Proof.
    intros Hq H HA. destruct (apart_begin pc0 ok Hbox Hd He Hs q kind P w P' Hq H HA) as (A & _).
    pose proof (restart_begin_eff _ _ _ _ _ _ H) as (w' & Ew & B). injection Ew as <-.
    destruct B as [(new & prev & nb & W1 & _) _ _]. rewrite W1 in *.
    destruct (submit_from_spec nb new (p_next P)) as (A1 & A2 & _). rewrite A1 in A. rewrite A2. unfold separated in A.
    apply FOP_app_l in A. unfold AlgDistinct.apart. clear - A Hd Hem. induction A as [|x l F A IH]; constructor; auto.
    rewrite Forall_forall in *. intros y Hy. apply far_apart, F, Hy.
  Qed.

  Theorem sent_apart m P : preach pc0 ok m P -> no_error m -> AlgDistinct.apart (eps_zero c) (sent (p_log P)).
  Proof.
    intros HR. induction HR as [q pa m P Hok H|q pa P0 m P Hok HR IH H|q m0 P0 m P Hok HR IH H]; intros N.
    - pose proof (pstart_effect _ _ _ _ _ _ H N) as [w It -> B|It -> Es El En SL Eb Ei Ep Eg]; [|cbn in It; congruence].
      destruct (start_begin _ _ _ _ _ _ _ H) as (P1 & R1 & R2 & R3).
      pose proof (restart_begin_eff _ _ _ _ _ _ R1) as (w' & Ew & B'). injection Ew as <-.
      destruct B' as [(new & prev & nb & W1 & _ & _ & _ & _ & _ & _ & _ & _ & _ & _ & _ & _ & EL & _) _ _].
      rewrite EL, R3, sent_app, sent_tasks. cbn [pinit p_log SpecParSpace.sent flat_map app].
      eapply begin_apart; [exact Hok|exact R1|]. rewrite R2. constructor.
    - assert (ND : no_error PcDone) by (intros e; discriminate). specialize (IH ND).
      pose proof (pstart_effect _ _ _ _ _ _ H N) as [w It -> B|It -> Es El En SL Eb Ei Ep Eg]; [|rewrite El; exact IH].
      destruct (start_begin _ _ _ _ _ _ _ H) as (P1 & R1 & R2 & R3).
      pose proof (restart_begin_eff _ _ _ _ _ _ R1) as (w' & Ew & B'). injection Ew as <-.
      destruct B' as [(new & prev & nb & W1 & _ & _ & _ & _ & _ & _ & _ & _ & _ & _ & _ & _ & EL & _) _ _].
      rewrite EL, R3, sent_app, sent_tasks. apply AlgDistinct.apart_app; [exact IH| |].
      + eapply begin_apart; [exact Hok|exact R1|]. rewrite R2. exact (ParApart.dims pc0 ok Hn Hsc Hbox Hu Hs Hp PcDone P0 HR ND).
      + intros p x Hp0 Hx. apply in_map_iff in Hx. destruct Hx as (t & <- & Ht).
        apply in_sent in Hp0. destruct Hp0 as (k & nz & id & Hp0).
        destruct (idle_reach pc0 ok PcDone P0 HR ND) as (_ & EP). specialize (EP eq_refl).
        destruct (ParApart.apart_reach pc0 ok Hn Hsc Hbox Hd He Hu Hs Hp PcDone P0 HR ND) as (_ & D).
        eapply (history_free pc0 ok PcDone P0 t); eauto; try discriminate.
        intros p' Hp'. eapply restart_new; [exact R1| |reflexivity|exact Ht|rewrite R2; exact Hp'].
        rewrite R2. exact (proj1 (proj1 (exact_reach pc0 ok PcDone P0 Hn HR ND))).
    - assert (N0 : no_error m0).
      { intros e ->. cbn in H. injection H as <- <-. now apply (N e). }
      specialize (IH N0).
      destruct (ParApart.apart_reach pc0 ok Hn Hsc Hbox Hd He Hu Hs Hp m0 P0 HR N0) as (_ & D).
      destruct (step_submits pc0 ok q m0 P0 m P Hn Hv HR H N) as [->|[(-> & p & nz & id & EL & A & B & E)|(kind & w & HW & -> & EL)]]; [exact IH| |].
      + rewrite EL, sent_app. cbn [SpecParSpace.sent flat_map app]. apply AlgDistinct.apart_app; [exact IH|repeat constructor|].
        intros x y Hx [<-|[]]. rewrite scaling_off_orig in * by exact Hsc.
        apply in_sent in Hx. destruct Hx as (k & nz' & id' & Hx). eapply (new_here pc0 ok P0 p); eauto.
      + rewrite EL. destruct (step_begin _ _ _ _ _ _ _ HW H) as (P2 & R1 & R2 & R3 & R4).
        apply AlgDistinct.apart_app; [exact IH| |].
        * eapply begin_apart; [exact Hok|exact R1|]. rewrite R2. exact (ParApart.dims pc0 ok Hn Hsc Hbox Hu Hs Hp m0 P0 HR N0).
        * intros x y Hx Hy. apply in_map_iff in Hy. destruct Hy as (t & <- & Ht).
          apply in_sent in Hx. destruct Hx as (k & nz' & id' & Hx).
          eapply (samples_new pc0 ok q m0 P0); eauto.
  Qed.
  (** At the end of a call every point sent has its own row in the history. *)
  Lemma done_recorded P k p nz id : preach pc0 ok PcDone P -> In (PSubmit k p nz id) (p_log P) ->
    exists w, In (PRow (Some k) p w) (p_log P) /\ In (PAnswer k w) (p_log P) /\ In w (all_val (T (p_s P))).
  Proof.
    intros HR HS. assert (N : no_error PcDone) by (intros e; discriminate).
    pose proof (ledger_reach pc0 ok PcDone P HR N) as L.
    assert (ND : NoDup (SpecParallel.submitted (p_log P))) by (rewrite (lg_sub _ _ L); apply seq_NoDup).
    destruct (prov_reach pc0 ok PcDone P HR N) as (PV & _ & PR).
    destruct (idle_reach pc0 ok PcDone P HR N) as (_ & EP). specialize (EP eq_refl).
    destruct (ParApart.apart_reach pc0 ok Hn Hsc Hbox Hd He Hu Hs Hp PcDone P HR N) as (_ & D).
    assert (HK : In k (outstanding PcDone P ++ settled (p_log P))).
    { eapply Permutation_in; [apply Permutation_sym, (lg_perm _ _ L)|]. rewrite <- (lg_sub _ _ L). eapply submitted_in; eauto. }
    apply in_app_or in HK. destruct HK as [HK|HK].
    - rewrite outstanding_plain, EP in HK by discriminate. destruct HK.
    - destruct (settled_cases _ _ HK) as [(p' & v & HR')|[HX|HX]].
      + destruct (PR _ _ _ HR') as (p1 & nz1 & id1 & A & B & D').
        destruct (submitted_unique _ ND _ _ _ _ _ _ _ HS A) as (-> & <- & <-).
        assert (E : p' = p1) by (destruct D' as [->|(_ & ->)]; [reflexivity|apply scaling_off_orig; exact Hsc]). subst p'.
        exists v. split; [exact HR'|]. split; [exact B|]. rewrite <- (lg_val _ _ L). apply in_map_iff. exists (p1, v). split; [reflexivity|].
        eapply (proj2 (replay_rows _ (log_no_unrow pc0 ok PcDone P Hn HR N) [])). exact HR'.
      + exfalso. exact (log_no_super pc0 ok PcDone P Hn HR N k HX).
      + exfalso. exact (D k HX).
  Qed.
End Finite.
