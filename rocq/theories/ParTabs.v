(** * Node tables and incumbents in parallel mode. *)
From Verif Require Export ParProv.
Open Scope Z_scope.

(** A property of the tables and incumbents that every kind of update preserves holds in
    every reachable state; while the machine waits for an initial sample it holds for the
    tables from before the restart. *)
Section Keep.
  Variables (pc0 : pcfg) (ok : pin -> Prop) (JW J : tabs -> incs -> Prop).
  Let c := base pc0.
  Hypothesis J0 : JW (T (init_st c)) (I (init_st c)).
  Hypothesis Jweak : forall t i, J t i -> JW t i.
  Hypothesis Jsame : forall t i i', same_incs i i' -> J t i -> J t i'.
  Hypothesis Jadd : forall p v b e s, node_pos (T s) <> [] -> J (T s) (I s) ->
    J (T (insert_node p (to_orig c p) v b e s)) (I (insert_node p (to_orig c p) v b e s)).
  Hypothesis Jdrop : has_noisy c = true -> forall j s s', remove_node j s = Ok s' ->
    J (T s) (I s) -> J (T s') (I s').
  Hypothesis Jrestart : forall t i rows, rows <> [] -> JW t i ->
    J (restart_tabs c (mark t) rows) (restart_incs (restart_tabs c (mark t) rows) i).

  Definition keeps (m : pc) (P : pst) : Prop :=
    match m with
    | PcWait _ _ => exists t, T (p_s P) = mark t /\ JW t (I (p_s P))
    | _ => J (T (p_s P)) (I (p_s P))
    end.
  Lemma keeps_plain m P : not_wait m -> J (T (p_s P)) (I (p_s P)) -> keeps m P.
  Proof. intros H HJ. destruct m; auto. exfalso. eapply H. reflexivity. Qed.
  Lemma Jquiet s s' : quiet s s' -> J (T s) (I s) -> J (T s') (I s').
  Proof. intros Q H. rewrite (q_T _ _ Q). eapply Jsame; [apply (q_I _ _ Q)|exact H]. Qed.

  Lemma keeps_eval q j P P' : eval_eff_par c q j P P' -> J (T (p_s P)) (I (p_s P)) -> J (T (p_s P')) (I (p_s P')).
  Proof.
    intros E HJ.
    destruct E as [t v el eu Ht Ea Nr Es Ecv En El Ek|t v el eu Ht Ea Hn Nr Hx Es Ecv En El Ek|t v el eu t' Ht Ea Hn Ht' Nr Hr Q It Ecv En El Ek|t v el eu Ht Ea Nr Hne Hr Q It Ecv En El SL Eb Elc].
    - now rewrite Es.
    - now rewrite Es.
    - eapply Jquiet; [exact Q|]. exact HJ.
    - eapply Jquiet; [exact Q|]. now apply Jadd.
  Qed.
  Lemma keeps_search q j P P' : search_eff_par c q j P P' -> J (T (p_s P)) (I (p_s P)) -> J (T (p_s P')) (I (p_s P')).
  Proof.
    intros E HJ. destruct E as [e P1 He E1 ->|e p id P1 P2 He Hp E1 R U Hid Hz].
    - subst P1. destruct (s_id e); exact HJ.
    - assert (X : J (T (p_s P2)) (I (p_s P2))).
      { subst P1. destruct R as [->|_ ->|jj s' Hn Hr Es _ _ El Ek]; [exact HJ|exact HJ|].
        rewrite Es. eapply Jdrop; [exact Hn|exact Hr|exact HJ]. }
      destruct U as [Q1 It Ecv En El SL Eb Elc|pp po jj v nz ee Ep Epo Hne N1 N2 Hl Hv Hzz Hee Q1 It Ecv En El SL Eb Elc|pp po Ep Epo Hne N1 N2 ->].
      + eapply Jquiet; eauto.
      + eapply Jquiet; [exact Q1|]. subst po. now apply Jadd.
      + exact X.
  Qed.
  Lemma keeps_begin q kind P w P' : begin_eff c q kind P w P' -> JW (T (p_s P)) (I (p_s P)) ->
    keeps (PcWait kind w) P'.
  Proof.
    intros [(new & prev & nb & _ & _ & _ & _ & _ & _ & _ & _ & ET & EI & _) _ _] HJ.
    exists (T (p_s P)). rewrite EI. auto.
  Qed.
  Lemma keeps_finish q kind w P m P' : finish_eff c q kind w P m P' -> keeps (PcWait kind w) P ->
    J (T (p_s P')) (I (p_s P')).
  Proof.
    intros E (t & Et & HJ).
    destruct (fe_ex _ _ _ _ _ _ _ E) as (usr & uevs & nu & rows & _ & _ & _ & Hne & ET & EI & _).
    eapply Jsame; [exact EI|]. rewrite ET, Et. now apply Jrestart.
  Qed.

  Lemma keeps_reach m P : preach pc0 ok m P -> no_error m -> keeps m P.
  Proof.
    apply (preach_inv2 pc0 ok keeps).
    - intros q pa m1 P1 _ [w It -> B|It -> Es El En SL Eb Ei Ep Eg].
      + eapply keeps_begin; [exact B|exact J0].
      + cbn in It. congruence.
    - intros q pa P0 m1 P1 _ H _ [w It -> B|It -> Es El En SL Eb Ei Ep Eg].
      + eapply keeps_begin; [exact B|apply Jweak; exact H].
      + cbn. rewrite Es. exact H.
    - intros q m1 P1 m2 P2 Hq H HR N (WI & WD) WT [-> -> -> _| -> -> -> _|b -> -> Hm| -> -> Hm| -> -> ->|kind w w' -> -> -> Ew Hw|b j -> -> E|j -> -> E|Hm E|j kind w w' -> -> E|kind w -> E|t r -> -> Ep E| -> -> Ep ->]; try exact H.
      + destruct Hm as [(-> & _)|(-> & _)]; exact H.
      + destruct Hm as [(-> & _)|(-> & _)]; exact H.
      + eapply keeps_eval; [exact E|exact H].
      + eapply keeps_search; [exact E|exact H].
      + assert (HJ : J (T (p_s P1)) (I (p_s P1))) by (destruct Hm; subst m1; exact H). clear H.
        destruct E as [k' Hm' Q1 It En El Ek SL Eb Elc|id bad k' -> Q1 It En El Ek I1 I2 SL Eb Eb2 Elc|kind w P0 Hk -> Hi Q1 It En El Ek B].
        * apply keeps_plain; [destruct Hm' as [->| ->]; discriminate|]. eapply Jquiet; eauto.
        * eapply Jquiet; eauto.
        * eapply keeps_begin; [exact B|]. apply Jweak. eapply Jquiet; eauto.
      + destruct E as [_ Es _ _ _]. cbn in *. now rewrite Es.
      + pose proof (fe_m _ _ _ _ _ _ _ E) as Em.
        apply keeps_plain; [destruct kind; subst m2; discriminate|].
        eapply keeps_finish; eauto.
      + destruct E as [Ft Fne Fs Fit Fn Fl Fp Fsr Fb].
        eapply Jquiet; [exact Fs|]. now apply Jadd.
  Qed.
End Keep.

(** ** Alignment *)
Lemma restart_tabs_aligned c t rows : aligned c t -> aligned c (restart_tabs c (mark t) rows).
Proof.
  intros HA. destruct (aligned_lengths _ _ HA) as (A1 & A2 & A3 & A4).
  constructor; cbn; rewrite ?map_length; auto.
  exists (all_pos t), (all_val t), (all_is_noisy t), (all_err t), (map e_pos rows).
  repeat split; auto.
  induction rows; cbn; constructor; auto. right. reflexivity.
Qed.
Lemma par_aligned pc0 ok m P : preach pc0 ok m P -> no_error m -> not_wait m ->
  aligned (base pc0) (T (p_s P)).
Proof.
  intros HR N HW.
  pose proof (keeps_reach pc0 ok (fun t _ => aligned (base pc0) t) (fun t _ => aligned (base pc0) t)) as K.
  assert (X : keeps (fun t _ => aligned (base pc0) t) (fun t _ => aligned (base pc0) t) m P).
  { apply K; auto.
    - apply aligned_init.
    - intros p v b e s _ H. now apply aligned_add.
    - intros _ j s s' Hr HA. eapply aligned_remove; eauto.
    - intros t i rows _. apply restart_tabs_aligned. }
  destruct m; try exact X. exfalso. eapply HW; reflexivity.
Qed.

(** ** Incumbents without removal *)
Definition inc_ok (c : cfg) (t : tabs) (i : incs) : Prop :=
  aligned c t /\ exists s, T s = t /\ I s = i /\ incumbents_ok s.
Definition inc_weak (c : cfg) (t : tabs) (i : incs) : Prop :=
  aligned c t /\ exists s, T s = t /\ I s = i /\ (virgin s \/ incumbents_ok s).

Lemma inc_ok_add c p v b e s : inc_ok c (T s) (I s) ->
  inc_ok c (T (insert_node p (to_orig c p) v b e s)) (I (insert_node p (to_orig c p) v b e s)).
Proof.
  intros (HA & s0 & ET & EI & [B1 B2 B3 B4 B5]). rewrite ET, EI in *.
  split; [now apply aligned_add|]. eexists. split; [reflexivity|]. split; [reflexivity|].
  destruct (aligned_lengths _ _ HA) as (L1 & L2 & L3 & L4).
  pose proof (al_val _ _ HA) as Lv. pose proof (al_noisy _ _ HA) as Ln.
  assert (X1 : (length (node_pos (T s) ++ [p]) - 1)%nat = length (node_val (T s))) by (rewrite app_length; cbn; lia).
  assert (X2 : (length (all_pos (T s) ++ [to_orig c p]) - 1)%nat = length (all_val (T s))) by (rewrite app_length; cbn; lia).
  constructor; unfold insert_node, incs_add; cbn; rewrite ?X1, ?X2.
  - now apply min_of_snoc.
  - now apply max_of_snoc.
  - now apply min_of_snoc.
  - destruct (xlt v (fmin (I s))).
    + rewrite app_nth2 by lia. replace (_ - _)%nat with 0%nat by lia. reflexivity.
    + destruct B1 as ((Hl & _) & _). rewrite app_nth1 by lia. assumption.
  - destruct (xlt v (fbest (I s))).
    + rewrite app_nth2 by lia. replace (_ - _)%nat with 0%nat by lia. reflexivity.
    + destruct B3 as ((Hl & _) & _). rewrite app_nth1 by lia. assumption.
Qed.
Lemma inc_ok_restart c t i rows : rows <> [] -> inc_weak c t i ->
  inc_ok c (restart_tabs c (mark t) rows) (restart_incs (restart_tabs c (mark t) rows) i).
Proof.
  intros Hne (HA & s & ET & EI & HP). split; [now apply restart_tabs_aligned|].
  exists (mkSt (restart_tabs c (mark t) rows) (restart_incs (restart_tabs c (mark t) rows) i) (C s) (Rf s) (trace s)).
  split; [reflexivity|]. split; [reflexivity|]. subst t i.
  destruct (aligned_lengths _ _ HA) as (L1 & L2 & L3 & L4).
  assert (Hv : map e_val rows <> []) by (destruct rows; cbn; congruence).
  pose proof (argmin_spec _ Hv) as Hm.
  set (vals := map e_val rows) in *. set (j := argmin vals) in *.
  assert (Hj : (j < length rows)%nat).
  { destruct Hm as (Hl & _). unfold vals in Hl. now rewrite map_length in Hl. }
  constructor; cbn; fold vals; fold j.
  - split; [assumption|reflexivity].
  - now apply Qlist_max_spec.
  - destruct HP as [(V1 & V2)|[_ _ (Hb & Hf) _ _]].
    + rewrite V1, V2. cbn. rewrite Nat.add_0_r. split; [assumption|reflexivity].
    + rewrite Hf. cbn [xlt].
      destruct (Qltb (nth j vals 0%Q) (nth (fbest_index (I s)) (all_val (T s)) 0%Q)) eqn:E; qb.
      * replace (j + length (all_pos (T s)))%nat with (length (all_val (T s)) + j)%nat by lia.
        split; [now apply first_min_app_lt with (i := fbest_index (I s))|].
        rewrite app_nth2 by lia. do 2 f_equal. lia.
      * split; [apply first_min_app_ge; auto|].
        { intros x Hx. eapply Qle_trans; [exact E|]. now apply first_min_In. }
        destruct Hb as (Hl & _). now rewrite app_nth1.
  - reflexivity.
  - destruct HP as [(V1 & V2)|[_ _ (Hb & Hf) _ Hfl]].
    + rewrite V1, V2. cbn. now rewrite Nat.add_0_r.
    + rewrite Hf. cbn [xlt].
      destruct (Qltb (nth j vals 0%Q) (nth (fbest_index (I s)) (all_val (T s)) 0%Q)) eqn:E; qb.
      * rewrite app_nth2 by lia. f_equal. lia.
      * destruct Hb as (Hl & _). rewrite app_nth1 by lia. assumption.
Qed.
Lemma par_incumbents pc0 ok m P : has_noisy (base pc0) = false -> preach pc0 ok m P -> no_error m ->
  not_wait m -> incumbents_ok (p_s P).
Proof.
  intros Hn HR N HW. set (c := base pc0) in *.
  assert (X : keeps (inc_weak c) (inc_ok c) m P).
  { eapply (keeps_reach pc0 ok); eauto.
    - split; [apply aligned_init|]. exists (init_st c). split; [reflexivity|]. split; [reflexivity|]. left. split; reflexivity.
    - intros t i (HA & s & E1 & E2 & H). split; [exact HA|]. exists s. auto.
    - intros t i i' Hs (HA & s & E1 & E2 & H). split; [exact HA|].
      exists (mkSt t i' (C s) (Rf s) (trace s)). split; [reflexivity|]. split; [reflexivity|].
      eapply incumbents_same; [|cbn; rewrite E2; exact Hs|exact H]. cbn. congruence.
    - intros p v b e s _. apply inc_ok_add.
    - fold c. congruence.
    - intros t i rows. apply inc_ok_restart. }
  assert (Y : inc_ok c (T (p_s P)) (I (p_s P))).
  { destruct m; try exact X. exfalso. eapply HW; reflexivity. }
  destruct Y as (_ & s & E1 & E2 & H).
  eapply incumbents_same; [symmetry; exact E1| |exact H]. rewrite E2. apply same_incs_refl.
Qed.
