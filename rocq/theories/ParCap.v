(** * Capacity, budget and progress invariants of the parallel machine. *)
From Verif Require Export ParInv.
Open Scope Z_scope.

(** ** C74: outstanding tasks *)
Definition is_init (t : task) : bool := match t_id t with SInit => true | _ => false end.
(** Outstanding tasks that are not evaluations of initial points. *)
Definition other_load (k : ploc) : Z :=
  Z.of_nat (length (filter (fun t => negb (is_init t)) (pend k)) + length (srch k)).

Lemma filter_delete_le {A} (f : A -> bool) l : forall j,
  (length (filter f (delete_at j l)) <= length (filter f l))%nat.
Proof.
  induction l as [|x r IH]; intros [|j]; cbn; auto.
  - destruct (f x); cbn; lia.
  - specialize (IH j). destruct (f x); cbn; lia.
Qed.
Lemma filter_delete_eq {A} (f : A -> bool) l : forall j x, nth_error l j = Some x ->
  (length (filter f (delete_at j l)) + (if f x then 1 else 0) = length (filter f l))%nat.
Proof.
  induction l as [|y r IH]; intros [|j] x H; cbn in *; try discriminate.
  - injection H as ->. destruct (f x); cbn; lia.
  - specialize (IH j x H). destruct (f y); cbn; lia.
Qed.

(** Lengths after a step, in terms of those before. *)
Lemma eval_counts c q j P P' : eval_eff_par c q j P P' ->
  load (p_k P') <= load (p_k P) /\ other_load (p_k P') <= other_load (p_k P) /\
  srch (p_k P') = srch (p_k P).
Proof.
  intros E.
  assert (HP : forall b e t, nth_error (pend (p_k P)) j = Some t ->
    load (popped j b e (p_k P)) = load (p_k P) - 1 /\
    other_load (popped j b e (p_k P)) = other_load (p_k P) - (if is_init t then 0 else 1) /\
    srch (popped j b e (p_k P)) = srch (p_k P)).
  { intros b e t Ht. destruct (popped_pend j b e (p_k P)) as (A & B & _).
    unfold load, other_load. rewrite A, B.
    pose proof (nth_error_lt _ _ _ Ht). rewrite length_delete by assumption.
    pose proof (filter_delete_eq (fun t => negb (is_init t)) _ _ _ Ht) as F. cbn beta in F.
    split; [lia|]. split; [|reflexivity]. destruct (is_init t); cbn in F; lia. }
  destruct E as [t v el eu Ht Ea Nr Es Ecv En El Ek|t v el eu Ht Ea Hn Nr Hx Es Ecv En El Ek|t v el eu t' Ht Ea Hn Ht' Nr Hr Q It Ecv En El Ek|t v el eu Ht Ea Nr Hne Hr Q It Ecv En El SL Eb Elc].
  - destruct (HP (t_noisy t) (el, eu) t Ht) as (A & B & D). rewrite Ek, A, B, D.
    destruct (is_init t); repeat split; lia.
  - destruct (HP true (el, eu) t Ht) as (A & B & D). rewrite Ek.
    change (load (k_tabu _ ?k)) with (load k). change (other_load (k_tabu _ ?k)) with (other_load k).
    change (srch (k_tabu _ ?k)) with (srch k).
    rewrite A, B, D. destruct (is_init t); repeat split; lia.
  - destruct (HP true (el, eu) t Ht) as (A & B & D). rewrite Ek.
    set (k1 := popped j true (el, eu) (p_k P)) in *.
    assert (X1 : load (k_push t' (clip_val v (p_s P)) k1) = load k1 + 1).
    { unfold load. cbn [pend srch k_push]. rewrite app_length. cbn [length]. lia. }
    assert (X2 : other_load (k_push t' (clip_val v (p_s P)) k1) = other_load k1 + (if is_init t then 0 else 1)).
    { unfold other_load. cbn [pend srch k_push]. rewrite filter_app, app_length. cbn [filter].
      replace (is_init t') with (is_init t) by (subst t'; reflexivity).
      destruct (is_init t); cbn [negb length]; lia. }
    rewrite X1, X2, A, B. split; [lia|]. split; [destruct (is_init t); lia|]. exact D.
  - destruct (HP (t_noisy t) (el, eu) t Ht) as (A & B & D). destruct SL as [S1 S2 S3 S4 S5 S6].
    unfold load, other_load in *. rewrite S1, S5.
    rewrite D in *. split; [|split]; [lia| |reflexivity]. destruct (is_init t); lia.
Qed.

Lemma use_counts c q p b id P P' : use_eff c q p b id P P' ->
  (load (p_k P') <= load (p_k P) + 1 /\ other_load (p_k P') <= other_load (p_k P) + 1) /\
  srch (p_k P') = srch (p_k P).
Proof.
  intros [Q1 It Ecv En El SL Eb Elc|pp po jj v nz e Ep Epo Hne N1 N2 Hl Hv Hz He Q1 It Ecv En El SL Eb Elc|pp po Ep Epo Hne N1 N2 ->].
  - unfold load, other_load. rewrite (sl_pend _ _ SL), (sl_srch _ _ SL). split; [lia|reflexivity].
  - unfold load, other_load. rewrite (sl_pend _ _ SL), (sl_srch _ _ SL). split; [lia|reflexivity].
  - unfold load, other_load, submit_point. cbn [p_k note set_next set_k pend srch k_push set_s].
    rewrite filter_app, !app_length. cbn [filter length].
    split; [|reflexivity]. split; [lia|]. destruct (negb (is_init _)); cbn; lia.
Qed.
Lemma search_counts c q j P P' : search_eff_par c q j P P' ->
  load (p_k P') <= load (p_k P) /\ other_load (p_k P') <= other_load (p_k P) /\
  Z.of_nat (length (srch (p_k P'))) = Z.of_nat (length (srch (p_k P))) - 1.
Proof.
  intros [e P1 He E1 ->|e p id P1 P2 He Hp E1 R U Hid Hz].
  - pose proof (discard_lists c (s_id e) P1) as SL.
    unfold load, other_load. rewrite (sl_pend _ _ SL), (sl_srch _ _ SL). subst P1. cbn [p_k set_k pend srch k_srch].
    pose proof (nth_error_lt _ _ _ He). rewrite length_delete by assumption. lia.
  - apply use_counts in U. destruct U as [[A B] D].
    assert (E2 : load (p_k P2) = load (p_k P1) /\ other_load (p_k P2) = other_load (p_k P1) /\ srch (p_k P2) = srch (p_k P1)).
    { apply reeval_k in R. destruct R as [->| ->]; auto. }
    destruct E2 as (X1 & X2 & X3). rewrite X1 in A. rewrite X2 in B. rewrite D, X3.
    subst P1. unfold load, other_load in *. cbn [p_k set_k pend srch k_srch] in *.
    pose proof (nth_error_lt _ _ _ He). rewrite length_delete in * by assumption. lia.
Qed.

Definition cap_inv (pc0 : pcfg) (m : pc) (P : pst) : Prop :=
  let k := p_k P in
  let N := num_cpus (base pc0) in
  match m with
  | PcPlan => load k < N
  | PcPlan2 => load k < N \/ other_load k = 0
  | _ => load k <= N \/ other_load k <= 1
  end.

Lemma cap_idle pc0 m P : pend (p_k P) = [] -> srch (p_k P) = [] -> (forall k w, m = PcWait k w -> cap_inv pc0 m P).
Proof. intros H1 H2 k w ->. cbn. right. unfold other_load. rewrite H1, H2. cbn. lia. Qed.

Lemma init_other ts : Forall (fun t => t_id t = SInit) ts -> filter (fun t => negb (is_init t)) ts = [].
Proof.
  induction 1 as [|t r H _ IH]; cbn; auto. unfold is_init. rewrite H. exact IH.
Qed.

(** Tasks of a wait are evaluations of initial points. *)
Definition wait_tasks (m : pc) : Prop :=
  forall kind w, m = PcWait kind w -> Forall (fun t => t_id t = SInit) (w_pend w).
Lemma Forall_delete {A} (R : A -> Prop) l : forall j, Forall R l -> Forall R (delete_at j l).
Proof. induction l as [|x r IH]; intros [|j] H; cbn; auto; inversion H; subst; auto. Qed.

Lemma begin_tasks c q kind P w P' : begin_eff c q kind P w P' -> Forall (fun t => t_id t = SInit) (w_pend w).
Proof.
  intros [(new & prev & nb & W1 & _) _ _]. rewrite W1.
  destruct (submit_from_spec nb new (p_next P)) as (_ & _ & F).
  eapply Forall_impl; [|exact F]. cbn. tauto.
Qed.

Lemma wait_tasks_reach pc0 ok m P : preach pc0 ok m P -> no_error m -> wait_tasks m.
Proof.
  apply (preach_inv pc0 ok (fun m _ => wait_tasks m)).
  - intros q pa m1 P1 _ [w It -> B|It -> _ _ _ _ _ _ _ _] kind w' E; [|discriminate].
    injection E as <- <-. eapply begin_tasks; eauto.
  - intros q pa P0 m1 P1 _ _ [w It -> B|It -> _ _ _ _ _ _ _ _] kind w' E; [|discriminate].
    injection E as <- <-. eapply begin_tasks; eauto.
  - intros q m1 P1 m2 P2 _ H N [-> -> -> _| -> -> -> _|b -> -> Hm| -> -> Hm| -> -> ->|kind w w' -> -> -> Ew Hw|b j -> -> E|j -> -> E|Hm E|j kind w w' -> -> E|kind w -> E|t r -> -> Ep E| -> -> Ep ->] kind2 w2 E2; try discriminate.
    + destruct Hm as [(-> & _)|(-> & _)]; discriminate.
    + destruct Hm as [(-> & _)|(-> & _)]; discriminate.
    + injection E2 as <- <-. subst w'. cbn. eapply H; reflexivity.
    + destruct E as [k' Hm' Q1 It En El Ek SL Eb Elc|id bad k' -> Q1 It En El Ek I1 I2 SL Eb Eb2 Elc|kind w P0 Hk -> Hi Q1 It En El Ek B].
      * destruct Hm' as [->| ->]; discriminate.
      * discriminate.
      * injection E2 as <- <-. eapply begin_tasks; eauto.
    + injection E2 as <- <-. destruct E as [(t & v & el & eu & Ht & Ea & W1 & _) _ _ _ _]. rewrite W1.
      apply Forall_delete. eapply H; reflexivity.
    + pose proof (fe_m _ _ _ _ _ _ _ E) as Em. destruct kind; subst m2; discriminate.
Qed.

Lemma preach_no_error_step pc0 ok m P : preach pc0 ok m P -> no_error m -> wait_idle m P /\ wait_tasks m.
Proof. intros H N. split; [eapply idle_reach|eapply wait_tasks_reach]; eauto. Qed.

(** An induction principle that also gives the two facts above. *)
Lemma preach_inv2 pc0 (ok : pin -> Prop) (Inv : pc -> pst -> Prop) :
  (forall q pa m P, ok q -> start_eff pc0 q pa (pinit (base pc0)) m P -> Inv m P) ->
  (forall q pa P0 m P, ok q -> Inv PcDone P0 -> pend (p_k P0) = [] -> start_eff pc0 q pa P0 m P -> Inv m P) ->
  (forall q m P m' P', ok q -> Inv m P -> preach pc0 ok m P -> no_error m -> wait_idle m P -> wait_tasks m ->
     step_eff pc0 q m P m' P' -> Inv m' P') ->
  forall m P, preach pc0 ok m P -> no_error m -> Inv m P.
Proof.
  intros H1 H2 H3 m P HR. induction HR as [q pa m P Hok H|q pa P0 m P Hok HR IH H|q m0 P0 m P Hok HR IH H]; intros N.
  - eapply H1; [eassumption|]. eapply pstart_effect; eassumption.
  - eapply H2; [eassumption|apply IH; intros e; discriminate| |eapply pstart_effect; eassumption].
    eapply idle_reach; [exact HR|intros e; discriminate|reflexivity].
  - assert (N0 : no_error m0).
    { intros e ->. cbn in H. injection H as <- <-. now apply (N e). }
    eapply H3; [eassumption|apply IH; assumption|exact HR|assumption| | |eapply pstep_effect; eassumption].
    + eapply idle_reach; eauto.
    + eapply wait_tasks_reach; eauto.
Qed.

Lemma cap_reach pc0 ok m P : preach pc0 ok m P -> no_error m -> cap_inv pc0 m P.
Proof.
  apply (preach_inv2 pc0 ok (cap_inv pc0)).
  - intros q pa m1 P1 _ [w It -> B|It -> Es El En SL Eb Ei Ep Eg]; right.
    + rewrite (be_k _ _ _ _ _ _ B). unfold other_load. cbn. lia.
    + unfold other_load. rewrite (sl_pend _ _ SL), (sl_srch _ _ SL). cbn. lia.
  - intros q pa P0 m1 P1 _ _ _ [w It -> B|It -> Es El En SL Eb Ei Ep Eg]; right.
    + rewrite (be_k _ _ _ _ _ _ B). unfold other_load. cbn. lia.
    + unfold other_load. rewrite (sl_pend _ _ SL), (sl_srch _ _ SL). cbn. lia.
  - intros q m1 P1 m2 P2 _ H HR N (WI & WD) WT [-> -> -> _| -> -> -> _|b -> -> Hm| -> -> Hm| -> -> ->|kind w w' -> -> -> Ew Hw|b j -> -> E|j -> -> E|Hm E|j kind w w' -> -> E|kind w -> E|t r -> -> Ep E| -> -> Ep ->]; try exact H.
    + destruct Hm as [(-> & _)|(-> & _)]; exact H.
    + destruct Hm as [(-> & _)|(-> & L)]; [exact H|exact L].
    + apply eval_counts in E. cbn in *. lia.
    + apply search_counts in E. cbn in *. lia.
    + assert (X : load (p_k P1) < num_cpus (base pc0) \/ other_load (p_k P1) = 0).
      { destruct Hm as [->| ->]; cbn in H; auto. }
      destruct E as [k' Hm' Q1 It En El Ek SL Eb Elc|id bad k' -> Q1 It En El Ek I1 I2 SL Eb Eb2 Elc|kind w P0 Hk -> Hi Q1 It En El Ek B].
      * assert (Y : load k' = load (p_k P1) /\ other_load k' = other_load (p_k P1)).
        { unfold load, other_load. rewrite (sl_pend _ _ SL), (sl_srch _ _ SL). auto. }
        subst k'. destruct Hm' as [->| ->]; cbn; lia.
      * assert (Y : load k' = load (p_k P1) + 1 /\ other_load k' = other_load (p_k P1) + 1).
        { unfold load, other_load. rewrite (sl_pend _ _ SL), (sl_srch _ _ SL). cbn [pend srch k_srch].
          rewrite app_length. cbn [length]. lia. }
        subst k'. cbn. lia.
      * apply idle_iff in Hi. destruct Hi as [Hi1 Hi2]. cbn. right.
        rewrite (be_k _ _ _ _ _ _ B), Ek. unfold other_load. rewrite Hi1, Hi2. cbn. lia.
    + cbn. right. rewrite (ie_k _ _ _ _ _ _ E). destruct (WI _ _ eq_refl) as [Hi1 Hi2].
      unfold other_load. rewrite Hi1, Hi2. cbn. lia.
    + destruct (WI _ _ eq_refl) as [Hi1 Hi2].
      assert (Y : other_load (p_k P2) = 0).
      { unfold other_load. rewrite (fe_pend _ _ _ _ _ _ _ E), (fe_srch _ _ _ _ _ _ _ E), Hi2.
        rewrite init_other; [reflexivity|]. eapply WT; reflexivity. }
      pose proof (fe_m _ _ _ _ _ _ _ E) as Em. destruct kind; subst m2; cbn; lia.
    + cbn in *. unfold load, other_load in *. rewrite (fi_pend _ _ _ _ _ _ E), (fi_srch _ _ _ _ _ _ E).
      rewrite Ep in H. cbn [length filter] in H. destruct (negb (is_init t)); cbn [length] in H; lia.
Qed.
