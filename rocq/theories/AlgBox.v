(** * Bounds, integrality, separation, no double evaluation. *)
From Verif Require Export AlgTerm.
Open Scope Z_scope.

(** Point passed to the black box by an event. *)
Definition bb_point (e : event) : option point :=
  match e with EvAcc p _ => Some p | EvNoisy p _ _ _ => Some p | _ => None end.

(** ** C08 *)
Lemma unscale1_bounds x lo up : (lo <= up)%Q -> (0 <= x <= 1)%Q ->
  (lo <= unscale1 x lo up <= up)%Q.
Proof.
  intros H [H0 H1]. unfold unscale1. split.
  - assert (0 <= x * (up - lo))%Q by (apply Qmult_le_0_compat; lra). lra.
  - assert (0 <= (1 - x) * (up - lo))%Q by (apply Qmult_le_0_compat; lra). lra.
Qed.

Lemma transform_length a lo up ints p r : length p = length lo -> length up = length lo ->
  length (transform_domain a lo up ints p r) = length p.
Proof.
  intros H1 H2. unfold transform_domain. destruct (scaling_on a ints); [|reflexivity].
  apply map3_length; lia.
Qed.

Lemma nth_map_const {A} (l : list A) (x : Q) j : (j < length l)%nat ->
  nth j (map (fun _ => x) l) 0%Q = x.
Proof.
  revert j. induction l as [|a l IH]; intros [|j] H; cbn in *; try lia; auto. apply IH; lia.
Qed.

Lemma search_bounds_ok c : box_ok (var_lower c) (var_upper c) -> box_ok (l_lower c) (l_upper c).
Proof.
  intros (H1 & H2). unfold l_lower, l_upper, transform_domain_bounds.
  destruct (affine c); cbn [fst snd]; [|split; assumption].
  split; [now rewrite !map_length|]. intros j Hj. rewrite map_length in Hj.
  rewrite !nth_map_const by lia. lra.
Qed.
Lemma search_bounds_length c : length (var_upper c) = length (var_lower c) ->
  length (l_lower c) = length (var_lower c) /\ length (l_upper c) = length (var_lower c).
Proof.
  intros H. unfold l_lower, l_upper, transform_domain_bounds.
  destruct (affine c); cbn [fst snd]; rewrite ?map_length; auto.
Qed.

Lemma proposal_in_box c q : box_ok (var_lower c) (var_upper c) ->
  (affine c = true -> integer_vars c = []) -> length q = length (var_lower c) ->
  in_box (to_orig c (clip q (l_lower c) (l_upper c))) (var_lower c) (var_upper c).
Proof.
  intros Hb Hs Hq. pose proof (search_bounds_ok c Hb) as Hlb. destruct Hb as (B1 & B2).
  destruct (search_bounds_length c) as (S1 & S2); [lia|].
  pose proof (clip_in_box q _ _ Hlb) as (C1 & C2 & C3); [lia|].
  set (p := clip q (l_lower c) (l_upper c)) in *. unfold to_orig, transform_domain, scaling_on.
  destruct (affine c) eqn:Ea.
  - rewrite (Hs eq_refl). cbn [andb].
    assert (Lp : length p = length (var_lower c)) by lia.
    assert (Lm : length (map3 unscale1 p (var_lower c) (var_upper c)) = length p)
      by (apply map3_length; lia).
    split; [lia|]. split; [lia|]. intros j Hj.
    rewrite (nth_map3 unscale1 p _ _ j 0%Q 0%Q 0%Q) by lia.
    apply unscale1_bounds; [apply B2; lia|].
    specialize (C3 j ltac:(lia)). revert C3. unfold l_lower, l_upper, transform_domain_bounds.
    rewrite Ea. cbn [fst snd]. rewrite !nth_map_const by lia. auto.
  - cbn [andb]. split; [lia|]. split; [lia|]. intros j Hj. specialize (C3 j Hj).
    revert C3. unfold l_lower, l_upper, transform_domain_bounds. rewrite Ea. auto.
Qed.

Definition env_in_box (c : cfg) (i : inp) : Prop :=
  (forall pts p, i_samples i = Some pts -> In p pts -> in_box p (var_lower c) (var_upper c)) /\
  (forall q, i_prop i = Some q -> length q = length (var_lower c)).

Definition box_inv (c : cfg) (s : st) : Prop :=
  aligned c (T s) /\
  Forall (fun p => length p = length (var_lower c)) (node_pos (T s)) /\
  Forall (fun p => in_box p (var_lower c) (var_upper c)) (all_pos (T s)) /\
  (forall e p, In e (trace s) -> bb_point e = Some p -> in_box p (var_lower c) (var_upper c)).

Lemma bb_position e p : bb_point e = Some p -> ev_position e = Some p.
Proof. destruct e; cbn; auto; discriminate. Qed.

Lemma Forall_delete {A} (P : A -> Prop) l : Forall P l -> forall j, Forall P (delete_at j l).
Proof.
  intros H j. apply Forall_forall. intros x Hx. apply delete_at_incl in Hx.
  rewrite Forall_forall in H. auto.
Qed.

Lemma row_pos_origin c t mode es e : row_origin c t mode es e ->
  In (e_pos e) (all_pos t) \/ exists ev, In ev es /\ ev_position ev = Some (e_pos e).
Proof.
  intros [H1 H2 H3|el eu H1 H2 H3 H4|H1 H2 H3 H4|j Hj ->].
  - right. eexists; split; [exact H1|reflexivity].
  - right. eexists; split; [exact H1|reflexivity].
  - right. eexists; split; [exact H1|reflexivity].
  - left. cbn. now apply nth_In.
Qed.

Lemma box_reach c (ok : inp -> Prop) s l :
  box_ok (var_lower c) (var_upper c) -> (affine c = true -> integer_vars c = []) ->
  (0 <= min_dist c)%Q ->
  (forall p, In p (init_node_pos c) -> in_box p (var_lower c) (var_upper c)) ->
  (forall i, ok i -> env_in_box c i) ->
  reach c ok s l -> box_inv c s.
Proof.
  intros Hb Hs Hd Hu Hi. apply (reach_preserves c ok (box_inv c)).
  - intros s0 s1 Hq (H1 & H2 & H3 & H4). unfold box_inv. rewrite (q_T _ _ Hq).
    split; [assumption|]. split; [assumption|]. split; [assumption|].
    destruct (q_trace _ _ Hq) as (es & -> & Hsl). intros e p He Hp.
    apply in_app_or in He. destruct He as [He|He]; [eauto|].
    rewrite Forall_forall in Hsl. specialize (Hsl e He). destruct e; cbn in *; try discriminate; tauto.
  - intros i s0 s1 Hok H (H1 & H2 & H3 & H4). pose proof (aligned_restart _ _ _ _ H H1) as HA.
    apply restart_effect in H.
    destruct H as [(gen & evs & na & nn & usr & uevs & nu & G & _ & U & _ & _ & HT & _ & _ & _ & Ht)].
    destruct (Hi i Hok) as (Hsamp & _).
    assert (Hev : forall e p, In e (evs ++ uevs) -> ev_position e = Some p ->
                    in_box p (var_lower c) (var_upper c)).
    { intros e p He Hp. apply in_app_or in He. destruct He as [He|He].
      - destruct (gs_pos _ _ _ _ _ _ _ _ G e p He Hp) as (pts & E & Hin & _). eapply Hsamp; eauto.
      - apply Hu. eapply (us_evpos _ _ _ _ _ _ U); eauto. }
    assert (Hrow : forall e, In e (gen ++ usr) -> in_box (e_pos e) (var_lower c) (var_upper c)).
    { intros e He. assert (R : row_origin c (mark (T s0)) (noisy_mode (bump_restarts (C s0))) (evs ++ uevs) e).
      { apply in_app_or in He. destruct He as [He|He].
        - pose proof (gs_origin _ _ _ _ _ _ _ _ G) as F. rewrite Forall_forall in F.
          eapply row_origin_mono; [|apply F; assumption]. apply incl_appl, incl_refl.
        - pose proof (us_origin _ _ _ _ _ _ U) as F. rewrite Forall_forall in F.
          eapply row_origin_mono; [|apply F; assumption]. apply incl_appr, incl_refl. }
      apply row_pos_origin in R. destruct R as [R|(ev & E1 & E2)]; [|eauto].
      cbn in R. rewrite Forall_forall in H3. auto. }
    unfold box_inv. split; [assumption|]. rewrite HT, Ht. cbn. split; [|split].
    + apply Forall_forall. intros p Hp. apply in_map_iff in Hp. destruct Hp as (e & <- & He).
      destruct (Hrow e He) as (L1 & L2 & _). destruct Hb as (B1 & _).
      unfold to_scaled. rewrite transform_length; lia.
    + apply Forall_app; split; [assumption|]. apply Forall_forall. intros p Hp.
      apply in_map_iff in Hp. destruct Hp as (e & <- & He). auto.
    + intros e p He Hp. apply in_app_or in He. destruct He as [He|[<-|He]]; [eauto|discriminate|].
      eapply Hev; eauto. now apply bb_position.
  - intros j s0 s1 _ H (H1 & H2 & H3 & H4). pose proof (aligned_remove _ _ _ _ H H1) as HA.
    apply remove_fields in H. destruct H as (_ & HT & _ & _ & _ & Ht).
    unfold box_inv. split; [assumption|]. rewrite HT, Ht. cbn.
    split; [now apply Forall_delete|]. split; [now apply Forall_delete|]. assumption.
  - intros i q s0 l0 s1 l1 Hok Hq _ H (H1 & H2 & H3 & H4). apply evaluate_sum in H.
    destruct H as (v & noisy & e & es & [He HT _ _ _ Ht _ _ _]).
    assert (Lq : length q = length (var_lower c)).
    { destruct (Hi i Hok) as (_ & Hp). destruct Hq as [Hq|[(_ & s2 & j & P2 & Hj)|Hq]]; [auto| |lra].
      destruct P2 as (_ & P2 & _). apply nth_error_In in Hj. rewrite Forall_forall in P2. auto. }
    pose proof (proposal_in_box c q Hb Hs Lq) as Hin.
    destruct (search_bounds_length c) as (S1 & S2); [destruct Hb; lia|].
    unfold box_inv. rewrite HT, Ht. split; [now apply aligned_add|]. cbn. split; [|split].
    + apply Forall_app; split; [assumption|]. constructor; auto. rewrite clip_length; lia.
    + apply Forall_app; split; [assumption|]. constructor; auto.
    + intros e' p He' Hp. apply in_app_or in He'. destruct He' as [He'|He']; [eauto|].
      assert (p = to_orig c (clip q (l_lower c) (l_upper c))); [|subst; assumption].
      destruct He; cbn in He'; try tauto.
      * destruct He' as [<-|[]]. cbn in Hp. congruence.
      * destruct He' as [<-|[]]. cbn in Hp. congruence.
      * destruct He' as [<-|[<-|[]]]; cbn in Hp; congruence.
  - split; [apply aligned_init|]. split; [constructor|]. split; [constructor|]. intros e p [].
Qed.

(** ** C09 *)
Definition is_int (x : Q) : Prop := exists z : Z, (x == inject_Z z)%Q.
Definition integral (ints : list nat) (p : point) : Prop :=
  forall j, In j ints -> is_int (nth j p 0%Q).

Lemma clip1_int x lo up : is_int x -> is_int lo -> is_int up -> is_int (clip1 x lo up).
Proof.
  intros (a & Ha) (b & Hb) (d & Hd). unfold clip1.
  destruct (Q.max_spec x lo) as [[_ E]|[_ E]];
  match goal with |- is_int (Qmin ?m ?u) => destruct (Q.min_spec m u) as [[_ F]|[_ F]] end;
    [exists b|exists d|exists a|exists d]; rewrite F; try rewrite E; assumption.
Qed.
Lemma nth_map3_default p : forall lo up j, nth j (map3 clip1 p lo up) 0%Q = 0%Q \/
  nth j (map3 clip1 p lo up) 0%Q = clip1 (nth j p 0%Q) (nth j lo 0%Q) (nth j up 0%Q).
Proof.
  induction p as [|a p IH]; intros [|b lo] [|d up] [|j]; cbn; auto.
Qed.
Lemma integral_clip ints p lo up : integral ints p -> integral ints lo -> integral ints up ->
  integral ints (clip p lo up).
Proof.
  intros Hp Hl Hu j Hj. unfold clip.
  destruct (nth_map3_default p lo up j) as [-> | ->].
  - exists 0. reflexivity.
  - apply clip1_int; auto.
Qed.
Lemma integral_transform a lo up ints p r : integral ints p ->
  integral ints (transform_domain a lo up ints p r).
Proof.
  intros H. unfold transform_domain, scaling_on. destruct ints; [intros j []|].
  rewrite andb_false_r. assumption.
Qed.
Lemma nth_map_const_or (l : point) (x : Q) : forall j,
  nth j (map (fun _ => x) l) 0%Q = x \/ nth j (map (fun _ => x) l) 0%Q = 0%Q.
Proof. induction l as [|a l IH]; intros [|j]; cbn; auto. Qed.
Lemma integral_bounds c : integral (integer_vars c) (var_lower c) ->
  integral (integer_vars c) (var_upper c) ->
  integral (integer_vars c) (l_lower c) /\ integral (integer_vars c) (l_upper c).
Proof.
  intros H1 H2. unfold l_lower, l_upper, transform_domain_bounds.
  destruct (affine c); cbn [fst snd]; [|auto]. split; intros j Hj.
  - destruct (nth_map_const_or (var_lower c) 0 j) as [-> | ->]; exists 0; reflexivity.
  - destruct (nth_map_const_or (var_upper c) 1 j) as [-> | ->]; [exists 1|exists 0]; reflexivity.
Qed.

Definition env_integral (c : cfg) (i : inp) : Prop :=
  (forall pts p, i_samples i = Some pts -> In p pts -> integral (integer_vars c) p) /\
  (forall q, i_prop i = Some q -> integral (integer_vars c) q).
Definition int_inv (c : cfg) (s : st) : Prop :=
  Forall (integral (integer_vars c)) (node_pos (T s)) /\
  Forall (integral (integer_vars c)) (all_pos (T s)) /\
  (forall e p, In e (trace s) -> bb_point e = Some p -> integral (integer_vars c) p).

Lemma int_reach c (ok : inp -> Prop) s l :
  integral (integer_vars c) (var_lower c) -> integral (integer_vars c) (var_upper c) ->
  (0 <= min_dist c)%Q ->
  (forall p, In p (init_node_pos c) -> integral (integer_vars c) p) ->
  (forall i, ok i -> env_integral c i) ->
  reach c ok s l -> int_inv c s.
Proof.
  intros Hl Hup Hd Hu Hi. destruct (integral_bounds c Hl Hup) as (Hll & Hlu).
  apply (reach_preserves c ok (int_inv c)).
  - intros s0 s1 Hq (H2 & H3 & H4). unfold int_inv. rewrite (q_T _ _ Hq).
    split; [assumption|]. split; [assumption|].
    destruct (q_trace _ _ Hq) as (es & -> & Hsl). intros e p He Hp.
    apply in_app_or in He. destruct He as [He|He]; [eauto|].
    rewrite Forall_forall in Hsl. specialize (Hsl e He). destruct e; cbn in *; try discriminate; tauto.
  - intros i s0 s1 Hok H (H2 & H3 & H4). apply restart_effect in H.
    destruct H as [(gen & evs & na & nn & usr & uevs & nu & G & _ & U & _ & _ & HT & _ & _ & _ & Ht)].
    destruct (Hi i Hok) as (Hsamp & _).
    assert (Hev : forall e p, In e (evs ++ uevs) -> ev_position e = Some p ->
                    integral (integer_vars c) p).
    { intros e p He Hp. apply in_app_or in He. destruct He as [He|He].
      - destruct (gs_pos _ _ _ _ _ _ _ _ G e p He Hp) as (pts & E & Hin & _). eapply Hsamp; eauto.
      - apply Hu. eapply (us_evpos _ _ _ _ _ _ U); eauto. }
    assert (Hrow : forall e, In e (gen ++ usr) -> integral (integer_vars c) (e_pos e)).
    { intros e He. assert (R : row_origin c (mark (T s0)) (noisy_mode (bump_restarts (C s0))) (evs ++ uevs) e).
      { apply in_app_or in He. destruct He as [He|He].
        - pose proof (gs_origin _ _ _ _ _ _ _ _ G) as F. rewrite Forall_forall in F.
          eapply row_origin_mono; [|apply F; assumption]. apply incl_appl, incl_refl.
        - pose proof (us_origin _ _ _ _ _ _ U) as F. rewrite Forall_forall in F.
          eapply row_origin_mono; [|apply F; assumption]. apply incl_appr, incl_refl. }
      apply row_pos_origin in R. destruct R as [R|(ev & E1 & E2)]; [|eauto].
      cbn in R. rewrite Forall_forall in H3. auto. }
    unfold int_inv. rewrite HT, Ht. cbn. split; [|split].
    + apply Forall_forall. intros p Hp. apply in_map_iff in Hp. destruct Hp as (e & <- & He).
      apply integral_transform; auto.
    + apply Forall_app; split; [assumption|]. apply Forall_forall. intros p Hp.
      apply in_map_iff in Hp. destruct Hp as (e & <- & He). auto.
    + intros e p He Hp. apply in_app_or in He. destruct He as [He|[<-|He]]; [eauto|discriminate|].
      eapply Hev; eauto. now apply bb_position.
  - intros j s0 s1 _ H (H2 & H3 & H4).
    apply remove_fields in H. destruct H as (_ & HT & _ & _ & _ & Ht).
    unfold int_inv. rewrite HT, Ht. cbn.
    split; [now apply Forall_delete|]. split; [now apply Forall_delete|]. assumption.
  - intros i q s0 l0 s1 l1 Hok Hq _ H (H2 & H3 & H4). apply evaluate_sum in H.
    destruct H as (v & noisy & e & es & [He HT _ _ _ Ht _ _ _]).
    assert (Lq : integral (integer_vars c) q).
    { destruct (Hi i Hok) as (_ & Hp). destruct Hq as [Hq|[(_ & s2 & j & P2 & Hj)|Hq]]; [auto| |lra].
      destruct P2 as (P2 & _). apply nth_error_In in Hj. rewrite Forall_forall in P2. auto. }
    pose proof (integral_clip _ q _ _ Lq Hll Hlu) as Hc.
    assert (Hin : integral (integer_vars c) (to_orig c (clip q (l_lower c) (l_upper c))))
      by (apply integral_transform; assumption).
    unfold int_inv. rewrite HT, Ht. cbn. split; [|split].
    + apply Forall_app; split; [assumption|]. constructor; auto.
    + apply Forall_app; split; [assumption|]. constructor; auto.
    + intros e' p He' Hp. apply in_app_or in He'. destruct He' as [He'|He']; [eauto|].
      assert (p = to_orig c (clip q (l_lower c) (l_upper c))); [|subst; assumption].
      destruct He; cbn in He'; try tauto.
      * destruct He' as [<-|[]]. cbn in Hp. congruence.
      * destruct He' as [<-|[]]. cbn in Hp. congruence.
      * destruct He' as [<-|[<-|[]]]; cbn in Hp; congruence.
  - split; [constructor|]. split; [constructor|]. intros e p [].
Qed.
