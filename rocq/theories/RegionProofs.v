(** * Regions of the search space closed under clipping and scaling (serial runs). *)
From Verif Require Export AlgBox.
From Coq Require Import Lia Lqa.
Open Scope Z_scope.

Section Region.
  Variables (c : cfg) (ok : inp -> Prop) (G : point -> Prop).
  Hypothesis Gdist : (0 <= min_dist c)%Q.
  Hypothesis Gsample : forall i pts p, ok i -> i_samples i = Some pts -> In p pts -> G p.
  Hypothesis Guser : forall p, In p (init_node_pos c) -> G p.
  Hypothesis Gprop : forall i p, ok i -> i_prop i = Some p -> G p.
  Hypothesis Gclip : forall p, G p -> G (clip p (l_lower c) (l_upper c)).
  Hypothesis Gorig : forall p, G p -> G (to_orig c p).
  Hypothesis Gscaled : forall p, G p -> G (to_scaled c p).

  Definition region (s : st) : Prop :=
    Forall G (node_pos (T s)) /\ Forall G (all_pos (T s)) /\
    (forall e p, In e (trace s) -> bb_point e = Some p -> G p).

  Lemma region_runs s l : reach c ok s l -> region s.
  Proof.
    apply (reach_preserves c ok region).
    - intros s0 s1 Hq (H2 & H3 & H4). unfold region. rewrite (q_T _ _ Hq).
      split; [assumption|]. split; [assumption|].
      destruct (q_trace _ _ Hq) as (es & -> & Hsl). intros e p He Hp.
      apply in_app_or in He. destruct He as [He|He]; [eauto|].
      rewrite Forall_forall in Hsl. specialize (Hsl e He). destruct e; cbn in *; try discriminate; tauto.
    - intros i s0 s1 Hok H (H2 & H3 & H4). apply restart_effect in H.
      destruct H as [(gen & evs & na & nn & usr & uevs & nu & GG & _ & U & _ & _ & HT & _ & _ & _ & Ht)].
      assert (Hev : forall e p, In e (evs ++ uevs) -> ev_position e = Some p -> G p).
      { intros e p He Hp. apply in_app_or in He. destruct He as [He|He].
        - destruct (gs_pos _ _ _ _ _ _ _ _ GG e p He Hp) as (pts & E & Hin & _). eapply Gsample; eauto.
        - apply Guser. eapply (us_evpos _ _ _ _ _ _ U); eauto. }
      assert (Hrow : forall e, In e (gen ++ usr) -> G (e_pos e)).
      { intros e He. assert (R : row_origin c (mark (T s0)) (noisy_mode (bump_restarts (C s0))) (evs ++ uevs) e).
        { apply in_app_or in He. destruct He as [He|He].
          - pose proof (gs_origin _ _ _ _ _ _ _ _ GG) as F. rewrite Forall_forall in F.
            eapply row_origin_mono; [|apply F; assumption]. apply incl_appl, incl_refl.
          - pose proof (us_origin _ _ _ _ _ _ U) as F. rewrite Forall_forall in F.
            eapply row_origin_mono; [|apply F; assumption]. apply incl_appr, incl_refl. }
        apply row_pos_origin in R. destruct R as [R|(ev & E1 & E2)]; [|eauto].
        cbn in R. rewrite Forall_forall in H3. auto. }
      unfold region. rewrite HT, Ht. cbn. split; [|split].
      + apply Forall_forall. intros p Hp. apply in_map_iff in Hp. destruct Hp as (e & <- & He). auto.
      + apply Forall_app; split; [assumption|]. apply Forall_forall. intros p Hp.
        apply in_map_iff in Hp. destruct Hp as (e & <- & He). auto.
      + intros e p He Hp. apply in_app_or in He. destruct He as [He|[<-|He]]; [eauto|discriminate|].
        eapply Hev; eauto. now apply bb_position.
    - intros j s0 s1 _ H (H2 & H3 & H4).
      apply remove_fields in H. destruct H as (_ & HT & _ & _ & _ & Ht).
      unfold region. rewrite HT, Ht. cbn.
      split; [now apply Forall_delete|]. split; [now apply Forall_delete|]. assumption.
    - intros i q s0 l0 s1 l1 Hok Hq _ H (H2 & H3 & H4). apply evaluate_sum in H.
      destruct H as (v & noisy & e & es & [He HT _ _ _ Ht _ _ _]).
      assert (Lq : G q).
      { destruct Hq as [Hq|[(_ & s2 & j & P2 & Hj)|Hq]]; [eauto| |lra].
        destruct P2 as (P2 & _). apply nth_error_In in Hj. rewrite Forall_forall in P2. auto. }
      unfold region. rewrite HT, Ht. cbn. split; [|split].
      + apply Forall_app; split; [assumption|]. constructor; auto.
      + apply Forall_app; split; [assumption|]. constructor; auto.
      + intros e' p He' Hp. apply in_app_or in He'. destruct He' as [He'|He']; [eauto|].
        assert (p = to_orig c (clip q (l_lower c) (l_upper c))); [|subst; auto].
        destruct He; cbn in He'; try tauto.
        * destruct He' as [<-|[]]. cbn in Hp. congruence.
        * destruct He' as [<-|[]]. cbn in Hp. congruence.
        * destruct He' as [<-|[<-|[]]]; cbn in Hp; congruence.
    - split; [constructor|]. split; [constructor|]. intros e p [].
  Qed.
End Region.
