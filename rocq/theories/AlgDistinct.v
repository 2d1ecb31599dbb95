(** * Accurate evaluations are made at pairwise distinct points (single phase, no scaling). *)
From Verif Require Export AlgMode SpecAlg.
From Coq Require Import Lia Lqa.
Open Scope Z_scope.

(** Points of the accurate evaluations, in order. *)
Definition acc_at (tr : list event) : list point :=
  flat_map (fun e => match e with EvAcc p _ => [p] | _ => [] end) tr.
(** No point is closer than [eps] to an earlier one. *)
Definition apart (eps : Q) (l : list point) : Prop := ForallOrdPairs (fun p q => dist_lt q p eps = false) l.

Lemma acc_at_app a b : acc_at (a ++ b) = acc_at a ++ acc_at b.
Proof. unfold acc_at. apply flat_map_app. Qed.
Lemma in_acc_at tr p : In p (acc_at tr) <-> exists v, In (EvAcc p v) tr.
Proof.
  unfold acc_at. rewrite in_flat_map. split.
  - intros (e & H1 & H2). destruct e; try destruct H2 as [H2|[]]; try destruct H2. subst. eauto.
  - intros (v & H). eexists. split; [exact H|left; reflexivity].
Qed.
Lemma acc_at_none es : (forall p v, ~ In (EvAcc p v) es) -> acc_at es = [].
Proof.
  intros H. destruct (acc_at es) as [|p r] eqn:E; [reflexivity|]. exfalso.
  assert (X : In p (acc_at es)) by (rewrite E; left; reflexivity). apply in_acc_at in X. destruct X as (v & X). eapply H; eauto.
Qed.
Lemma apart_app eps a b : apart eps a -> apart eps b -> (forall p q, In p a -> In q b -> dist_lt q p eps = false) ->
  apart eps (a ++ b).
Proof.
  intros HA HB HX. induction HA as [|x l F HA IH]; [exact HB|]. cbn. constructor.
  - apply Forall_app. split; [exact F|]. apply Forall_forall. intros q Hq. apply HX; [left; reflexivity|exact Hq].
  - apply IH. intros p q Hp. apply HX. right. exact Hp.
Qed.
Lemma remove_apart c noisy t old eps : forall pts, apart eps pts ->
  apart eps (fst (remove_existing c noisy t old pts)) /\ incl (fst (remove_existing c noisy t old pts)) pts.
Proof.
  induction pts as [|p r IH]; intros H; [split; [constructor|apply incl_refl]|]. inversion H as [|? ? F H']; subst.
  destruct (IH H') as (A & B). cbn [remove_existing]. destruct (remove_existing c noisy t old r) as [kept prev]. cbn [fst] in *.
  destruct (_ && _); cbn [fst].
  - split; [exact A|]. intros x Hx. right. apply B. exact Hx.
  - split; [constructor; [|exact A]|].
    + rewrite Forall_forall in F |- *. intros q Hq. apply F, B, Hq.
    + intros x [<-|Hx]; [left; reflexivity|right; apply B; exact Hx].
Qed.
Lemma acc_indexed (f : nat -> Q) : forall pts k,
  acc_at (map (fun jp => EvAcc (snd jp) (f (fst jp))) (indexed k pts)) = pts.
Proof. induction pts as [|p r IH]; intros k; [reflexivity|]. cbn. f_equal. apply IH. Qed.
Lemma gen_acc c k t i gen evs na nn eps : restart_gen c k t i = Ok (gen, evs, na, nn) ->
  (forall pts, i_samples i = Some pts -> apart eps pts) -> apart eps (acc_at evs).
Proof.
  unfold restart_gen. destruct (_ || _); [|intros H; injection H as <- <- <- <-; constructor].
  destruct (i_samples i) as [pts|]; [|discriminate]. cbv zeta. intros H HP. specialize (HP pts eq_refl).
  destruct (remove_apart c (noisy_mode k) t (firstn (nodes_at_restart t) (all_pos t)) eps pts HP) as (A & _).
  assert (X : apart eps (fst (if (nodes_at_restart t =? 0)%nat then (pts, []) else
     remove_existing c (noisy_mode k) t (firstn (nodes_at_restart t) (all_pos t)) pts)))
    by (destruct (_ =? 0)%nat; [exact HP|exact A]).
  match type of X with apart _ (fst ?w) => destruct w as [new prev] end. cbn [fst] in X.
  destruct (_ && _); [discriminate|]. unfold eval_samples in H. destruct (restart_accurate c k).
  - injection H as _ <- _ _. rewrite acc_indexed. exact X.
  - injection H as _ <- _ _. rewrite acc_at_none; [constructor|]. intros p v Hin. apply in_map_iff in Hin.
    destruct Hin as ((j & q) & E & _). cbn in E. destruct (i_rs_noisy i j) as [[a b] d]. discriminate.
Qed.
Lemma user_acc c k gen i usr uevs nu : restart_user c k gen i = (usr, uevs, nu) ->
  (length (init_node_pos c) <= length (init_node_val c))%nat -> acc_at uevs = [].
Proof.
  unfold restart_user. intros H HL. destruct (_ && _); [|injection H as _ <- _; reflexivity].
  cbv zeta in H. destruct (Nat.ltb_spec (length (init_node_val c)) (length (init_node_pos c))); [lia|].
  injection H as _ <- _. apply acc_at_none. intros p v Hin. rewrite map_map in Hin. apply in_map_iff in Hin.
  destruct Hin as (j & E & _). discriminate.
Qed.
Lemma restart_trace c i s s' : restart c i s = Ok s' -> exists gen evs na nn usr uevs nu,
  restart_gen c (bump_restarts (C s)) (mark (T s)) i = Ok (gen, evs, na, nn) /\
  restart_user c (bump_restarts (C s)) gen i = (usr, uevs, nu) /\
  trace s' = trace s ++ EvRestart :: evs ++ uevs.
Proof.
  unfold restart. cbv zeta. fold (mark (T s)). fold (bump_restarts (C s)).
  destruct (restart_gen c (bump_restarts (C s)) (mark (T s)) i)
    as [[[[gen evs] na] nn]|] eqn:Eg; cbn [bind]; [|discriminate].
  destruct (restart_user c (bump_restarts (C s)) gen i) as [[usr uevs] nu] eqn:Eu.
  destruct (gen ++ usr) as [|e0 rest] eqn:Er; [discriminate|].
  generalize (e0 :: rest) as rows. intros rows.
  match goal with |- context [current_gap c ?x] => destruct (current_gap c x) as [g|] eqn:Ec end;
    cbn [bind]; [|discriminate].
  destruct (length rows =? 1)%nat eqn:El; [discriminate|].
  intros H; injection H as <-.
  match goal with |- context [log_all ?v ?gg ?x] =>
    destruct (log_all_fields v gg x) as (F1 & F2 & F3 & F4 & F5) end.
  exists gen, evs, na, nn, usr, uevs, nu. split; [reflexivity|]. split; [exact Eu|]. rewrite F4. reflexivity.
Qed.

Definition dist_inv (c : cfg) (s : st) : Prop :=
  all_recorded c s /\ Forall (fun b => b = false) (all_is_noisy (T s)) /\ apart (eps_zero c) (acc_at (trace s)).

Lemma in_history c s p : all_recorded c s -> In p (acc_at (trace s)) -> In p (all_pos (T s)).
Proof.
  intros (_ & _ & F) H. apply in_acc_at in H. destruct H as (v & H). rewrite Forall_forall in F. specialize (F _ H).
  cbn in F. destruct F as (j & Hj & <- & _). apply nth_In. exact Hj.
Qed.

Lemma apart_reach c (ok : inp -> Prop) s l : no_removal c ->
  scaling_on (affine c) (integer_vars c) = false -> (eps_zero c <= min_dist c)%Q ->
  (length (init_node_pos c) <= length (init_node_val c))%nat ->
  (forall i pts, ok i -> i_samples i = Some pts -> apart (eps_zero c) pts) ->
  reach c ok s l -> apart (eps_zero c) (acc_at (trace s)).
Proof.
  intros Hn Hsc Hle Hu Hok HR.
  enough (HH : dist_inv c s) by apply HH. revert HR.
  apply (reach_preserves c ok (dist_inv c)).
  - intros s0 s1 Hq (H1 & H2 & H3). split; [eapply recorded_quiet; eauto|].
    split; [now rewrite (q_T _ _ Hq)|].
    destruct (q_trace _ _ Hq) as (es & -> & Hs). rewrite acc_at_app, (acc_at_none es), app_nil_r; [exact H3|].
    intros p v Hin. rewrite Forall_forall in Hs. exact (Hs _ Hin).
  - intros i s0 s1 Hi H (H1 & H2 & H3). split; [eapply recorded_restart; eauto|].
    split; [eapply flags_restart; eauto; apply H1|].
    destruct (restart_trace _ _ _ _ H) as (gen & evs & na & nn & usr & uevs & nu & G & U & Ht).
    rewrite Ht. change (EvRestart :: evs ++ uevs) with ([EvRestart] ++ evs ++ uevs). rewrite !acc_at_app.
    rewrite (user_acc _ _ _ _ _ _ _ U Hu), app_nil_r. cbn [acc_at flat_map app].
    apply apart_app; [exact H3| |].
    + exact (gen_acc _ _ _ _ _ _ _ _ _ G (fun pts => Hok i pts Hi)).
    + intros p q Hp Hq.
      pose proof (in_history _ _ _ H1 Hp) as Hh. pose proof H1 as (HA & Hm & _).
      destruct (aligned_lengths _ _ HA) as (_ & L2 & _).
      pose proof (restart_gen_spec c _ (mark (T s0)) _ _ _ _ _ eq_refl G) as GS.
      apply in_acc_at in Hq. destruct Hq as (v & Hq).
      destruct (gs_pos _ _ _ _ _ _ _ _ GS _ q Hq eq_refl) as (pts & _ & _ & D).
      change (nodes_at_restart (mark (T s0))) with (length (all_pos (T s0))) in D.
      change (all_pos (mark (T s0))) with (all_pos (T s0)) in D.
      change (all_is_noisy (mark (T s0))) with (all_is_noisy (T s0)) in D. rewrite firstn_all in D.
      destruct D as [D|[D|(_ & D)]].
      * destruct (all_pos (T s0)); [destruct Hh|discriminate].
      * destruct (dist_lt q p (eps_zero c)) eqn:Ed; [|reflexivity]. exfalso.
        assert (X : near (eps_zero c) q (all_pos (T s0)) = true).
        { unfold near. apply existsb_exists. exists p. split; [exact Hh|]. apply dist_lt_iff in Ed. destruct Ed as (E0 & E1).
          unfold dist_le. apply andb_true_iff. split; apply Qle_bool_iff; [lra|apply Qlt_le_weak; exact E1]. }
        congruence.
      * exfalso. assert (Z : (nearest q (all_pos (T s0)) < length (all_pos (T s0)))%nat).
        { apply nearest_lt. intros E. rewrite E in Hh. destruct Hh. }
        rewrite Forall_forall in H2. rewrite (H2 (nth (nearest q (all_pos (T s0))) (all_is_noisy (T s0)) false)) in D; [discriminate|]. apply nth_In. unfold point in *. lia.
  - destruct Hn. intros j s0 s1 [(? & _)|?]; [congruence|lra].
  - intros i q s0 l0 s1 l1 _ _ Hacc H (H1 & H2 & H3).
    split; [eapply recorded_eval; eauto|].
    pose proof H1 as (HA & Hm & HF).
    destruct (aligned_lengths _ _ HA) as (L1 & L2 & L3 & L4).
    apply evaluate_sum in H.
    destruct H as (v & noisy & e & es & [He HT _ HC _ Ht _ _ _]).
    set (p := clip q (l_lower c) (l_upper c)) in *.
    split.
    { rewrite HT. cbn. apply Forall_app; split; [assumption|]. constructor; [|constructor].
      destruct He; congruence. }
    rewrite Ht, acc_at_app. rewrite (scaling_off_orig c p Hsc) in He.
    destruct He as [j Hj Hf|j e Hj Hf Hm' Hl|Hlk Hm'|v el eu Hv Hm' Hlk|v el eu Hv Hm' Hlk Hreq];
      try congruence; [cbn; rewrite app_nil_r; exact H3| ].
    apply apart_app; [exact H3|repeat constructor|]. intros q0 p' Hin [<-|[]].
    assert (Hlk' : lookup_old c (T s0) p = None).
    { destruct Hlk as [?|(j & Hj & Hf)]; [assumption|]. exfalso.
      destruct (lookup_old_spec c (T s0) p j) as (_ & Hj2 & _); [lia|assumption|].
      rewrite Forall_forall in H2. rewrite (H2 (nth j (all_is_noisy (T s0)) false)) in Hf; [discriminate|].
      apply nth_In. lia. }
    pose proof (in_history _ _ _ H1 Hin) as Hh.
    destruct HA as [(opos & oval & onoisy & oerr & npos & Q1 & _ & _ & _ & Q5 & _ & _ & _ & Q9) _ _ _].
    assert (Hq0 : In q0 opos \/ In q0 npos) by (apply in_app_or; rewrite <- Q5; exact Hh).
    destruct Hq0 as [Hq0|Hq0].
    + apply (lookup_old_none c (T s0) p); [lia|assumption|]. rewrite Q5, <- Q1, firstn_app, Nat.sub_diag, firstn_all.
      cbn. now rewrite app_nil_r.
    + destruct Hacc as (_ & Hnear).
      destruct (dist_lt p q0 (eps_zero c)) eqn:Ed; [|reflexivity]. exfalso.
      apply dist_lt_iff in Ed. destruct Ed as (E0 & E1).
      destruct (Forall2_In_r _ _ _ _ Q9 Hq0) as (x & Hx & Hrel).
      assert (x = q0).
      { destruct Hrel as [Hr|Hr]; [rewrite scaling_off_orig in Hr by assumption
                                  |rewrite scaling_off_scaled in Hr by assumption]; congruence. }
      subst x. rewrite near_false in Hnear by apply Hn. specialize (Hnear q0 Hx).
      assert (eps_zero c * eps_zero c <= min_dist c * min_dist c)%Q by nra. lra.
  - split; [split; [apply aligned_init|split; [apply Hn|constructor]]|].
    split; [constructor|]. constructor.
Qed.
