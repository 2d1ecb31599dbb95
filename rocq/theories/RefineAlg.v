(** * The refinement data of the optimizer: model set, iterate, radius (C60, C61, C93). *)
From Verif Require Export AlgSched.
From Coq Require Import Lia Lqa.
Open Scope Z_scope.

(** ** One update *)
Lemma set_at_in {A} (x y : A) : forall (l : list A) i, In y (set_at i x l) -> y = x \/ In y l.
Proof.
  induction l as [|a l IH]; intros i H; destruct i; cbn in H; try tauto.
  - destruct H as [->|H]; cbn; auto.
  - destruct H as [->|H]; cbn; auto. destruct (IH _ H); auto.
Qed.
Lemma set_at_new {A} (x : A) : forall (l : list A) i, (i < length l)%nat -> In x (set_at i x l).
Proof. induction l as [|a l IH]; intros [|i] H; cbn in *; try lia; auto. right. apply IH. lia. Qed.
Lemma set_at_keeps {A} (x y d : A) : forall (l : list A) i, In y l -> nth i l d <> y -> In y (set_at i x l).
Proof.
  induction l as [|a l IH]; intros [|i] H N; cbn in *; try contradiction.
  - destruct H as [->|H]; [congruence|auto].
  - destruct H as [->|H]; auto.
Qed.
Lemma set_at_nodup {A} (x : A) : forall (l : list A) i, NoDup l -> ~ In x l -> NoDup (set_at i x l).
Proof.
  induction l as [|a l IH]; intros [|i] N Hx; cbn; auto.
  - inversion N; subst. constructor; auto. intros H. apply Hx. right; auto.
  - inversion N; subst. constructor.
    + intros H. apply set_at_in in H as [->|H]; auto. apply Hx. left; auto.
    + apply IH; auto. intros H. apply Hx. right; auto.
Qed.
Lemma farthest_lt p ps : ps <> [] -> (farthest p ps < length ps)%nat.
Proof.
  intros H. unfold farthest. destruct (argmax_spec (map (sqdist p) ps)) as (L & _).
  - destruct ps; [congruence|discriminate].
  - now rewrite map_length in L.
Qed.
Lemma sqdist_self_le p q : Qle_bool (sqdist p p) (sqdist q p) = true.
Proof.
  apply Qle_bool_iff.
  rewrite sqdist_refl. apply sqdist_nonneg.
Qed.

Lemma update_spec c i s s' : refinement_update c i s = Ok s' ->
  exists rad it0, ref_radius (Rf s) = Some rad /\ ref_iterate_index (Rf s) = Some it0 /\
  let last := (length (node_pos (T s)) - 1)%nat in
  ref_radius (Rf s') = Some (new_radius c rad (i_model_impr i) (i_real_impr i)) /\
  length (ref_model_set (Rf s')) = length (ref_model_set (Rf s)) /\
  (forall j, In j (ref_model_set (Rf s')) -> j = last \/ In j (ref_model_set (Rf s))) /\
  (~ In last (ref_model_set (Rf s)) -> NoDup (ref_model_set (Rf s)) -> NoDup (ref_model_set (Rf s'))) /\
  (exists it1, ref_iterate_index (Rf s') = Some it1 /\ (it1 = last \/ it1 = it0) /\
     (refine_move c (i_model_impr i) (i_real_impr i) = true -> it1 = last)) /\
  (C s' = C s /\ num_cons_refinement (Rf s') = num_cons_refinement (Rf s) + 1 /\
     (ref_model_set (Rf s) <> [] -> In it0 (ref_model_set (Rf s)) ->
      exists it1, ref_iterate_index (Rf s') = Some it1 /\ In it1 (ref_model_set (Rf s'))) \/
   num_cons_refinement (Rf s') = 0 /\ ref_model_set (Rf s') = ref_model_set (Rf s) /\
     current_step (C s') = first_step c).
Proof.
  unfold refinement_update. cbv zeta.
  destruct (ref_radius (Rf s)) as [rad|] eqn:Er; [|discriminate].
  destruct (ref_iterate_index (Rf s)) as [it0|] eqn:Ei; [|discriminate].
  match goal with |- context [match ?x with None => Fail EIndex | _ => _ end] => destruct x as [mv|] eqn:Em end; [|discriminate].
  destruct (mv && stale (T s) (ref_model_set (Rf s))) eqn:E1; [discriminate|].
  set (last := (length (node_pos (T s)) - 1)%nat) in *.
  set (it1 := if mv then last else it0) in *.
  set (torep := if mv then farthest _ _ else i_to_replace i) in *.
  set (stop := Qltb _ _ || _) in *.
  set (repl := i_rank_def i || _) in *.
  intros H. destruct (_ && stale _ _) eqn:E2 in H; [discriminate|]. injection H as <-. exists rad, it0. split; auto. split; auto.
  change (Rf (set_C _ (set_R ?r s))) with r. cbn [ref_radius ref_model_set ref_iterate_index num_cons_refinement].
  change (C (set_C ?k _)) with k. split; [reflexivity|].
  assert (Mv : refine_move c (i_model_impr i) (i_real_impr i) = true -> it1 = last).
  { intros M. rewrite M in Em. cbv iota in Em. injection Em as Em. unfold it1. rewrite <- Em. reflexivity. }
  split; [destruct (negb stop && repl); [apply set_at_length|reflexivity]|].
  split; [intros j; destruct (negb stop && repl); [intros H; apply set_at_in in H as [->|H]; auto|auto]|].
  split; [intros N1 N2; destruct (negb stop && repl); [apply set_at_nodup; auto|auto]|].
  split; [exists it1; split; auto; split; auto; unfold it1; destruct mv; auto|].
  destruct stop eqn:Es; cbn [negb andb]; [right; split; auto|].
  left. split; [reflexivity|]. split; [reflexivity|].
  intros Ne Hin. exists it1. split; [reflexivity|].
  destruct mv.
  - assert (R : repl = true).
    { unfold repl, it1. destruct (i_rank_def i); [reflexivity|]. apply sqdist_self_le. }
    rewrite R. cbn [negb andb]. apply set_at_new. unfold torep.
    replace (length (ref_model_set (Rf s))) with (length (map (fun j => nth j (node_pos (T s)) []) (ref_model_set (Rf s)))) by apply map_length.
    apply farthest_lt. destruct (ref_model_set (Rf s)); [congruence|discriminate].
  - destruct (refine_move c (i_model_impr i) (i_real_impr i)) eqn:M; [discriminate|].
    destruct (nth_error (ref_model_set (Rf s)) (i_to_replace i)) as [rep|] eqn:En; [|discriminate].
    cbn in Em. injection Em as Em. apply Nat.eqb_neq in Em.
    destruct repl; [|exact Hin]. apply (set_at_keeps _ _ 0%nat); [exact Hin|].
    unfold torep. apply (nth_error_nth _ _ 0%nat) in En. rewrite En. exact Em.
Qed.
(** The number of consecutive refinements is bounded. *)
Lemma update_bound c i s s' : refinement_update c i s = Ok s' ->
  num_cons_refinement (Rf s') = 0 \/ num_cons_refinement (Rf s') < max_consecutive_refinement c \/
  unlimited_refinement c s (i_time_unl i) = true.
Proof.
  unfold refinement_update. cbv zeta.
  destruct (ref_radius (Rf s)) as [rad|]; [|discriminate].
  destruct (ref_iterate_index (Rf s)) as [it0|]; [|discriminate].
  match goal with |- context [match ?x with None => Fail EIndex | _ => _ end] => destruct x as [mv|] eqn:Em end; [|discriminate].
  destruct (mv && _); [discriminate|]. destruct (_ && stale _ _); [discriminate|].
  intros H. injection H as <-. change (Rf (set_C _ (set_R ?r s))) with r. cbn [num_cons_refinement].
  destruct (Qltb _ _); cbn [orb]; [auto|].
  destruct (Z.leb_spec (max_consecutive_refinement c) (num_cons_refinement (Rf s) + 1)); cbn [andb]; [|auto].
  destruct (unlimited_refinement c s (i_time_unl i)); cbn [negb]; auto.
Qed.

(** ** Along a run *)
(** The refinement data are usable: no refinement in progress, or the next step is a refinement, the
    model set consists of valid node indices and contains the iterate. *)
Definition refinement_ready (c : cfg) (s : st) : Prop :=
  num_cons_refinement (Rf s) = 0 \/
  (0 < num_cons_refinement (Rf s) /\ current_step (C s) = refinement_step c /\
   (forall j, In j (ref_model_set (Rf s)) -> (j < length (node_pos (T s)))%nat) /\
   exists it, ref_iterate_index (Rf s) = Some it /\ In it (ref_model_set (Rf s))).
(** The answers of the linear-algebra code in this pass: the linear model could be built; the model
    set chosen by the initialization of the refinement has valid indices and contains the centre. *)
Definition linear_model_ok (s : st) (i : inp) : Prop :=
  i_ref_ok i = true /\ (forall j, In j (i_ref_set i) -> (j < length (node_pos (T s)))%nat) /\
  In (fmin_index (I s)) (i_ref_set i).

Lemma end_Rf c s s' : end_of_pass c s = Ok s' -> Rf s' = Rf s /\ T s' = T s /\ current_step (C s') = current_step (C s).
Proof. intros H. apply end_fields in H. tauto. Qed.

Lemma after_ready c i s s' : after_eval c i s = Ok s' ->
  (num_cons_refinement (Rf s) = 0 \/ 0 < num_cons_refinement (Rf s)) ->
  (current_step (C s) = refinement_step c ->
     (forall j, In j (ref_model_set (Rf s)) -> (j < length (node_pos (T s)))%nat) /\
     exists it, ref_iterate_index (Rf s) = Some it /\ In it (ref_model_set (Rf s))) ->
  (current_step (C s) <> refinement_step c -> num_cons_refinement (Rf s) = 0) ->
  refinement_ready c s'.
Proof.
  intros H Hn Hr Hz. unfold after_eval in H. cbv zeta in H.
  destruct (Z.eqb_spec (current_step (C s)) (refinement_step c)) as [E|E].
  - destruct (refinement_update c i s) as [s1|] eqn:U; cbn [bind] in H; [|discriminate].
    injection H as <-. destruct (Hr E) as (V & it & I1 & I2).
    pose proof (refine_fields _ _ _ _ U) as (T1 & _).
    destruct (update_spec _ _ _ _ U) as (rad & it0 & _ & E2 & L & _ & M & _ & _ & D). cbv zeta in *.
    rewrite I1 in E2. injection E2 as <-.
    destruct D as [(C1 & N1 & It)|(N1 & _)].
    + right. cbn. split; [lia|]. split; [rewrite C1; exact E|]. split.
      * intros j Hj. rewrite T1. destruct (M j Hj) as [->|Hj']; [|auto].
        assert (length (node_pos (T s)) <> 0)%nat by (intros Z; specialize (V _ I2); lia). lia.
      * apply It; auto. intros Z. rewrite Z in I2. destruct I2.
    + left. cbn. exact N1.
  - left. specialize (Hz E). destruct (_ && _) in H; cbn [bind] in H; injection H as <-; cbn; exact Hz.
Qed.
Lemma conclude_ready c i s prop l s' l' : conclude c i s prop l = Cont s' l' ->
  (num_cons_refinement (Rf s) = 0 \/ 0 < num_cons_refinement (Rf s)) ->
  (current_step (C s) = refinement_step c ->
     (forall j, In j (ref_model_set (Rf s)) -> (j < length (node_pos (T s)))%nat) /\
     exists it, ref_iterate_index (Rf s) = Some it /\ In it (ref_model_set (Rf s))) ->
  (current_step (C s) <> refinement_step c -> num_cons_refinement (Rf s) = 0) ->
  refinement_ready c s'.
Proof.
  unfold conclude. cbv zeta. intros H Hn Hr Hz.
  assert (D : match end_of_pass c (discard_st c s) with Ok s4 => Cont s4 l | Fail e => Crash e end
                = Cont s' l' -> refinement_ready c s').
  { destruct (end_of_pass c (discard_st c s)) as [s4|] eqn:E; [|discriminate].
    intros HH; inversion HH; subst. apply end_Rf in E as (E & _). left. rewrite E. reflexivity. }
  destruct prop as [q|]; cbn [option_map] in H; [|apply D; exact H].
  destruct (node_pos (T s)) as [|x xs] eqn:En; [discriminate|].
  destruct (near (min_dist c) (clip q (l_lower c) (l_upper c)) (x :: xs)) eqn:Enear; [apply D; exact H|].
  rewrite <- En in *.
  destruct (evaluate c i _ _ s l) as [[s1 l1]|] eqn:Ee; cbn [bind fst snd] in H; [|discriminate].
  destruct (after_eval c i s1) as [s2|] eqn:Ea; cbn [bind] in H; [|discriminate].
  destruct (end_of_pass c s2) as [s3|] eqn:Eend; cbn [bind] in H; [|discriminate].
  inversion H; subst. apply evaluate_sum in Ee as (v & noisy & e & es & S). destruct S.
  assert (Cs : current_step (C s1) = current_step (C s)) by (rewrite ev_C; reflexivity).
  assert (R2 : refinement_ready c s2).
  { eapply after_ready; [exact Ea| | |]; rewrite ?ev_R, ?Cs; auto.
    intros Er. destruct (Hr Er) as (V & It). split; [|exact It]. intros j Hj. rewrite ev_T. cbn.
    rewrite app_length. cbn. specialize (V j Hj). lia. }
  apply end_Rf in Eend as (E1 & E2 & E3). unfold refinement_ready in *. rewrite E1, E2, E3. exact R2.
Qed.

Lemma restart_cons c i s s' : restart c i s = Ok s' -> num_cons_refinement (Rf s') = 0.
Proof.
  unfold restart. cbv zeta. destruct (restart_gen _ _ _ _) as [[[[gen evs] na] nn]|]; cbn [bind]; [|discriminate].
  destruct (restart_user _ _ _ _) as [[usr uevs] nu]. destruct (gen ++ usr); [discriminate|].
  destruct (current_gap _ _) as [g|]; cbn [bind]; [|discriminate]. destruct (_ =? 1)%nat; [discriminate|].
  intros H. injection H as <-.
  assert (E : forall vals g s0, Rf (log_all vals g s0) = Rf s0).
  { clear. induction vals as [|v r IH]; intros g s0; [reflexivity|]. cbn. unfold log_all in IH. rewrite IH. reflexivity. }
  rewrite E. reflexivity.
Qed.

Lemma ready_pass c i s l s' l' : 0 <= num_global_searches c -> linear_model_ok s i ->
  refinement_ready c s -> pass c i s l = Cont s' l' -> refinement_ready c s'.
Proof.
  intros Hg (Lok & Lv & Lin) R H. unfold pass in H.
  destruct (negb (loop_cond c s l (i_clock_ok i))); [discriminate|].
  assert (Hfs : first_step c < refinement_step c) by (unfold first_step, refinement_step, inf_step; destruct (do_infstep c); lia).
  assert (Hls : local_search_step c < refinement_step c) by (unfold local_search_step, refinement_step; lia).
  assert (Hrs : restoration_step c <> refinement_step c) by (unfold restoration_step, refinement_step; lia).
  assert (Hnr : current_step (C s) <> refinement_step c -> num_cons_refinement (Rf s) = 0).
  { intros N. destruct R as [R|(_ & R & _)]; [auto|contradiction]. }
  destruct (skip_step c (C s)) eqn:Sk.
  { injection H as <- <-. assert (N : current_step (C s) <> refinement_step c).
    { unfold skip_step in Sk. intros E. rewrite E in Sk. apply Bool.orb_true_iff in Sk.
      destruct Sk as [Sk|Sk]; apply Bool.andb_true_iff in Sk as [Sk _]; apply Z.eqb_eq in Sk;
        unfold refinement_step, inf_step, local_search_step in Sk; lia. }
    left. cbn. auto. }
  destruct (if must_restart c (C s) then restart c i s else Ok s) as [s1|] eqn:Er; [|discriminate].
  assert (S1 : num_cons_refinement (Rf s1) = 0 /\ current_step (C s1) <> refinement_step c \/ s1 = s).
  { destruct (must_restart c (C s)) eqn:Em; [|right; congruence]. left.
    destruct (restart_step _ _ _ _ Er) as (Hs & _). split; [|rewrite Hs; lia].
    eapply restart_cons; exact Er. }
  assert (R1 : refinement_ready c s1 /\ (current_step (C s1) = refinement_step c -> s1 = s)).
  { destruct S1 as [(Z & N)| ->]; [split; [left; auto|intros; contradiction]|split; auto]. }
  clear R Hnr S1 Er. destruct R1 as (R & Same).
  assert (Hnr : current_step (C s1) <> refinement_step c -> num_cons_refinement (Rf s1) = 0).
  { intros N. destruct R as [R|(_ & R & _)]; [auto|contradiction]. }
  destruct (prepare c i s1) as [s2|s2|e] eqn:Ep; [| |discriminate].
  2: { exfalso. unfold prepare in Ep. cbv zeta in Ep. rewrite Lok in Ep. cbn [negb] in Ep.
       repeat match type of Ep with
       | (if ?b then _ else _) = _ => destruct b; try discriminate
       | match ?b with Some _ => _ | None => _ end = _ => destruct b; try discriminate
       end. }
  assert (P2 : (num_cons_refinement (Rf s2) = 0 \/ 0 < num_cons_refinement (Rf s2)) /\
    (current_step (C s2) = refinement_step c ->
     (forall j, In j (ref_model_set (Rf s2)) -> (j < length (node_pos (T s2)))%nat) /\
     exists it, ref_iterate_index (Rf s2) = Some it /\ In it (ref_model_set (Rf s2))) /\
    (current_step (C s2) <> refinement_step c -> num_cons_refinement (Rf s2) = 0)).
  { unfold prepare in Ep. cbv zeta in Ep. rewrite Lok in Ep. cbn [negb] in Ep.
    destruct (Z.leb_spec (current_step (C s1)) (local_search_step c)) as [Hl|Hl].
    - assert (N : current_step (C s1) <> refinement_step c) by lia. specialize (Hnr N).
      destruct (i_lin_ok i); injection Ep as <-; cbn; auto using Hnr.
      + split; auto. split; auto. intros; contradiction.
      + split; auto. split; auto. intros; contradiction.
    - destruct (Z.eqb_spec (current_step (C s1)) (refinement_step c)) as [Er|Er].
      2: { injection Ep as <-. specialize (Hnr Er). split; auto. split; auto. intros; contradiction. }
      specialize (Same Er). subst s1.
      destruct (Z.eqb_spec (num_cons_refinement (Rf s)) 0) as [Ez|Ez].
      + cbn [andb] in Ep. destruct (stale (T s) [fmin_index (I s)]); [discriminate|].
        destruct (length (node_pos (T s)) <? 2)%nat; [discriminate|].
        destruct (stale _ _); [discriminate|]. cbn [set_R Rf ref_iterate_index] in Ep.
        destruct (stale _ _); [discriminate|]. injection Ep as <-. cbn. split; auto. split; [|auto].
        intros _. split; [exact Lv|]. eexists; split; [reflexivity|exact Lin].
      + cbn [andb] in Ep. destruct R as [R|(R1 & R2 & R3)]; [contradiction|].
        destruct (stale _ _); [discriminate|]. destruct (ref_iterate_index (Rf s)) eqn:Ei; [|discriminate].
        destruct (stale _ _); [discriminate|]. injection Ep as <-. rewrite Ei. split; auto. all: try (split; [intros _; exact R3|intros; contradiction]). }
  clear Ep R Hnr Same. destruct P2 as (P1 & P2 & P3).
  set (s3 := emit [EvStep (current_step (C s2))] s2) in *.
  assert (Q : (num_cons_refinement (Rf s3) = 0 \/ 0 < num_cons_refinement (Rf s3)) /\
    (current_step (C s3) = refinement_step c ->
     (forall j, In j (ref_model_set (Rf s3)) -> (j < length (node_pos (T s3)))%nat) /\
     exists it, ref_iterate_index (Rf s3) = Some it /\ In it (ref_model_set (Rf s3))) /\
    (current_step (C s3) <> refinement_step c -> num_cons_refinement (Rf s3) = 0)) by (cbn; auto).
  clearbody s3. clear s2 P1 P2 P3. destruct Q as (P1 & P2 & P3).
  destruct (negb (search_guard c s3)); [discriminate|].
  unfold search in H. cbv zeta in H.
  destruct (Z.eqb_spec (current_step (C s3)) (restoration_step c)) as [E1|E1].
  - assert (N : current_step (C s3) <> refinement_step c) by lia. specialize (P3 N).
    destruct (restoration_search c i s3) as [[[p r]|]|]; [| |discriminate].
    + destruct (remove_node r s3) as [s4|] eqn:Erm; [|discriminate]. apply remove_fields in Erm as (_ & _ & _ & HC & HR & _).
      eapply conclude_ready; [exact H| | |]; rewrite ?HC, ?HR; auto. intros; contradiction.
    + destruct (_ && _).
      * injection H as <- <-. left. cbn. auto.
      * destruct (restart c i s3) as [s4|] eqn:Er; [|discriminate]. injection H as <- <-. left.
        eapply restart_cons; exact Er.
  - destruct (Z.eqb_spec (current_step (C s3)) (local_search_step c)) as [E2|E2].
    + assert (N : current_step (C s3) <> refinement_step c) by lia. specialize (P3 N).
      destruct (local_result c i s3) as [j|].
      * destruct (nth_error _ _); [|discriminate]. destruct (remove_node j s3) as [s4|] eqn:Erm; [|discriminate].
        apply remove_fields in Erm as (_ & _ & _ & HC & HR & _).
        eapply conclude_ready; [exact H| | |]; rewrite ?HC, ?HR; auto. intros; contradiction.
      * eapply conclude_ready; [exact H| | |]; auto.
    + eapply conclude_ready; [exact H| | |]; auto.
Qed.
