(** * Refinement updates, serial and parallel; planning of a parallel refinement. *)
From Coq Require Import Lia.
From Verif Require Export SpecRefineRun.
From Verif Require Import BaseLemmas RefineAlg ParEffects ParStuck.
Open Scope Z_scope.

Lemma replaced_set_at r x l : replaced r x l (set_at r x l).
Proof.
  split; [apply set_at_length|]. revert r. induction l as [|a l IH]; intros r j Hj; cbn [length] in Hj; [lia|].
  destruct r as [|r], j as [|j]; cbn; auto. apply IH. lia.
Qed.
Section Common.
Variables (c : cfg) (i : inp) (s : st).
Let nodes := node_pos (T s).
Let newest := (length nodes - 1)%nat.
Let ms := ref_model_set (Rf s).
Lemma move_decided it0 mv : ref_iterate_index (Rf s) = Some it0 ->
  (if refine_move c (i_model_impr i) (i_real_impr i) then Some true
   else option_map (fun rep => (rep =? it0)%nat) (nth_error ms (i_to_replace i))) = Some mv ->
  (accepts_new c i s <-> mv = true).
Proof.
  intros Hi Hm. unfold accepts_new. fold ms. rewrite Hi. destruct (refine_move c _ _).
  - injection Hm as <-. tauto.
  - destruct (nth_error ms (i_to_replace i)) as [rep|]; [|discriminate]. injection Hm as <-. rewrite Nat.eqb_eq. split.
    + intros [H|(it & H1 & H2)]; congruence.
    + intros ->. right. exists it0. auto.
Qed.
Lemma farthest_best it1 : ms <> [] -> let at_ j := nth j nodes [] in let r := farthest (at_ it1) (map at_ ms) in
  (r < length ms)%nat /\ forall j, (j < length ms)%nat -> (sqdist (at_ it1) (at_ (nth j ms 0%nat)) <= sqdist (at_ it1) (at_ (nth r ms 0%nat)))%Q.
Proof.
  intros Hne at_ r. unfold r, farthest.
  assert (N : map (sqdist (at_ it1)) (map at_ ms) <> []) by (destruct ms; [congruence|discriminate]).
  destruct (argmax_spec _ N) as (H1 & H2 & _). rewrite !map_length in H1. split; [exact H1|]. intros j Hj.
  specialize (H2 j). rewrite !map_length in H2. specialize (H2 Hj). rewrite !map_map in H2.
  assert (E : forall k, (k < length ms)%nat -> nth k (map (fun x => sqdist (at_ it1) (at_ x)) ms) 0%Q = sqdist (at_ it1) (at_ (nth k ms 0%nat))).
  { intros k Hk. rewrite (nth_indep _ 0%Q (sqdist (at_ it1) (at_ 0%nat))) by (rewrite map_length; exact Hk). apply (map_nth (fun x => sqdist (at_ it1) (at_ x))). }
  rewrite map_map in H1 |- *. rewrite E in H2 by exact Hj. rewrite E in H2 by exact H1. exact H2.
Qed.
End Common.

Lemma stop_q a b (P : Prop) : ((a < b)%Q <-> P) -> Qltb a b = true <-> P.
Proof. rewrite Qltb_lt. auto. Qed.

Lemma parallel_update c i s s' : refinement_update_parallel c i s = Ok s' ->
  refinement_updated c i s s' (exists r, ref_radius (Rf s') = Some r /\ (r < ref_min_radius c)%Q).
Proof.
  unfold refinement_update_parallel. cbv zeta.
  destruct (ref_radius (Rf s)) as [rad|] eqn:Er; [|discriminate].
  destruct (ref_iterate_index (Rf s)) as [it0|] eqn:Ei; [|discriminate].
  match goal with |- context [match ?x with None => Fail EIndex | _ => _ end] => destruct x as [mv|] eqn:Em end; [|discriminate].
  pose proof (move_decided c i s it0 mv Ei Em) as AM.
  destruct (mv && stale (T s) (ref_model_set (Rf s))) eqn:E1; [discriminate|].
  set (newest := (length (node_pos (T s)) - 1)%nat) in *.
  set (it1 := if mv then newest else it0) in *.
  set (torep := if mv then farthest _ _ else i_to_replace i) in *.
  set (stop := Qltb _ _) in *.
  set (repl := i_rank_def i || _) in *.
  intros H. destruct (_ && stale _ _) eqn:E2 in H; [discriminate|]. injection H as <-.
  unfold refinement_updated. cbv zeta. change (Rf (set_R ?r s)) with r. cbn [ref_radius ref_model_set ref_iterate_index num_cons_refinement fmin_last_refine].
  fold newest. exists rad, it0, it1, torep. split; [exact Er|]. split; [exact Ei|]. split; [reflexivity|]. split; [reflexivity|].
  assert (ST : stop = true <-> exists r, Some (new_radius c rad (i_model_impr i) (i_real_impr i)) = Some r /\ (r < ref_min_radius c)%Q).
  { unfold stop. rewrite Qltb_lt. split; [intros X; eauto|intros (r & X & Y); injection X as <-; exact Y]. }
  split; [|split; [|split; [|split; [|split]]]].
  - intros A. apply AM in A. subst mv. split; [reflexivity|]. intros Hne. exact (farthest_best s it1 Hne).
  - intros A. destruct mv; [exfalso; apply A; apply AM; reflexivity|]. split; reflexivity.
  - intros A. apply ST in A. rewrite A. split; reflexivity.
  - intros A. destruct stop; [exfalso; apply A; apply ST; reflexivity|]. split; [reflexivity|]. cbn [negb andb]. split.
    + intros B. replace repl with true; [apply replaced_set_at|]. symmetry. unfold repl. apply Bool.orb_true_iff.
      destruct B as [B|B]; [auto|right]. apply Qle_bool_iff. exact B.
    + intros B. destruct repl eqn:R; [|reflexivity]. exfalso. apply B. unfold repl in R. apply Bool.orb_true_iff in R.
      destruct R as [R|R]; [auto|right]. apply Qle_bool_iff. exact R.
  - intros A. replace (_ <? max_consecutive_refinement c) with true; [reflexivity|]. symmetry. apply Z.ltb_lt. exact A.
  - intros A. replace (_ <? max_consecutive_refinement c) with false; [reflexivity|]. symmetry. apply Z.ltb_ge. exact A.
Qed.
Lemma serial_update c i s s' : refinement_update c i s = Ok s' ->
  refinement_updated c i s s' ((exists r, ref_radius (Rf s') = Some r /\ (r < ref_min_radius c)%Q) \/
    (max_consecutive_refinement c <= num_cons_refinement (Rf s) + 1 /\ unlimited_refinement c s (i_time_unl i) = false)).
Proof.
  unfold refinement_update. cbv zeta.
  destruct (ref_radius (Rf s)) as [rad|] eqn:Er; [|discriminate].
  destruct (ref_iterate_index (Rf s)) as [it0|] eqn:Ei; [|discriminate].
  match goal with |- context [match ?x with None => Fail EIndex | _ => _ end] => destruct x as [mv|] eqn:Em end; [|discriminate].
  pose proof (move_decided c i s it0 mv Ei Em) as AM.
  destruct (mv && stale (T s) (ref_model_set (Rf s))) eqn:E1; [discriminate|].
  set (newest := (length (node_pos (T s)) - 1)%nat) in *.
  set (it1 := if mv then newest else it0) in *.
  set (torep := if mv then farthest _ _ else i_to_replace i) in *.
  set (stop := Qltb _ _ || _) in *.
  set (repl := i_rank_def i || _) in *.
  intros H. destruct (_ && stale _ _) eqn:E2 in H; [discriminate|]. injection H as <-.
  unfold refinement_updated. cbv zeta. change (Rf (set_C _ (set_R ?r s))) with r. cbn [ref_radius ref_model_set ref_iterate_index num_cons_refinement fmin_last_refine].
  fold newest. exists rad, it0, it1, torep. split; [exact Er|]. split; [exact Ei|]. split; [reflexivity|]. split; [reflexivity|].
  assert (ST : stop = true <-> (exists r, Some (new_radius c rad (i_model_impr i) (i_real_impr i)) = Some r /\ (r < ref_min_radius c)%Q) \/
     (max_consecutive_refinement c <= num_cons_refinement (Rf s) + 1 /\ unlimited_refinement c s (i_time_unl i) = false)).
  { unfold stop. rewrite Bool.orb_true_iff, Bool.andb_true_iff, Bool.negb_true_iff, Z.leb_le, Qltb_lt.
    split; (intros [X|X]; [left|right; exact X]); [eauto|destruct X as (r & X & Y); injection X as <-; exact Y]. }
  split; [|split; [|split; [|split; [|split]]]].
  - intros A. apply AM in A. subst mv. split; [reflexivity|]. intros Hne. exact (farthest_best s it1 Hne).
  - intros A. destruct mv; [exfalso; apply A; apply AM; reflexivity|]. split; reflexivity.
  - intros A. apply ST in A. rewrite A. split; reflexivity.
  - intros A. destruct stop; [exfalso; apply A; apply ST; reflexivity|]. split; [reflexivity|]. cbn [negb andb]. split.
    + intros B. replace repl with true; [apply replaced_set_at|]. symmetry. unfold repl. apply Bool.orb_true_iff.
      destruct B as [B|B]; [auto|right]. apply Qle_bool_iff. exact B.
    + intros B. destruct repl eqn:R; [|reflexivity]. exfalso. apply B. unfold repl in R. apply Bool.orb_true_iff in R.
      destruct R as [R|R]; [auto|right]. apply Qle_bool_iff. exact R.
  - intros A. replace (_ <? max_consecutive_refinement c) with true; [reflexivity|]. symmetry. apply Z.ltb_lt. exact A.
  - intros A. replace (_ <? max_consecutive_refinement c) with false; [reflexivity|]. symmetry. apply Z.ltb_ge. exact A.
Qed.

(** ** The parallel optimizer *)
Lemma updates_frame c s : let s' := phase_update c (stalling_update c s) in T s' = T s /\ I s' = I s /\ Rf s' = Rf s.
Proof.
  cbv zeta. unfold phase_update. destruct (_ && _); unfold stalling_update; destruct (fmin _), (fmin_stall_check _);
    try destruct (improves _ _ _); repeat split; reflexivity.
Qed.
Lemma pass_frame c s s' : end_of_pass c s = Ok s' -> T s' = T s /\ I s' = I s /\ Rf s' = Rf s.
Proof.
  unfold end_of_pass. cbv zeta. destruct (_ =? 0); [discriminate|].
  match goal with |- context [stalling_update c ?x] => pose proof (updates_frame c x) as E end. cbv zeta in E.
  destruct (_ =? 0); intros H; injection H as <-; exact E.
Qed.
Lemma refine_row c q j P t P' : take_eval c q j P = Ok P' -> nth_error (pend (p_k P)) j = Some t -> t_id t = SRefine ->
  length (all_pos (T (p_s P'))) <> length (all_pos (T (p_s P))) ->
  busy (p_k P') = false /\ rcount (p_k P') = (rcount (p_k P) + 1)%Q /\
  exists s1, T s1 = T (p_s P') /\ I s1 = I (p_s P') /\ Rf s1 = Rf (p_s P) /\
    exists s2, refinement_update_parallel c (q_inp q) s1 = Ok s2 /\ Rf s2 = Rf (p_s P').
Proof.
  intros H Ht Hid Hg. unfold take_eval in H. rewrite Ht in H. cbv zeta in H.
  destruct (if t_noisy t then i_nval (q_inp q) else _) as [[v el] eu] eqn:Ev. rewrite Hid in H.
  destruct (node_pos (T (p_s P))) as [|p0 ps0] eqn:En; [discriminate|].
  destruct (near _ _ _); [injection H as <-; exfalso; apply Hg; reflexivity|].
  destruct (t_noisy t && existsb _ _); [injection H as <-; exfalso; apply Hg; reflexivity|].
  set (k1 := if t_noisy t then k_lc _ _ else _) in *.
  assert (Ek : rcount k1 = rcount (p_k P)) by (unfold k1; destruct (t_noisy t); reflexivity).
  destruct (t_noisy t && require_accurate _ _ _).
  - cbn [bind] in H. destruct (end_of_pass _ _) as [s'|] eqn:Ee; cbn [bind] in H; [|discriminate]. injection H as <-.
    exfalso. apply Hg. apply pass_frame in Ee. destruct Ee as (E1 & _). cbn [p_s set_s]. rewrite E1. reflexivity.
  - set (s1 := insert_node _ _ _ _ _ _) in *. destruct (current_gap c s1) as [g|]; cbn [bind] in H; [|discriminate].
    destruct (refinement_update_parallel _ _ _) as [s3|] eqn:Er; cbn [bind fst snd] in H; [|discriminate].
    destruct (end_of_pass _ _) as [s'|] eqn:Ee; cbn [bind] in H; [|discriminate]. injection H as <-.
    cbn [p_k set_s set_k note p_s fst snd k_refined busy rcount k_lc]. rewrite Ek. split; [reflexivity|]. split; [reflexivity|].
    exists (log_value v g s1).
    assert (E3 : T s3 = T (log_value v g s1) /\ I s3 = I (log_value v g s1)).
    { unfold refinement_update_parallel in Er. cbv zeta in Er. destruct (ref_radius _); [|discriminate]. destruct (ref_iterate_index _); [|discriminate].
      match type of Er with match ?x with None => _ | _ => _ end = _ => destruct x end; [|discriminate].
      destruct (_ && stale _ _); [discriminate|]. destruct (_ && stale _ _); [discriminate|]. injection Er as <-. split; reflexivity. }
    assert (E4 : T s' = T s3 /\ I s' = I s3 /\ Rf s' = Rf s3).
    { apply pass_frame in Ee. exact Ee. }
    destruct E3 as (A1 & A2), E4 as (B1 & B2 & B3).
    split; [congruence|]. split; [congruence|]. split; [reflexivity|]. exists s3. split; [exact Er|congruence].
Qed.
(** A refinement search that returns nothing usable. *)
Lemma refine_discard c q j P P' e : take_search c q j P = Ok P' -> nth_error (srch (p_k P)) j = Some e -> s_id e = SRefine ->
  length (pend (p_k P')) = length (pend (p_k P)) -> length (all_pos (T (p_s P'))) = length (all_pos (T (p_s P))) ->
  Rf (p_s P') = set_cons 0 (Rf (p_s P)) /\ T (p_s P') = T (p_s P) /\ busy (p_k P') = false /\ rcount (p_k P') = (rcount (p_k P) + 1)%Q /\
  itercount (C (p_s P')) = itercount (C (p_s P)) + 1 /\ srch (p_k P') = delete_at j (srch (p_k P)).
Proof.
  intros H He Hid Hp Ha. unfold take_search in H. rewrite He in H. cbv zeta in H. rewrite Hid in H.
  destruct (s_bad e); [discriminate|].
  set (P1 := set_k _ P) in *.
  assert (D : forall P2, Ok (discard_search c SRefine P1) = Ok P2 ->
    Rf (p_s P2) = set_cons 0 (Rf (p_s P)) /\ T (p_s P2) = T (p_s P) /\ busy (p_k P2) = false /\ rcount (p_k P2) = (rcount (p_k P) + 1)%Q /\
    itercount (C (p_s P2)) = itercount (C (p_s P)) + 1 /\ srch (p_k P2) = delete_at j (srch (p_k P))).
  { intros P2 X. injection X as <-. repeat split; reflexivity. }
  assert (U : forall p0 nz, use_point c q p0 nz SRefine P1 = Ok P' ->
    Rf (p_s P') = set_cons 0 (Rf (p_s P)) /\ T (p_s P') = T (p_s P) /\ busy (p_k P') = false /\ rcount (p_k P') = (rcount (p_k P) + 1)%Q /\
    itercount (C (p_s P')) = itercount (C (p_s P)) + 1 /\ srch (p_k P') = delete_at j (srch (p_k P))).
  { intros p0 nz X. unfold use_point in X. cbv zeta in X. destruct (node_pos _); [discriminate|]. destruct (_ || _); [auto|].
    assert (Sub : forall pp po, Ok (submit_point c q pp po nz SRefine P1) = Ok P' -> False).
    { intros pp po Y. injection Y as <-. cbn in Hp. rewrite app_length in Hp. cbn in Hp. lia. }
    destruct (lookup_old _ _ _) as [jj|]; [|exfalso; eapply Sub; exact X].
    destruct (_ || _); [|exfalso; eapply Sub; exact X].
    exfalso. unfold reuse_old in X. cbv zeta in X.
    match type of X with bind ?x _ = _ => destruct x as [s1|] eqn:E1 end; cbn [bind] in X; [|discriminate].
    destruct (current_gap _ _) as [g|]; cbn [bind] in X; [|discriminate].
    destruct (negb _); [discriminate|]. destruct (_ =? 0); [discriminate|].
    assert (EP : forall s0, T (phase_update c (stalling_update c s0)) = T s0) by (intros s0; apply (updates_frame c s0)).
    assert (ET : length (all_pos (T s1)) = S (length (all_pos (T (p_s P))))).
    { change (T (p_s P)) with (T (p_s P1)). destruct (nth jj _ _) in E1.
      - destruct (errs _); [|discriminate]. injection E1 as <-. cbn. rewrite app_length. cbn. lia.
      - injection E1 as <-. cbn. rewrite app_length. cbn. lia. }
    injection X as <-. cbn [p_s set_s set_k note] in Ha. rewrite EP in Ha.
    match type of Ha with context [if ?b then _ else _] => destruct b end; cbn in Ha; cbn in ET; lia. }
  destruct (q_ans q) as [[p|] adj|p ind]; auto; [apply (U _ _ H)|apply (U _ _ H)].
Qed.

(** ** Planning *)
Lemma improves_spec eps f v : improves eps f v = true <-> (f <= v - eps * Qmax 1 (Qabs v))%Q.
Proof. apply Qle_bool_iff. Qed.
Lemma cross_validate_spec pc0 P :
  (cross_validates pc0 P -> cross_validate pc0 P = set_cv (S (p_cv P)) P) /\ (~ cross_validates pc0 P -> cross_validate pc0 P = P).
Proof.
  unfold cross_validates, cross_validate, n_all, first_step, inf_step. cbv zeta.
  assert (E : (if do_infstep (base pc0) then 0 else 0 + 1) = (if do_infstep (base pc0) then 0 else 1)) by (destruct (do_infstep _); reflexivity).
  rewrite E. clear E.
  destruct (rbf_auto pc0); cbn [andb]; [|split; [intros (X & _); discriminate|reflexivity]].
  destruct (Z.ltb_spec (Z.of_nat (n (base pc0)) + 2) (Z.of_nat (length (node_pos (T (p_s P))) + length (tpos (p_k P))))); cbn [andb];
    [|split; [intros (_ & X & _); lia|reflexivity]].
  destruct (Z.leb_spec (current_step (C (p_s P))) (if do_infstep (base pc0) then 0 else 1)); cbn [andb];
    [|split; [intros (_ & _ & X & _); lia|reflexivity]].
  destruct (Z.ltb_spec (Z.of_nat (p_cv P)) (max_cross_validations pc0)); [|split; [intros (_ & _ & _ & X); lia|reflexivity]].
  split; [reflexivity|]. intros X. exfalso. apply X. auto.
Qed.
Lemma cross_frame pc0 P : p_s (cross_validate pc0 P) = p_s P /\ p_k (cross_validate pc0 P) = p_k P /\
  p_log (cross_validate pc0 P) = p_log P /\ p_next (cross_validate pc0 P) = p_next P.
Proof. unfold cross_validate. destruct (_ && _); repeat split; reflexivity. Qed.
Lemma plan_refinement_spec c q P m P' : plan_refinement c q P = Ok (m, P') -> m = PcHead /\ planned c (q_inp q) P P' (refinement_begins c P).
Proof.
  unfold plan_refinement. cbv zeta.
  match goal with |- bind ?x _ = _ -> _ => destruct x as [init|] eqn:Ei end; cbn [bind]; [|discriminate].
  assert (B : init = true <-> refinement_begins c P).
  { unfold refinement_begins. cbv zeta. destruct (Z.eqb_spec (num_cons_refinement (Rf (p_s P))) 0) as [E|E].
    - injection Ei as <-. split; auto.
    - unfold value_all in Ei. destruct (ref_iterate_index _) as [j|]; [|discriminate].
      destruct (nth_error _ j) as [v|] eqn:Ev; [|discriminate]. injection Ei as <-. split.
      + intros X. right. destruct (fmin _) as [f|]; [|discriminate]. exists j, v, f. split; [reflexivity|]. split; [exact Ev|]. split; [reflexivity|].
        apply improves_spec. exact X.
      + intros [X|(j' & v' & f & X1 & X2 & X3 & X4)]; [contradiction|]. injection X1 as <-. rewrite Ev in X2. injection X2 as <-.
        rewrite X3. apply improves_spec. exact X4. }
  destruct (init && stale _ _); [discriminate|]. destruct (init && (_ <? _)%nat); [discriminate|].
  destruct (stale_all _ _); [discriminate|].
  unfold planned. cbv zeta.
  destruct (i_ref_ok (q_inp q)); cbn [negb]; intros H; injection H as <- <-; (split; [reflexivity|]); destruct init;
    (repeat match goal with |- _ /\ _ => split end); try reflexivity; try discriminate;
    try (intros _; repeat split; reflexivity);
    try (intros X; first [exfalso; apply X; apply B; reflexivity|apply B in X; discriminate]).
  - intros _. repeat split; try reflexivity. eexists. reflexivity.
  - intros _. repeat split; try reflexivity. eexists. reflexivity.
Qed.
Lemma plan2_spec pc0 q P m P' : plan2 pc0 q P = Ok (m, P') -> i_lin_ok (q_inp q) = true ->
  current_step (C (p_s P)) <> restoration_step (base pc0) ->
  m = PcHead /\ (refinement_due (base pc0) P -> planned (base pc0) (q_inp q) P P' (refinement_begins (base pc0) P)) /\
  (~ refinement_due (base pc0) P -> exists bad, searched (base pc0) P P' bad).
Proof.
  intros H Hl Hz. unfold plan2, linear_phase in H. cbv zeta in H. rewrite Hl in H.
  destruct (cross_frame pc0 P) as (Es & Ek & _ & _).
  set (Pv := cross_validate pc0 P) in *. rewrite Es, Ek in H.
  destruct (Z.eqb_spec (current_step (C (p_s P))) (restoration_step (base pc0))) as [E|_]; [contradiction|].
  assert (D : negb (busy (p_k P)) && Qle_bool (rcount (p_k P)) (inject_Z (itercount (C (p_s P))) / inject_Z (refinement_frequency (base pc0)))%Q = true
              <-> refinement_due (base pc0) P).
  { unfold refinement_due. rewrite Bool.andb_true_iff, Bool.negb_true_iff, Qle_bool_iff. tauto. }
  destruct (negb _ && _) eqn:Ed.
  - apply plan_refinement_spec in H. destruct H as (H1 & H2). split; [exact H1|]. split; [intros _|intros X; exfalso; apply X; apply D; reflexivity].
    unfold planned, refinement_begins in *. rewrite Es, Ek in H2. exact H2.
  - split; [|split; [intros X; apply D in X; discriminate|intros _]].
    + injection H as <- _. reflexivity.
    + unfold searched. cbv zeta. unfold inf_step, local_search_step in H.
      destruct (_ =? 0); [|destruct (_ =? _)]; apply (f_equal (fun x => match x with Ok y => Some y | _ => None end)) in H;
        injection H as <- <-; eexists; cbn; rewrite Es, Ek; repeat split; reflexivity.
Qed.

(** ** The number of cross validations *)
Lemma rest_cv pc0 q P2 m P' (X Y : bool) :
    (if X then if idle (p_k P2)
          then restart_begin (base pc0) q WRest (set_s (set_C (set_underdet false (C (p_s P2))) (p_s P2)) P2)
          else Ok (PcHead, P2)
     else if Y then plan_refinement (base pc0) q P2
     else Ok (PcHead, set_s (advance_st (base pc0) (p_s (if current_step (C (p_s P2)) =? inf_step then submit_search SInf false P2
                  else if current_step (C (p_s P2)) =? local_search_step (base pc0)
                       then submit_search SLocal (stale_all P2 [fmin_index (I (p_s P2))]) P2
                       else submit_search SGlobal (stale_all P2 [fmin_index (I (p_s P2))]) P2)))
                  (if current_step (C (p_s P2)) =? inf_step then submit_search SInf false P2
                  else if current_step (C (p_s P2)) =? local_search_step (base pc0)
                       then submit_search SLocal (stale_all P2 [fmin_index (I (p_s P2))]) P2
                       else submit_search SGlobal (stale_all P2 [fmin_index (I (p_s P2))]) P2)))
     = Ok (m, P') -> p_cv P' = p_cv P2.
Proof.
  destruct X.
  - destruct (idle _); [|intros H; injection H as <- <-; reflexivity].
    intros H. apply restart_begin_eff in H. destruct H as (w & -> & B). apply (be_cv _ _ _ _ _ _ B).
  - destruct Y; [intros H; apply plan_refinement_cv in H; congruence|].
    intros H; injection H as <- <-. cbn. destruct (_ =? inf_step); [reflexivity|].
    destruct (_ =? local_search_step _); reflexivity.
Qed.
Lemma plan2_count pc0 q P m P' : plan2 pc0 q P = Ok (m, P') -> p_cv P' = p_cv (cross_validate pc0 P).
Proof.
  unfold plan2, linear_phase. cbv zeta. set (Pv := cross_validate pc0 P). clearbody Pv.
  destruct (i_lin_ok (q_inp q)); [apply rest_cv|].
  destruct (_ && _); [intros H; injection H as <- <-; reflexivity|].
  destruct (p_cv Pv =? 0)%nat; [discriminate|].
  set (P2 := set_s _ Pv). change (p_cv Pv) with (p_cv P2). apply rest_cv.
Qed.
Lemma other_count pc0 q m P m' P' : m <> PcPlan2 -> pstep pc0 q m P = (m', P') -> no_error m' -> p_cv P' = p_cv P.
Proof.
  intros Hm H N.
    destruct m as [|b| | | |kind w| | |e] eqn:Em; cbn [pstep] in H.
    + destruct (loop_cond _ _ _ _); injection H as <- <-; reflexivity.
    + destruct (ready _ _).
      * apply finish_ok in H; [|assumption]. destruct (take_eval _ _ _ _) eqn:E; cbn [bind] in H; [|discriminate].
        injection H as <- <-. apply take_eval_eff in E. destruct E; congruence.
      * destruct (_ <? _); injection H as <- <-; reflexivity.
    + destruct (ready _ _).
      * apply finish_ok in H; [|assumption]. destruct (take_search _ _ _ _) eqn:E; cbn [bind] in H; [|discriminate].
        injection H as <- <-. apply take_search_eff in E. apply search_cv in E. congruence.
      * destruct (_ <=? _); injection H as <- <-; reflexivity.
    + apply finish_ok in H; [|assumption]. apply plan_cv in H. congruence.
    + contradiction.
    + apply finish_ok in H; [|assumption]. unfold wait_step in H. cbv zeta in H.
      assert (X : restart_finish (base pc0) q kind w P = Ok (m', P') -> p_cv P' = p_cv P).
      { intros E. apply restart_finish_eff in E. apply (fe_cv _ _ _ _ _ _ _ E). }
      destruct (_ && _); [auto|]. destruct (ready _ _).
      * destruct (take_init _ _ _ _) as [[w' P1]|] eqn:E; cbn [bind fst snd] in H; [|discriminate].
        injection H as <- <-. apply take_init_eff in E. destruct E as [_ _ Ec _ _]. congruence.
      * destruct (_ <=? _); [auto|]. injection H as <- <-. reflexivity.
    + apply finish_ok in H; [|assumption]. unfold final_step in H. destruct (pend (p_k P)) as [|t0 r0]; [injection H as <- <-; reflexivity|].
      cbv zeta in H. destruct (node_pos _); [discriminate|]. destruct (t_noisy t0); [destruct (errs _); discriminate|].
      destruct (current_gap _ _); cbn [bind] in H; [|discriminate]. injection H as <- <-. reflexivity.
    + injection H as <- <-. reflexivity.
    + injection H as <- <-. exfalso. now apply (N e).
Qed.
Lemma start_count pc0 q pa P m P' : pstart pc0 q pa P = (m, P') -> no_error m -> p_cv P' = p_cv P.
Proof.
  intros H N. unfold pstart in H. cbv zeta in H. destruct (_ =? 0); [injection H as <- <-; reflexivity|]. destruct (_ =? 0).
  - apply finish_ok in H; [|assumption]. apply restart_begin_eff in H. destruct H as (w & -> & B).
    rewrite (be_cv _ _ _ _ _ _ B). reflexivity.
  - destruct (current_gap _ _) as [g|e]; injection H as <- <-; reflexivity.
Qed.
Lemma count_bound pc0 ok m P : preach pc0 ok m P -> no_error m ->
  Z.of_nat (p_cv P) <= Z.max 0 (max_cross_validations pc0) /\ (rbf_auto pc0 = false -> p_cv P = 0%nat).
Proof.
  intros HR. induction HR as [q pa m P Hok H|q pa P0 m P Hok HR IH H|q m0 P0 m P Hok HR IH H]; intros N.
  - rewrite (start_count _ _ _ _ _ _ H N). cbn. split; [lia|reflexivity].
  - rewrite (start_count _ _ _ _ _ _ H N). apply IH. intros e; discriminate.
  - assert (N0 : no_error m0) by (intros e ->; cbn in H; injection H as <- <-; now apply (N e)).
    specialize (IH N0). assert (D : m0 = PcPlan2 \/ m0 <> PcPlan2) by (destruct m0; auto; right; discriminate).
    destruct D as [->|D]; [|rewrite (other_count _ _ _ _ _ _ D H N); exact IH].
    cbn [pstep] in H. apply finish_ok in H; [|assumption]. apply plan2_count in H. rewrite H. unfold cross_validate.
    destruct (rbf_auto pc0) eqn:Ea; cbn [andb]; [|exact IH]. split; [|discriminate].
    destruct (_ && _ && (_ <? _)) eqn:Eb; [|apply IH]. cbn [p_cv set_cv]. apply andb_true_iff in Eb. destruct Eb as (_ & Eb).
    apply Z.ltb_lt in Eb. lia.
Qed.
