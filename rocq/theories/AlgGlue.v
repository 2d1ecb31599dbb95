(** * From the lemmas to the statements in the vocabulary of [SpecAlg]. *)
From Verif Require Export SpecAlg Witness.
From Coq Require Import Lia Lqa.
Open Scope Z_scope.

Lemma evaluate_calls_eq tr : evaluate_calls tr = count_ev is_acc tr.
Proof. induction tr as [|e r IH]; [reflexivity|]. destruct e; cbn [evaluate_calls]; rewrite IH; unfold count_ev; cbn [filter is_acc length]; lia. Qed.
Lemma noisy_calls_eq tr : noisy_calls tr = count_ev is_noisy tr.
Proof. induction tr as [|e r IH]; [reflexivity|]. destruct e; cbn [noisy_calls]; rewrite IH; unfold count_ev; cbn [filter is_noisy length]; lia. Qed.
Lemma restarts_in_eq s : restarts_in (trace s) = restarts s.
Proof. unfold restarts. induction (trace s) as [|e r IH]; [reflexivity|]. destruct e; cbn [restarts_in]; rewrite IH; unfold count_ev; cbn [filter is_restart length]; lia. Qed.
Lemma checkpoints_eq tr : checkpoints tr = saves tr.
Proof. induction tr as [|e r IH]; [reflexivity|]. destruct e; cbn; rewrite ?IH; reflexivity. Qed.

Lemma counted_spec c ok s l : reach c ok s l ->
  evalcount (C s) = evaluate_calls (trace s) /\ noisy_evalcount (C s) = noisy_calls (trace s).
Proof. intros H. rewrite evaluate_calls_eq, noisy_calls_eq. exact (counted_reach _ _ _ _ H). Qed.

(** A state in which a call made on a reachable state ends is reachable. *)
Lemma run_reach c (ok : inp -> Prop) : forall is s l s', Forall ok is -> reach c ok s l ->
  run c is s l = Done s' \/ (exists l', run c is s l = Running s' l') -> exists l', reach c ok s' l'.
Proof.
  induction is as [|i is IH]; intros s l s' HF HR H; cbn in H.
  - destruct H as [?|(l' & H)]; [discriminate|]. inversion H; subst. eauto.
  - inversion HF; subst. destruct (pass c i s l) as [s1 l1| |e] eqn:E.
    + eapply IH; [eassumption| |exact H]. eapply reach_pass; eauto.
    + destruct H as [H|(l' & H)]; inversion H; subst; eauto.
    + destruct H as [H|(l' & H)]; discriminate.
Qed.
Lemma call_reach_init c (ok : inp -> Prop) i0 pa is s' : ok i0 -> Forall ok is ->
  call c i0 pa is (init_st c) = Done s' \/ (exists l', call c i0 pa is (init_st c) = Running s' l') ->
  exists l', reach c ok s' l'.
Proof.
  intros H0 HF H. unfold call in H. destruct (start_call c i0 pa (init_st c)) as [[s1 l1]|] eqn:E.
  - eapply run_reach; [exact HF| |exact H]. eapply reach_start; eauto.
  - destruct H as [?|(? & ?)]; discriminate.
Qed.
Lemma call_reach_again c (ok : inp -> Prop) i0 pa is s0 l0 s' : ok i0 -> Forall ok is -> reach c ok s0 l0 ->
  call c i0 pa is s0 = Done s' \/ (exists l', call c i0 pa is s0 = Running s' l') ->
  exists l', reach c ok s' l'.
Proof.
  intros H0 HF HR H. unfold call in H. destruct (start_call c i0 pa s0) as [[s1 l1]|] eqn:E.
  - eapply run_reach; [exact HF| |exact H]. eapply reach_again; eauto.
  - destruct H as [?|(? & ?)]; discriminate.
Qed.

Lemma start_call_cases c i0 pa s s1 l1 : start_call c i0 pa s = Ok (s1, l1) ->
  s1 = s \/ (itercount (C s) = 0 /\ restart c i0 s = Ok s1).
Proof.
  unfold start_call. destruct (Z.eqb_spec (itercount (C s)) 0) as [Hz|Hz].
  - destruct (restart c i0 s) as [sr|] eqn:E; cbn [bind]; [|discriminate].
    destruct (current_gap c sr); cbn [bind]; [|discriminate]. intros H; inversion H; subst; auto.
  - cbn [bind]. destruct (current_gap c s); cbn [bind]; [|discriminate]. intros H; inversion H; subst; auto.
Qed.

(** C02: one call of [optimize]. *)
Lemma call_budget c i0 pa is s0 s' S :
  0 <= S -> (forall i pts, In i (i0 :: is) -> i_samples i = Some pts -> Z.of_nat (length pts) <= S) ->
  call c i0 pa is s0 = Done s' \/ (exists l', call c i0 pa is s0 = Running s' l') ->
  evalcount (C s') <= Z.max (evalcount (C s0) + S + Z.of_nat (length (init_node_pos c)))
    (max_evaluations c - 1 + Z.max (2 * (S + Z.of_nat (length (init_node_pos c))))
                                   (S + Z.of_nat (length (init_node_pos c)) + 1)).
Proof.
  intros HS Hb H. unfold call in H.
  destruct (start_call c i0 pa s0) as [[s1 l1]|] eqn:E; [|destruct H as [?|(? & ?)]; discriminate].
  assert (HF : Forall (sample_bound c S) is).
  { apply Forall_forall. intros i Hi. unfold sample_bound. destruct (i_samples i) as [pts|] eqn:Es; [|exact Logic.I].
    eapply Hb; [right; exact Hi|exact Es]. }
  assert (H0 : sample_bound c S i0).
  { unfold sample_bound. destruct (i_samples i0) as [pts|] eqn:Es; [|exact Logic.I].
    eapply Hb; [left; reflexivity|exact Es]. }
  assert (H1 : evalcount (C s1) <= evalcount (C s0) + S + Z.of_nat (length (init_node_pos c))).
  { destruct (start_call_cases _ _ _ _ _ _ E) as [->|[Hz Hr]]; [lia|].
    pose proof (restart_budget' c i0 s0 s1 S HS H0 Hr) as B. unfold restart_cap in B.
    rewrite Hz in B. cbn in B. lia. }
  assert (HR : evalcount (C s') <= Z.max (evalcount (C s1))
         (max_evaluations c - 1 + Z.max (2 * (S + Z.of_nat (length (init_node_pos c)))) (S + Z.of_nat (length (init_node_pos c)) + 1))).
  { eapply run_budget; [exact HS|exact HF|]. destruct H as [H|H]; [right; exact H|left; exact H]. }
  lia.
Qed.

(** C03. *)
Lemma call_terminates c i0 pa is s0 :
  0 <= num_global_searches c ->
  2 * (Z.max 0 (max_iterations c - itercount (C s0)) + Z.max 0 (max_cycles c - cyclecount (C s0))) + 1
    < Z.of_nat (length is) ->
  ends_normally (call c i0 pa is s0) \/ fails (call c i0 pa is s0).
Proof.
  intros Hg Hl. unfold call, ends_normally, fails.
  destruct (start_call c i0 pa s0) as [[s1 l1]|e] eqn:E; [|right; eauto].
  assert (HL : left_over c s1 < Z.of_nat (length is)).
  { unfold left_over. destruct (start_call_cases _ _ _ _ _ _ E) as [->|[Hz Hr]].
    - destruct (current_step (C s0) =? 0); lia.
    - destruct (restart_counts _ _ _ _ Hr) as (A & B & _).
      rewrite A. destruct (current_step (C s1) =? 0); lia. }
  pose proof (run_terminates c is Hg s1 l1 HL) as R.
  destruct (run c is s1 l1); [destruct R|left; eauto|right; eauto].
Qed.

(** C06. *)
Lemma incumbents_spec c ok s l : has_noisy c = false -> (0 <= min_dist c)%Q -> reach c ok s l ->
  (first_minimum (node_val (T s)) (fmin_index (I s)) /\
   fmin (I s) = Some (nth (fmin_index (I s)) (node_val (T s)) 0%Q)) /\
  (first_minimum (all_val (T s)) (fbest_index (I s)) /\
   fbest (I s) = Some (nth (fbest_index (I s)) (all_val (T s)) 0%Q)) /\
  (exists w, fmax (I s) = Some w /\ (exists x, In x (node_val (T s)) /\ (x == w)%Q) /\
             forall x, In x (node_val (T s)) -> (x <= w)%Q).
Proof.
  intros H1 H2 H. destruct (incumbents_reach c ok s l (conj H1 H2) H) as [A B D _ _].
  split; [exact A|]. split; [exact D|]. destruct B as (w & Hw & Hx & Hle). exists w. auto.
Qed.

(** C07. *)
Lemma aligned_readable c t : aligned c t ->
  (length (node_val t) = length (node_pos t) /\ length (node_is_noisy t) = length (node_pos t) /\
   length (node_err t) = length (node_pos t) /\
   length (all_val t) = length (all_pos t) /\ length (all_is_noisy t) = length (all_pos t) /\
   length (all_err t) = length (all_pos t)) /\
  length (all_pos t) = (nodes_at_restart t + length (node_pos t))%nat /\
  node_val t = skipn (nodes_at_restart t) (all_val t) /\
  node_is_noisy t = skipn (nodes_at_restart t) (all_is_noisy t) /\
  node_err t = skipn (nodes_at_restart t) (all_err t) /\
  forall j, (j < length (node_pos t))%nat ->
    let p := nth j (node_pos t) [] in let po := nth (nodes_at_restart t + j) (all_pos t) [] in
    po = to_orig c p \/ p = to_scaled c po.
Proof.
  intros [Hex A1 A2 A3].
  destruct Hex as (op & ov & on & oe & np & L1 & L2 & L3 & L4 & E1 & E2 & E3 & E4 & HF).
  assert (HL : length (node_pos t) = length np) by (clear - HF; induction HF; cbn; congruence).
  rewrite E1, E2, E3, E4, !app_length. unfold point in *. rewrite L1, L2, L3, L4.
  split; [repeat split; lia|]. split; [lia|].
  split. { rewrite skipn_app, L2, <- L2, skipn_all, Nat.sub_diag. reflexivity. }
  split. { rewrite skipn_app, L3, <- L3, skipn_all, Nat.sub_diag. reflexivity. }
  split. { rewrite skipn_app, L4, <- L4, skipn_all, Nat.sub_diag. reflexivity. }
  intros j Hj. cbn zeta. rewrite app_nth2 by (unfold point in *; lia). rewrite L1, Nat.add_comm, Nat.add_sub.
  clear - HF Hj. revert j Hj. induction HF as [|p po ps pos Hp _ IH]; intros j Hj; cbn in *; [lia|].
  destruct j as [|j]; [exact Hp|apply IH; lia].
Qed.

Lemma aligned_spec c ok s l : reach c ok s l ->
  let t := T s in
  (length (node_val t) = length (node_pos t) /\ length (node_is_noisy t) = length (node_pos t) /\
   length (node_err t) = length (node_pos t) /\
   length (all_val t) = length (all_pos t) /\ length (all_is_noisy t) = length (all_pos t) /\
   length (all_err t) = length (all_pos t)) /\
  length (all_pos t) = (nodes_at_restart t + length (node_pos t))%nat /\
  node_val t = skipn (nodes_at_restart t) (all_val t) /\
  node_is_noisy t = skipn (nodes_at_restart t) (all_is_noisy t) /\
  node_err t = skipn (nodes_at_restart t) (all_err t) /\
  forall j, (j < length (node_pos t))%nat ->
    let p := nth j (node_pos t) [] in let po := nth (nodes_at_restart t + j) (all_pos t) [] in
    po = to_orig c p \/ p = to_scaled c po.
Proof. intros H t. exact (aligned_readable c t (aligned_reach c ok s l H)). Qed.

(** C08, C09, C10. *)
Lemma in_box_spec c s p : box_inv c s -> called_at (trace s) p -> within (var_lower c) (var_upper c) p.
Proof.
  intros (_ & _ & _ & H) [[v Hv]|(v & el & eu & Hv)]; eapply H; [exact Hv|reflexivity|exact Hv|reflexivity].
Qed.
Lemma box_spec c (ok : inp -> Prop) s l p :
  length (var_lower c) = length (var_upper c) ->
  (forall j, (j < length (var_lower c))%nat -> (nth j (var_lower c) 0 <= nth j (var_upper c) 0)%Q) ->
  (affine c = true -> integer_vars c = []) -> (0 <= min_dist c)%Q ->
  (forall q, In q (init_node_pos c) -> within (var_lower c) (var_upper c) q) ->
  (forall i, ok i ->
     (forall pts q, i_samples i = Some pts -> In q pts -> within (var_lower c) (var_upper c) q) /\
     (forall q, i_prop i = Some q -> length q = length (var_lower c))) ->
  reach c ok s l -> called_at (trace s) p -> within (var_lower c) (var_upper c) p.
Proof.
  intros H1 H2 H3 H4 H5 H6 HR. apply in_box_spec. eapply box_reach; eauto. split; assumption.
Qed.
Lemma int_spec c (ok : inp -> Prop) s l p :
  integer_at (integer_vars c) (var_lower c) -> integer_at (integer_vars c) (var_upper c) ->
  (0 <= min_dist c)%Q -> (forall q, In q (init_node_pos c) -> integer_at (integer_vars c) q) ->
  (forall i, ok i ->
     (forall pts q, i_samples i = Some pts -> In q pts -> integer_at (integer_vars c) q) /\
     (forall q, i_prop i = Some q -> integer_at (integer_vars c) q)) ->
  reach c ok s l -> called_at (trace s) p -> integer_at (integer_vars c) p.
Proof.
  intros H1 H2 H3 H4 H5 HR Hc.
  destruct (int_reach c ok s l H1 H2 H3 H4 H5 HR) as (_ & _ & H).
  destruct Hc as [[v Hv]|(v & el & eu & Hv)]; eapply H; [exact Hv|reflexivity|exact Hv|reflexivity].
Qed.
Lemma FOP_nth {A} (R : A -> A -> Prop) d l : ForallOrdPairs R l ->
  forall i j, (i < j < length l)%nat -> R (nth i l d) (nth j l d).
Proof.
  induction 1 as [|x l Hx _ IH]; intros i j Hij; cbn in *; [lia|].
  destruct j as [|j]; [lia|]. destruct i as [|i].
  - rewrite Forall_forall in Hx. apply Hx. apply nth_In. lia.
  - apply IH. lia.
Qed.
Lemma nth_FOP {A} (R : A -> A -> Prop) d l :
  (forall i j, (i < j < length l)%nat -> R (nth i l d) (nth j l d)) -> ForallOrdPairs R l.
Proof.
  induction l as [|x l IH]; intros H; constructor.
  - apply Forall_forall. intros y Hy. destruct (In_nth _ _ d Hy) as (k & Hk & <-).
    apply (H 0%nat (S k)). cbn. lia.
  - apply IH. intros i j Hij. apply (H (S i) (S j)). cbn. lia.
Qed.
Lemma apart_spec d ps : separated d ps <-> all_apart d ps.
Proof. split; [intros H i j; apply (FOP_nth _ [] _ H)|intros H; apply (nth_FOP _ []); exact H]. Qed.
Lemma sep_spec c (ok : inp -> Prop) s l :
  scaling_on (affine c) (integer_vars c) = false ->
  length (var_upper c) = length (var_lower c) -> (0 <= min_dist c)%Q -> (0 <= eps_zero c)%Q ->
  (forall p, In p (init_node_pos c) -> length p = length (var_lower c)) ->
  (forall i, ok i ->
     (forall pts, i_samples i = Some pts -> all_apart (min_dist c + 2 * eps_zero c) pts /\
        forall p, In p pts -> length p = length (var_lower c)) /\
     (forall q, i_prop i = Some q -> length q = length (var_lower c))) ->
  reach c ok s l -> all_apart (min_dist c) (node_pos (T s)).
Proof.
  intros H1 H2 H3 H4 H5 H6 HR. apply apart_spec. eapply separated_reach; eauto.
  intros i Hi. destruct (H6 i Hi) as [A B]. split.
  - split; [|exact B]. intros pts p Hp Hin. destruct (A pts Hp) as [_ A']. auto.
  - intros pts Hp. destruct (A pts Hp) as [A1 A2]. split; [apply apart_spec; exact A1|apply Forall_forall; exact A2].
Qed.

(** C12. *)
Lemma phase_spec c ok s l : reach c ok s l -> has_noisy c = false -> noisy_calls (trace s) = 0.
Proof.
  intros H Hn. destruct (mode_reach c ok s l H) as [_ M]. rewrite noisy_calls_eq.
  unfold count_ev. destruct (filter is_noisy (trace s)) as [|e r] eqn:E; [reflexivity|].
  assert (Hin : In e (filter is_noisy (trace s))) by (rewrite E; left; reflexivity).
  apply filter_In in Hin. destruct Hin as [H1 H2]. destruct e; try discriminate.
  rewrite (M _ _ _ _ H1) in Hn. discriminate.
Qed.
Lemma frozen_run c k : forall is s l s', frozen k s ->
  run c is s l = Done s' \/ (exists l', run c is s l = Running s' l') -> frozen k s'.
Proof.
  induction is as [|i is IH]; intros s l s' HF H; cbn in H.
  - destruct H as [?|(l' & H)]; [discriminate|]. inversion H; subst; exact HF.
  - destruct (pass c i s l) as [s1 l1| |e] eqn:E.
    + eapply IH; [|exact H]. eapply frozen_pass; eauto.
    + destruct H as [H|(l' & H)]; inversion H; subst; exact HF.
    + destruct H as [H|(l' & H)]; discriminate.
Qed.
Lemma switch_spec c ok i0 pa is s l s' : reach c ok s l -> noisy_mode (C s) = false ->
  (call c i0 pa is s = Done s' \/ (exists l', call c i0 pa is s = Running s' l')) ->
  noisy_mode (C s') = false /\ noisy_calls (trace s') = noisy_calls (trace s).
Proof.
  intros HR Hm H. destruct (counted_reach _ _ _ _ HR) as [_ Hn].
  assert (HF : frozen (count_ev is_noisy (trace s)) s) by (repeat split; auto).
  unfold call in H. destruct (start_call c i0 pa s) as [[s1 l1]|] eqn:E; [|destruct H as [?|(? & ?)]; discriminate].
  pose proof (frozen_run c _ is s1 l1 s' (frozen_start _ _ _ _ _ _ _ E HF) H) as (A & B & D).
  rewrite !noisy_calls_eq. auto.
Qed.

(** C13. *)
Lemma flags_spec c ok s l j : reach c ok s l -> (j < length (all_pos (T s)))%nat ->
  nth j (all_is_noisy (T s)) true = false -> nth j (all_err (T s)) (1, 1)%Q = (0, 0)%Q.
Proof.
  intros H Hj Hf. pose proof (flags_reach c ok s l H) as F. unfold flags_ok in F.
  pose proof (aligned_reach c ok s l H) as A. apply aligned_lengths in A.
  assert (Hl : (j < length (all_is_noisy (T s)))%nat) by (unfold point in *; lia). clear A.
  clear Hj. revert j Hl Hf. induction F as [|f e fs es Hfe _ IH]; intros j Hj Hf; cbn in *; [lia|].
  destruct j as [|j]; [apply Hfe; exact Hf|apply IH; [lia|exact Hf]].
Qed.
Lemma single_phase_spec c ok s l j : has_noisy c = false -> (0 <= min_dist c)%Q -> reach c ok s l ->
  (j < length (all_pos (T s)))%nat -> nth j (all_is_noisy (T s)) true = false.
Proof.
  intros H1 H2 H Hj. pose proof (single_phase_flags c ok s l (conj H1 H2) H) as F.
  pose proof (aligned_reach c ok s l H) as A. apply aligned_lengths in A.
  rewrite Forall_forall in F. apply F. apply nth_In. unfold point in *. lia.
Qed.

(** C15. *)
Lemma user_points_spec c i s s' : restart c i s = Ok s' -> itercount (C s) = 0 ->
  length (init_node_val c) = length (init_node_pos c) -> (0 <= min_dist c)%Q ->
  exists gen genv ge chosen tr,
    all_pos (T s') = all_pos (T s) ++ gen ++ map (fun j => nth j (init_node_pos c) []) chosen /\
    all_val (T s') = all_val (T s) ++ genv ++ map (fun j => nth j (init_node_val c) 0%Q) chosen /\
    all_is_noisy (T s') = all_is_noisy (T s) ++ ge ++ map (fun _ => false) chosen /\
    length genv = length gen /\ length ge = length gen /\
    trace s' = trace s ++ tr ++
      map (fun j => EvUser (nth j (init_node_pos c) []) (nth j (init_node_val c) 0%Q)) chosen /\
    (forall p v, ~ In (EvUser p v) tr) /\
    (forall e p, In e tr -> (exists v, e = EvAcc p v) \/ (exists v el eu, e = EvNoisy p v el eu) ->
        exists pts, i_samples i = Some pts /\ In p pts) /\
    (forall j, In j chosen <-> (j < length (init_node_pos c))%nat /\
       (forall q, In q gen -> (min_dist c * min_dist c < sqdist (nth j (init_node_pos c) []) q)%Q) /\
       (forall k, (k < j)%nat -> (min_dist c * min_dist c < sqdist (nth j (init_node_pos c) [])
                                                          (nth k (init_node_pos c) []))%Q)).
Proof.
  intros HR Hit Hlen Hd.
  destruct (restart_effect c i s s' HR) as [(gen & evs & na & nn & usr & uevs & nu & G & U & US & Hne & H1 & HT & HI & HC & HRf & Htr)].
  set (chosen := select_user c (map (fun e => fst (fst (fst e))) gen) [] 0 (init_node_pos c)).
  assert (Hu : usr = map (fun j => (nth j (init_node_pos c) [], nth j (init_node_val c) 0%Q, false, (0, 0)%Q)) chosen /\
               uevs = map (fun j => EvUser (nth j (init_node_pos c) []) (nth j (init_node_val c) 0%Q)) chosen).
  { unfold restart_user in U. unfold bump_restarts in U. cbn [itercount set_restarts] in U. rewrite Hit in U.
    rewrite Z.eqb_refl, andb_true_r in U.
    destruct (length (init_node_pos c) =? 0)%nat eqn:E0; cbn [negb] in U.
    - apply Nat.eqb_eq in E0. apply length_zero_iff_nil in E0. unfold chosen. unfold point in *. rewrite E0. cbn.
      inversion U; auto.
    - destruct (length (init_node_val c) <? length (init_node_pos c))%nat eqn:El; [apply Nat.ltb_lt in El; lia|].
      fold chosen in U. inversion U. rewrite !map_map. auto. }
  destruct Hu as [Hu1 Hu2].
  exists (map e_pos gen), (map e_val gen), (map e_noisy gen), chosen, (EvRestart :: evs).
  rewrite HT. unfold restart_tabs, mark. cbn [all_pos all_val all_is_noisy].
  rewrite !map_app, Hu1, !map_map, !map_length. cbn [e_pos e_val e_noisy fst snd].
  split; [reflexivity|]. split; [reflexivity|]. split; [reflexivity|]. split; [reflexivity|]. split; [reflexivity|].
  split. { rewrite Htr, Hu2. reflexivity. }
  split.
  { intros p v [Hx|Hx]; [discriminate|]. destruct (gs_events _ _ _ _ _ _ _ _ G _ Hx); discriminate. }
  split.
  { intros e p [He|He] Hev.
    - subst e. destruct Hev as [(v & ?)|(v & el & eu & ?)]; discriminate.
    - destruct (gs_pos _ _ _ _ _ _ _ _ G e p He) as (pts & Hp & Hin & _).
      + destruct Hev as [(v & ->)|(v & el & eu & ->)]; reflexivity.
      + eauto. }
  intros j. unfold chosen. rewrite (select_user_spec c _ _ Hd [] 0 j). rewrite Nat.sub_0_r.
  split.
  - intros (A & B & _ & D). split; [lia|]. split; [exact B|exact D].
  - intros (A & B & D). split; [lia|]. split; [exact B|]. split; [intros q []|exact D].
Qed.

(** C20. *)
Lemma history_spec c is s l s' : has_noisy c = false -> (0 <= min_dist c)%Q ->
  run c is s l = Done s' \/ (exists l', run c is s l = Running s' l') ->
  extends (all_pos (T s)) (all_pos (T s')) /\ extends (all_val (T s)) (all_val (T s')) /\
  extends (all_is_noisy (T s)) (all_is_noisy (T s')) /\ extends (all_err (T s)) (all_err (T s')).
Proof.
  intros H1 H2 H. destruct (gr_hist _ _ _ (run_grows c is s l s' H) (conj H1 H2)) as (a & b & d & e & A & B & D & E).
  unfold extends. eauto 10.
Qed.
Lemma restart_spec c i s s' : restart c i s = Ok s' ->
  extends (all_pos (T s)) (all_pos (T s')) /\ extends (all_val (T s)) (all_val (T s')) /\
  extends (all_is_noisy (T s)) (all_is_noisy (T s')) /\ extends (all_err (T s)) (all_err (T s')).
Proof.
  intros H. destruct (restart_keeps c i s s' H) as [_ (a & b & d & e & A & B & D & E)].
  unfold extends. eauto 10.
Qed.
Lemma monotone_spec c is s l s' :
  run c is s l = Done s' \/ (exists l', run c is s l = Running s' l') ->
  extends (trace s) (trace s') /\ evalcount (C s) <= evalcount (C s') /\
  noisy_evalcount (C s) <= noisy_evalcount (C s') /\ itercount (C s) <= itercount (C s') /\
  cyclecount (C s) <= cyclecount (C s') /\ not_worse (fbest (I s')) (fbest (I s)).
Proof. intros H. destruct (run_grows c is s l s' H) as [A B D E F _ G _]. repeat split; assumption. Qed.

(** C16. *)
Lemma cadence_spec c ok s l : reach c ok s l ->
  checkpoints (trace s) = multiples_upto (save_state_interval c) (itercount (C s)).
Proof. intros H. rewrite checkpoints_eq. exact (proj2 (cadence_reach c ok s l H)). Qed.

(** C22: a stretch of passes without restart: the values [fmin] after the completed
    iterations. *)
Inductive iterations (c : cfg) : st -> list (option Q) -> st -> loc -> Prop :=
| its_nil : forall s l, iterations c s [] s l
| its_pass : forall i s0 fs s l s' l', iterations c s0 fs s l -> pass c i s l = Cont s' l' ->
    restarts_in (trace s') = restarts_in (trace s) ->
    iterations c s0 (fs ++ (if itercount (C s') =? itercount (C s) then [] else [fmin (I s')])) s' l'.
Lemma iterations_stretch c s0 fs s l : iterations c s0 fs s l -> stretch c s0 fs s l.
Proof. induction 1; [constructor|]. econstructor; eauto. rewrite <- !restarts_in_eq. assumption. Qed.
Lemma stalling_spec c ok s0 l0 fs s l : reach c ok s0 l0 -> iterations c s0 fs s l ->
  exists moved after ref,
    fs = moved ++ after /\
    fmin_stall_check (C s) = Some ref /\
    last moved (fmin_stall_check (C s0)) = Some ref /\
    num_stalled_iter (C s) =
      match moved with [] => num_stalled_iter (C s0) | _ => 0 end + Z.of_nat (length after) /\
    Forall (fun f => exists x, f = Some x /\ (ref - eps_impr c * Qmax 1 (Qabs ref) < x)%Q) after.
Proof.
  intros HR HI. destruct (ref_some_reach c ok s0 l0 HR) as [R1 R2].
  destruct (stretch_stall c s0 fs s l (iterations_stretch _ _ _ _ _ HI) R1 R2) as [HS (r & Hr)].
  destruct (stall_closed _ _ _ _ _ _ HS) as (a & b & E1 & E2 & E3 & E4 & _).
  exists a, b, r. split; [exact E1|]. split; [exact Hr|]. split; [congruence|]. split; [exact E2|].
  eapply Forall_impl; [|exact E4]. cbn. intros f (x & y & -> & Hy & Hlt). exists x. split; [reflexivity|].
  assert (y = r) by congruence. subst. exact Hlt.
Qed.
Lemma restart_stall_spec c i s s' : restart c i s = Ok s' ->
  num_stalled_iter (C s') = 0 /\ fmin_stall_check (C s') = fmin (I s').
Proof.
  intros H. destruct (restart_effect c i s s' H) as [(gen & evs & na & nn & usr & uevs & nu & _ & _ & _ & _ & _ & _ & _ & HC & _)].
  rewrite HC. split; reflexivity.
Qed.
Lemma gap_up_to_date c i0 pa s0 s l is sm lm : has_noisy c = false /\ (0 <= min_dist c)%Q ->
  start_call c i0 pa s0 = Ok (s, l) -> run c is s l = Running sm lm ->
  restarts_in (trace sm) = restarts_in (trace s) -> current_gap c sm = Ok (gap lm).
Proof.
  intros H0 H1 H2 H3. rewrite !restarts_in_eq in H3.
  exact (fresh_run c H0 is s l sm lm H2 H3 (start_fresh _ _ _ _ _ _ H1)).
Qed.
Lemma steps_spec c ok s l : 0 <= num_global_searches c -> reach c ok s l ->
  0 <= current_step (C s) <= num_global_searches c + 3 /\
  (forall z, In (EvStep z) (trace s) -> 0 <= z <= num_global_searches c + 3 /\
     ((num_global_searches c <> 0 \/ do_infstep c = true \/ do_local_search c = true) ->
      (z = 0 -> do_infstep c = true) /\ (z = num_global_searches c + 1 -> do_local_search c = true))).
Proof.
  intros Hg H. destruct (sched_reach c ok s l Hg H) as [A B]. split; [exact A|].
  intros z Hz. destruct (B z Hz) as [D E]. split; [exact D|]. intros F.
  exact (proj2 (E (conj Hg F))).
Qed.
Lemma advance_spec c i s l s' l' : 0 <= num_global_searches c ->
  pass c i s l = Cont s' l' -> 0 <= current_step (C s) <= num_global_searches c + 1 ->
  must_restart c (C s) = false -> i_lin_ok i = true ->
  (current_step (C s) < num_global_searches c + 1 /\
   current_step (C s') = current_step (C s) + 1 /\ cyclecount (C s') = cyclecount (C s)) \/
  (current_step (C s) = num_global_searches c + 1 /\
   current_step (C s') = 0 /\ cyclecount (C s') = cyclecount (C s) + 1) \/
  (current_step (C s') = num_global_searches c + 2 /\ cyclecount (C s') = cyclecount (C s) /\
   (current_step (C s) = num_global_searches c + 1 \/
    current_step (C s) = num_global_searches c /\ do_local_search c = false)).
Proof.
  intros Hg H Hr Hm Hl. fold (local_search_step c) in *.
  destruct (pass_ordinary c i s l s' l' Hg H Hr Hm Hl) as [[A B]|[[A B] D]].
  - rewrite (next_step_values c _ Hg Hr) in A, B. unfold local_search_step in *.
    destruct (current_step (C s) =? num_global_searches c + 1) eqn:E.
    + right. left. apply Z.eqb_eq in E. split; [exact E|]. split; [exact A|].
      destruct (0 <? current_step (C s)) eqn:E2; [exact B|]. apply Z.ltb_ge in E2. lia.
    + left. apply Z.eqb_neq in E. split; [lia|]. split; [exact A|].
      destruct (current_step (C s) + 1 <? current_step (C s)) eqn:E2; [apply Z.ltb_lt in E2; lia|lia].
  - right. right. split; [exact A|]. split; [exact B|].
    unfold local_search_step in D. destruct D as [D|[D1 D2]]; [left; exact D|right; split; [lia|exact D2]].
Qed.
Lemma window_spec c i s l s' l' : pass c i s l = Cont s' l' ->
  restarts_in (trace s') = restarts_in (trace s) -> has_noisy c = false -> (0 <= min_dist c)%Q ->
  itercount (C s') = itercount (C s) /\ discarded (C s') = discarded (C s) /\ T s' = T s \/
  itercount (C s') = itercount (C s) + 1 /\
  exists b, discarded (C s') = last_entries (Z.to_nat (discarded_window_size c * num_cpus c)) (discarded (C s) ++ [b]) /\
    (if b then T s' = T s
     else exists p v noisy e, T s' = tabs_add p (to_orig c p) v noisy e (T s)).
Proof.
  intros H Hr Hn Hd. rewrite !restarts_in_eq in Hr.
  destruct (pass_window c i s l s' l' H Hr) as [A|(A & b & B & D)]; [left; exact A|right].
  split; [exact A|]. exists b. split; [exact B|]. exact (D (conj Hn Hd)).
Qed.
Lemma restart_reason_spec c i s l s' l' : pass c i s l = Cont s' l' ->
  restarts_in (trace s') <> restarts_in (trace s) ->
  let d := discarded (C s) in
  (current_step (C s) <= first_step c /\
   ((discarded_window_size c <= 2 * Z.of_nat (length d) /\
     (max_fraction_discarded c * inject_Z (Z.of_nat (length d)) <= inject_Z (Z.of_nat (count_true d)))%Q) \/
    (max_stalled_iterations c <= num_stalled_iter (C s) /\
     evalcount (C s) + 3 * (Z.of_nat (n c) + 1 + (num_global_searches c + 2)) < max_evaluations c /\
     cyclecount (C s) < max_cycles c - 1))) \/
  (i_lin_ok i = false /\ current_step (C s) <= num_global_searches c + 1) \/
  current_step (C s) = num_global_searches c + 3.
Proof.
  intros H Hr. rewrite !restarts_in_eq in Hr. cbv zeta.
  destruct (pass_restart_reason c i s l s' l' H Hr) as [A|[A|A]]; [left|right; left; exact A|right; right; exact A].
  unfold must_restart in A. apply andb_true_iff in A. destruct A as [A B].
  apply Z.leb_le in A. split; [exact A|]. apply orb_true_iff in B. destruct B as [B|B].
  - left. apply andb_true_iff in B. destruct B as [B D]. apply Z.leb_le in B. apply Qle_bool_iff in D. auto.
  - right. apply andb_true_iff in B. destruct B as [B D]. apply andb_true_iff in B. destruct B as [B E].
    apply Z.leb_le in B. apply Z.ltb_lt in D, E. unfold cycle_length in E. auto.
Qed.
Lemma two_nodes_after_restart c i s s' : restart c i s = Ok s' -> (2 <= length (node_pos (T s')))%nat.
Proof.
  intros H. destruct (restart_effect c i s s' H) as [(gen & evs & na & nn & usr & uevs & nu & _ & _ & _ & Hne & H1 & HT & _)].
  rewrite HT. cbn [restart_tabs node_pos]. rewrite map_length.
  destruct (gen ++ usr) as [|a [|b r]]; cbn in *; [congruence|congruence|lia].
Qed.
Lemma calls_reach c (ok : inp -> Prop) i0 pa is s0 l0 s' : ok i0 -> Forall ok is ->
  s0 = init_st c \/ reach c ok s0 l0 ->
  call c i0 pa is s0 = Done s' \/ (exists l', call c i0 pa is s0 = Running s' l') ->
  exists l', reach c ok s' l'.
Proof.
  intros H0 HF [->|HR] H; [eapply call_reach_init|eapply call_reach_again]; eauto.
Qed.
