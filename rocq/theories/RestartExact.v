(** * Proofs: the outcomes of a restart *)
From Verif Require Import WitnessAlg AlgRestart BaseLemmas.
Open Scope Z_scope.

Lemma remove_existing_length c noisy t old pts :
  (length (fst (remove_existing c noisy t old pts)) + length (snd (remove_existing c noisy t old pts)) = length pts)%nat.
Proof.
  induction pts as [|p r IH]; cbn [remove_existing]; [reflexivity|]. destruct (remove_existing c noisy t old r) as [k v]. cbn [fst snd] in IH.
  destruct (_ && _); cbn [fst snd length]; rewrite ?app_length; cbn [length]; lia.
Qed.
Lemma remove_existing_none c t old pts :
  length (fst (remove_existing c true t old pts)) = 0%nat <-> forall p, In p pts -> near (eps_zero c) p old = true.
Proof.
  induction pts as [|p r IH]; cbn [remove_existing]; [split; [intros _ q []|reflexivity]|].
  destruct (remove_existing c true t old r) as [k v]. cbn [fst] in IH. cbn [orb]. rewrite andb_true_r.
  destruct (near (eps_zero c) p old) eqn:E; cbn [fst length].
  - rewrite IH. split; [intros H q [<-|Hq]; auto|intros H q Hq; apply H; right; exact Hq].
  - split; [discriminate|]. intros H. rewrite (H p (or_introl eq_refl)) in E. discriminate.
Qed.
Lemma indexed_length {A} (l : list A) : forall i, length (indexed i l) = length l.
Proof. induction l; intros; cbn; auto. Qed.
Lemma eval_samples_length acc mn i pts : length (fst (eval_samples acc mn i pts)) = length pts.
Proof. unfold eval_samples. destruct acc; cbn [fst]; rewrite map_length; apply indexed_length. Qed.

(** A sample is evaluated noisily by the next restart. *)
Definition noisily (c : cfg) (s : st) : Prop :=
  noisy_mode (C s) = true /\ num_noisy_restarts (C s) + 1 <= max_noisy_restarts c /\
  noisy_evalcount (C s) + Z.of_nat (n c) + 1 < max_noisy_evaluations c.

Lemma accurate_iff c s : restart_accurate c (set_restarts (num_noisy_restarts (C s) + (if noisy_mode (C s) then 1 else 0)) (C s)) = false <-> noisily c s.
Proof.
  unfold restart_accurate, noisily. cbn [noisy_mode num_noisy_restarts noisy_evalcount set_restarts].
  destruct (noisy_mode (C s)); cbn [negb orb]; [|split; [discriminate|intros (X & _); discriminate]].
  rewrite orb_false_iff, Z.ltb_ge, Z.leb_gt. tauto.
Qed.
Lemma restart_outcomes c i s pts : 0 < itercount (C s) -> all_pos (T s) <> [] -> length (all_err (T s)) = length (all_pos (T s)) ->
  (fbest_index (I s) < length (all_err (T s)))%nat -> i_samples i = Some pts -> (2 <= length pts)%nat ->
  (noisily c s /\ (forall p, In p pts -> near (eps_zero c) p (all_pos (T s)) = true) /\ restart c i s = Fail EIndex) \/
  (~ (noisily c s /\ (forall p, In p pts -> near (eps_zero c) p (all_pos (T s)) = true)) /\ exists s', restart c i s = Ok s' /\ length (node_pos (T s')) = length pts).
Proof.
  intros Hit Hne Hal Hfb Hs Hl. unfold restart.
  set (k1 := set_restarts _ (C s)). set (t1 := mkTabs _ _ _ _ _ _ _ _ _).
  assert (KI : itercount k1 = itercount (C s)) by reflexivity. assert (KN : noisy_mode k1 = noisy_mode (C s)) by reflexivity.
  assert (NR : (nodes_at_restart t1 =? 0)%nat = false) by (apply Nat.eqb_neq; cbn; destruct (all_pos (T s)); [congruence|discriminate]).
  assert (OLD : firstn (nodes_at_restart t1) (all_pos t1) = all_pos (T s)) by (cbn [nodes_at_restart all_pos t1]; apply firstn_all).
  pose proof (accurate_iff c s) as ACC. fold k1 in ACC.
  unfold restart_gen. rewrite KI, (proj2 (Z.ltb_lt _ _) Hit), Hs, NR, OLD. cbn [orb]. rewrite KN.
  pose proof (remove_existing_length c (noisy_mode (C s)) t1 (all_pos (T s)) pts) as LEN.
  pose proof (remove_existing_none c t1 (all_pos (T s)) pts) as NONE.
  destruct (remove_existing c (noisy_mode (C s)) t1 (all_pos (T s)) pts) as [new prev] eqn:RE. cbn [fst snd] in LEN.
  destruct (negb (restart_accurate c k1) && (length new =? 0)%nat) eqn:B.
  - left. apply andb_true_iff in B. destruct B as (B1 & B2). apply negb_true_iff in B1. apply ACC in B1. apply Nat.eqb_eq in B2.
    split; [exact B1|]. destruct B1 as (NM & _). rewrite NM in RE. rewrite RE in NONE. cbn [fst] in NONE. split; [apply NONE; exact B2|reflexivity].
  - right. split.
    + intros (N1 & N2). pose proof N1 as (NM & _). apply ACC in N1. rewrite N1 in B. cbn [negb andb] in B. rewrite NM in RE. rewrite RE in NONE. cbn [fst] in NONE.
      apply NONE in N2. rewrite N2 in B. discriminate.
    + pose proof (eval_samples_length (restart_accurate c k1) (noisy_mode (C s)) i new) as EL.
      destruct (eval_samples (restart_accurate c k1) (noisy_mode (C s)) i new) as [rows evs]. cbn [fst] in EL. cbn [bind].
      assert (RU : restart_user c k1 (rows ++ prev) i = ([], [], 0)).
      { unfold restart_user. rewrite KI. rewrite (proj2 (Z.eqb_neq _ _)) by lia. rewrite andb_false_r. reflexivity. }
      rewrite RU. rewrite app_nil_r. assert (LR : length (rows ++ prev) = length pts) by (rewrite app_length; lia).
      remember (rows ++ prev) as R eqn:ER. clear ER. destruct R as [|e0 R0]; [cbn in LR; lia|].
      set (R := e0 :: R0) in *. set (t2 := restart_tabs c t1 R). set (i2 := restart_incs t2 (I s)).
      unfold current_gap. cbn [T I].
      assert (LE : (fbest_index i2 < length (all_err t2))%nat).
      { unfold i2, restart_incs. cbn [fbest_index]. unfold t2, restart_tabs. cbn [all_err node_val nodes_at_restart t1]. rewrite app_length, map_length.
        destruct (xlt _ _); [|lia]. assert (A : (argmin (map e_val R) < length (map e_val R))%nat) by (apply (argmin_spec (map e_val R)); discriminate).
        rewrite map_length in A. lia. }
      destruct (nth_error (all_err t2) (fbest_index i2)) as [e|] eqn:NE; [|apply nth_error_None in NE; lia]. cbn [bind].
      rewrite LR. assert (L1 : (length pts =? 1)%nat = false) by (apply Nat.eqb_neq; lia). rewrite L1. eexists. split; [reflexivity|].
      assert (LG : forall vals g s0, T (log_all vals g s0) = T s0).
      { unfold log_all. induction vals as [|v vals IH]; intros g s0; cbn [fold_left]; [reflexivity|]. rewrite IH. reflexivity. }
      rewrite LG. cbn [T]. unfold t2, restart_tabs. cbn [node_pos]. rewrite map_length. exact LR.
Qed.
