(** * C04, exact form: the returned pair is exactly an answer received. *)
From Verif Require Export AlgPause.
From Coq Require Import Lia Lqa.
Open Scope Z_scope.

Lemma delete_length {A} (l : list A) : forall j, (j < length l)%nat ->
  length (delete_at j l) = (length l - 1)%nat.
Proof.
  induction l as [|x l IH]; intros j Hj; [cbn in Hj; lia|]. destruct j as [|j]; cbn; [lia|].
  cbn in Hj. rewrite IH by lia. lia.
Qed.
Lemma nth_delete {A} (d : A) (l : list A) : forall j k,
  nth k (delete_at j l) d = if (k <? j)%nat then nth k l d else nth (S k) l d.
Proof.
  induction l as [|x l IH]; intros j k.
  - destruct j, k; cbn [delete_at nth]; match goal with |- context [if ?b then _ else _] => destruct b end; reflexivity.
  - destruct j as [|j]; [reflexivity|]. destruct k as [|k]; [reflexivity|]. cbn [delete_at nth].
    rewrite IH. reflexivity.
Qed.

Definition answered (tr : list event) (p : point) (v : Q) : Prop :=
  In (EvAcc p v) tr \/ (exists el eu, In (EvNoisy p v el eu) tr) \/ In (EvUser p v) tr.
Lemma answered_mono tr es p v : answered tr p v -> answered (tr ++ es) p v.
Proof.
  intros [H|[(el & eu & H)|H]]; [left|right; left; exists el, eu|right; right]; apply in_or_app; auto.
Qed.
Definition row_ok (s : st) (k : nat) : Prop :=
  answered (trace s) (nth k (all_pos (T s)) []) (nth k (all_val (T s)) 0%Q) \/
  exists j, (j < k)%nat /\ (j < nodes_at_restart (T s))%nat /\ nth j (all_val (T s)) 0%Q = nth k (all_val (T s)) 0%Q.
Definition rows_ok (c : cfg) (s : st) : Prop :=
  aligned c (T s) /\ forall k, (k < length (all_pos (T s)))%nat -> row_ok s k.

Lemma rows_ok_reach c ok s l : reach c ok s l -> rows_ok c s.
Proof.
  apply (reach_preserves c ok (rows_ok c)).
  - intros a b Hq (HA & HR). split; [now rewrite (q_T _ _ Hq)|].
    destruct (q_trace _ _ Hq) as (es & Ht & _). intros k Hk. unfold row_ok. rewrite (q_T _ _ Hq), Ht.
    rewrite (q_T _ _ Hq) in Hk. destruct (HR k Hk) as [H|H]; [left; now apply answered_mono|auto].
  - intros i a b _ H (HA & HR). pose proof (aligned_restart _ _ _ _ H HA) as HA'. split; [exact HA'|].
    apply restart_effect in H.
    destruct H as [(gen & evs & na & nn & usr & uevs & nu & G & _ & U & _ & _ & HT & _ & _ & _ & Ht)].
    destruct (aligned_lengths _ _ HA) as (L1 & L2 & L3 & L4).
    intros k Hk. unfold row_ok. rewrite HT, Ht. cbn [restart_tabs mark all_pos all_val nodes_at_restart].
    rewrite HT in Hk. cbn [restart_tabs mark all_pos] in Hk. rewrite app_length, map_length in Hk.
    destruct (Nat.lt_ge_cases k (length (all_pos (T a)))) as [Hlt|Hge].
    + rewrite !app_nth1 by lia. destruct (HR k Hlt) as [H|(j & Hj & Hj' & E)]; [left; now apply answered_mono|].
      right. exists j. split; [exact Hj|]. split; [lia|]. rewrite app_nth1 by lia. exact E.
    + set (m := (k - length (all_pos (T a)))%nat).
      set (d := ([], 0%Q, false, (0, 0)%Q) : entry).
      assert (Em : nth k (all_pos (T a) ++ map e_pos (gen ++ usr)) [] = e_pos (nth m (gen ++ usr) d)).
      { rewrite app_nth2 by lia. change ([] : point) with (e_pos d). apply map_nth. }
      assert (Ev : nth k (all_val (T a) ++ map e_val (gen ++ usr)) 0%Q = e_val (nth m (gen ++ usr) d)).
      { rewrite app_nth2 by lia. rewrite L1. change 0%Q with (e_val d) at 1. apply map_nth. }
      assert (Hin : In (nth m (gen ++ usr) d) (gen ++ usr)) by (apply nth_In; unfold m; unfold point, entry in *; lia).
      unfold point in *. rewrite Em, Ev. set (e := nth m (gen ++ usr) d) in *. clearbody e.
      assert (R : row_origin c (mark (T a)) (noisy_mode (bump_restarts (C a))) (evs ++ uevs) e).
      { apply in_app_or in Hin. destruct Hin as [Hin|Hin].
        - pose proof (gs_origin _ _ _ _ _ _ _ _ G) as F. rewrite Forall_forall in F.
          eapply row_origin_mono; [|apply F; assumption]. apply incl_appl, incl_refl.
        - pose proof (us_origin _ _ _ _ _ _ U) as F. rewrite Forall_forall in F.
          eapply row_origin_mono; [|apply F; assumption]. apply incl_appr, incl_refl. }
      destruct R as [H1 H2 H3|el eu H1 H2 H3 H4|H1 H2 H3 H4|j Hj Ee].
      * left. left. apply in_or_app; right; right; exact H1.
      * left. right; left. exists el, eu. apply in_or_app; right; right; exact H1.
      * left. right; right. apply in_or_app; right; right; exact H1.
      * right. exists j. cbn in Hj. unfold point in *. split; [lia|]. split; [lia|]. rewrite app_nth1 by lia. rewrite Ee. reflexivity.
  - intros r a b _ H (HA & HR). pose proof (aligned_remove _ _ _ _ H HA) as HA'. split; [exact HA'|].
    apply remove_fields in H. destruct H as (Hr & HT & _ & _ & _ & Ht).
    destruct (aligned_lengths _ _ HA) as (L1 & L2 & L3 & L4).
    intros k Hk. unfold row_ok. rewrite Ht, HT in *. cbn [tabs_remove all_pos all_val nodes_at_restart] in *.
    set (m := (nodes_at_restart (T a) + r)%nat) in *.
    assert (Hm : (m < length (all_pos (T a)))%nat) by (unfold m; lia).
    rewrite delete_length in Hk by exact Hm. rewrite !nth_delete.
    destruct (Nat.ltb_spec k m) as [Hlt|Hge].
    + destruct (HR k) as [H|(j & Hj & Hj' & E)]; [lia|left; exact H|]. right. exists j.
      split; [exact Hj|]. split; [exact Hj'|]. rewrite nth_delete.
      destruct (Nat.ltb_spec j m); [exact E|unfold m in *; lia].
    + destruct (HR (S k)) as [H|(j & Hj & Hj' & E)]; [lia|left; exact H|]. right. exists j.
      split; [unfold m in *; lia|]. split; [exact Hj'|]. rewrite nth_delete.
      destruct (Nat.ltb_spec j m); [exact E|unfold m in *; lia].
  - intros i q a la b lb _ _ _ H (HA & HR). apply evaluate_sum in H.
    destruct H as (v & noisy & e & es & [He HT _ _ _ Ht _ _ _]).
    destruct (aligned_lengths _ _ HA) as (L1 & L2 & L3 & L4).
    split; [rewrite HT; now apply aligned_add|].
    set (po := to_orig c (clip q (l_lower c) (l_upper c))) in *.
    intros k Hk. unfold row_ok. rewrite HT, Ht. rewrite HT in Hk. cbn [tabs_add all_pos all_val nodes_at_restart] in *.
    rewrite app_length in Hk. cbn in Hk.
    destruct (Nat.lt_ge_cases k (length (all_pos (T a)))) as [Hlt|Hge].
    + rewrite !app_nth1 by lia. destruct (HR k Hlt) as [H|(j & Hj & Hj' & E)]; [left; now apply answered_mono|].
      right. exists j. split; [exact Hj|]. split; [lia|]. rewrite app_nth1 by lia. exact E.
    + assert (k = length (all_pos (T a))) by lia. subst k.
      rewrite (app_nth2 (all_pos (T a))), Nat.sub_diag by lia.
      rewrite <- L1. rewrite (app_nth2 (all_val (T a)) [v] 0%Q (n := length (all_val (T a)))), Nat.sub_diag by lia. cbn [nth].
      destruct He as [j Hj Hn|j e Hj Hn Hm Hl|Hlk Hm|v el eu Hv Hm Hlk|v el eu Hv Hm Hlk Hreq].
      * right. destruct (lookup_old_spec c (T a) po j) as (Hj1 & Hj2 & _); [lia|assumption|].
        exists j. split; [lia|]. split; [lia|]. now rewrite app_nth1 by lia.
      * right. destruct (lookup_old_spec c (T a) po j) as (Hj1 & Hj2 & _); [lia|assumption|].
        exists j. split; [lia|]. split; [lia|]. now rewrite app_nth1 by lia.
      * left. left. apply in_or_app. cbn. auto.
      * left. right. left. exists el, eu. apply in_or_app. cbn. auto.
      * left. left. apply in_or_app. cbn. auto.
  - split; [apply aligned_init|]. cbn. lia.
Qed.

Lemma result_exact c ok s l v p : reach c ok s l -> result s = Some (v, p) ->
  answered (trace s) p v.
Proof.
  intros HR H. destruct (rows_ok_reach _ _ _ _ HR) as (HA & HK).
  destruct (aligned_lengths _ _ HA) as (L1 & _).
  apply result_spec in H. destruct H as (Hne & -> & ->).
  pose proof (argmin_spec _ Hne) as (Hlt & Hmin).
  destruct (HK (argmin (all_val (T s)))) as [H|(j & Hj & _ & E)]; [lia|exact H|].
  exfalso. destruct Hmin as (_ & Hfirst). specialize (Hfirst j Hj). rewrite E in Hfirst. lra.
Qed.
