(** * Proofs about saving and loading. *)
From Verif Require Export SpecPersist AlgPause.
From Coq Require Import String Lia Lqa.
Open Scope Z_scope.

Lemma write_same f b w : w_disk (write f b w) f = Some b.
Proof. cbn. rewrite String.eqb_refl. reflexivity. Qed.
Lemma write_other f g b w : f <> g -> w_disk (write f b w) g = w_disk w g.
Proof. intros H. cbn. apply String.eqb_neq in H. rewrite H. reflexivity. Qed.

Lemma load_saved pk f o w o' w' w2 : pickle_ok pk -> save pk f o w = Some (o', w') ->
  w_disk w2 f = w_disk w' f ->
  load pk f w2 = Some (set_stream (Some stdout) (set_random (w_rng w) o), mkWorld (w_rng w) (w_disk w2)) /\
  o' = set_random (w_rng w) o /\ w_rng w' = w_rng w.
Proof.
  intros Hp Hs Hd. unfold save in Hs. destruct (dump pk (to_dump o w)) as [b|] eqn:E; [|discriminate].
  injection Hs as <- <-. rewrite write_same in Hd. unfold load. rewrite Hd.
  destruct (Hp _ _ E) as (-> & _). cbn. split; [reflexivity|]. split; [|reflexivity].
  unfold set_stream, to_dump, set_random. destruct o; reflexivity.
Qed.

(** Crash points *)
Lemma growing_length f ch w : forall d, List.length (growing f d ch w) = List.length ch.
Proof. induction ch; intros; cbn; auto. Qed.
Lemma growing_nth f w w0 : forall ch d j, (j < List.length ch)%nat ->
  nth j (growing f d ch w) w0 = write f (d ++ List.concat (firstn (S j) ch))%list w.
Proof.
  induction ch as [|c ch IH]; intros d [|j] H; cbn [List.length] in H; try lia.
  - cbn. rewrite app_nil_r. reflexivity.
  - cbn [growing nth]. rewrite IH by lia. rewrite <- app_assoc. reflexivity.
Qed.
Lemma states_length f ch o w : List.length (save_states f ch o w) = (List.length ch + 5)%nat.
Proof. unfold save_states. rewrite !app_length, map_length, growing_length. cbn. lia. Qed.
Lemma states_early f ch o w d j : (j < 3)%nat -> w_disk (snd (nth j (save_states f ch o w) d)) = w_disk w.
Proof. intros H. destruct j as [|[|[|j]]]; try lia; reflexivity. Qed.
Lemma states_late f ch o w d j : (3 <= j < List.length ch + 5)%nat ->
  w_disk (snd (nth j (save_states f ch o w) d)) f = Some (List.concat (firstn (j - 3) ch)).
Proof.
  intros H. unfold save_states. destruct (Nat.eq_dec j 3) as [->|].
  - cbn [nth List.app snd]. rewrite write_same. reflexivity.
  - rewrite app_nth2 by (cbn; lia). cbn [List.length].
    destruct (Nat.lt_ge_cases (j - 4) (List.length ch)).
    + rewrite app_nth1 by (rewrite map_length, growing_length; auto).
      rewrite (nth_indep _ d ((fun w' => (to_dump o w, w')) w)) by (rewrite map_length, growing_length; auto).
      rewrite (map_nth (fun w' => (to_dump o w, w'))). cbn [snd]. rewrite growing_nth by auto. rewrite write_same.
      cbn [List.app]. do 3 f_equal. lia.
    + rewrite app_nth2; rewrite map_length, growing_length; [|lia].
      replace (j - 4 - List.length ch)%nat with 0%nat by lia. cbn [nth snd]. rewrite write_same.
      rewrite firstn_all2 by lia. reflexivity.
Qed.
Lemma states_rng f ch o w d j : (j < List.length ch + 5)%nat -> w_rng (snd (nth j (save_states f ch o w) d)) = w_rng w.
Proof.
  intros H. pose proof (states_length f ch o w) as L.
  assert (Hin : In (nth j (save_states f ch o w) d) (save_states f ch o w)) by (apply nth_In; lia).
  revert Hin. generalize (nth j (save_states f ch o w) d). intros x Hin. unfold save_states in Hin.
  apply in_app_or in Hin. destruct Hin as [Hin|Hin].
  - cbn [In] in Hin. destruct Hin as [<-|[<-|[<-|[<-|[]]]]]; reflexivity.
  - apply in_app_or in Hin. destruct Hin as [Hin|[<-|[]]]; [|reflexivity].
    apply in_map_iff in Hin. destruct Hin as (w' & <- & Hin). cbn [snd].
    assert (G : forall ch d, In w' (growing f d ch w) -> w_rng w' = w_rng w).
    { clear. induction ch; intros d H; cbn in H; [tauto|]. destruct H as [<-|H]; [reflexivity|eauto]. }
    eauto.
Qed.

Lemma concat_firstn_prefix {A} (ch : list (list A)) j :
  List.concat ch = (List.concat (firstn j ch) ++ List.concat (skipn j ch))%list.
Proof. rewrite <- concat_app, firstn_skipn. reflexivity. Qed.

(** Running *)
Lemma passes_same_remaining env c : has_noisy c = false -> forall m r b s l l',
  noisy_mode (C s) = false -> gap l = gap l' -> it_start l + pause l = it_start l' + pause l' ->
  same_outcome (passes env c m r b s l) (passes env c m r b s l').
Proof.
  intros Hn. induction m as [|m IH]; intros r b s l l' Hm Hg Hp; cbn [passes].
  { repeat split. }
  destruct (env r b (T s) (I s) (C s) (Rf s)) as [[i r'] b'].
  assert (HL : loop_cond c s l (i_clock_ok i) = loop_cond c s l' (i_clock_ok i)).
  { unfold loop_cond. rewrite Hg.
    replace (itercount (C s) - it_start l <? pause l) with (itercount (C s) - it_start l' <? pause l'); [reflexivity|].
    destruct (Z.ltb_spec (itercount (C s) - it_start l') (pause l')),
             (Z.ltb_spec (itercount (C s) - it_start l) (pause l)); lia. }
  pose proof (pass_locals c i s l l' Hn Hm Hg HL) as HP.
  destruct (pass c i s l) as [a la| |e] eqn:Ea, (pass c i s l') as [a' lb| |e'] eqn:Eb; try tauto.
  - destruct HP as (<- & G & P1 & P2 & P3 & P4). apply IH; [eapply pass_mode; eauto|exact G|lia].
  - repeat split.
  - subst. repeat split.
Qed.

(** The clock *)
Lemma Qltb_cases a b : (Qltb a b = true /\ (a < b)%Q) \/ (Qltb a b = false /\ (b <= a)%Q).
Proof.
  destruct (Qltb a b) eqn:E; [left|right]; split; auto; [apply Qltb_lt; auto|].
  unfold Qltb in E. apply negb_false_iff in E. apply Qle_bool_iff in E. exact E.
Qed.
Lemma clocked_bound limit M : (0 <= M)%Q -> forall ds t, (t < limit + M)%Q -> Forall (fun d => (d <= M)%Q) ds ->
  (clocked limit t ds < limit + M)%Q.
Proof.
  intros HM. induction ds as [|d ds IH]; intros t Ht HF; cbn; [exact Ht|]. inversion HF; subst.
  destruct (Qltb_cases t limit) as [[-> L]|[-> L]]; [|exact Ht]. apply IH; auto. lra.
Qed.
Lemma clocked_ge limit ds : forall t, Forall (fun d => (0 <= d)%Q) ds -> (t <= clocked limit t ds)%Q.
Proof.
  induction ds as [|d ds IH]; intros t HF; cbn; [lra|]. inversion HF; subst.
  destruct (Qltb_cases t limit) as [[-> L]|[-> L]]; [|lra]. specialize (IH (t + d)%Q H2). lra.
Qed.
