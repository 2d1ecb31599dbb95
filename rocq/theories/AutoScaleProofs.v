(** * Proofs about the automatic function scaling. *)
From Verif Require Import ModelAutoScale ScalingProofs.
From Coq Require Import Lia Lra Reals Permutation Sorted.
Import ListNotations.
Open Scope R_scope.

Definition above (c : R) (l : list R) : nat := length (filter (fun v => Rltb c v) l).
Lemma above_perm c l l' : Permutation l l' -> above c l = above c l'.
Proof.
  unfold above. induction 1 as [|x l l' P IH|x y l|l l' l'' P1 I1 P2 I2]; cbn; try reflexivity.
  - destruct (Rltb c x); cbn; congruence.
  - destruct (Rltb c x), (Rltb c y); reflexivity.
  - congruence.
Qed.
Lemma Rltb_iff x y : Rltb x y = true <-> x < y.
Proof. unfold Rltb. destruct (Rlt_dec x y); split; intros; try congruence; try lra; auto. Qed.
Lemma above_le c l : (above c l <= length l)%nat.
Proof. unfold above. induction l as [|x r IH]; [cbn; lia|]. cbn. destruct (Rltb c x); cbn; lia. Qed.
Lemma above_sorted c l : StronglySorted Rle l -> forall i, (i < length l)%nat -> (c < nth i l 0 <-> (length l - i <= above c l)%nat).
Proof.
  induction 1 as [|x r HS IH F]; [cbn; lia|]. intros i Hi. unfold above. cbn [filter length].
  destruct (Rltb c x) eqn:E.
  - apply Rltb_iff in E. cbn [length].
    assert (A : filter (fun v => Rltb c v) r = r).
    { clear IH HS Hi. induction F as [|y q Hy F IH]; [reflexivity|]. cbn [filter].
      assert (Y : Rltb c y = true) by (apply Rltb_iff; lra). rewrite Y. f_equal. exact IH. }
    rewrite A. split; intros _; [lia|]. destruct i as [|i]; [exact E|]. cbn [nth]. cbn [length] in Hi.
    rewrite Forall_forall in F. assert (Hi' : (i < length r)%nat) by lia. specialize (F (nth i r 0) (nth_In r 0 Hi')). lra.
  - assert (N : ~ c < x) by (intros H; apply Rltb_iff in H; congruence).
    fold (above c r). pose proof (above_le c r). destruct i as [|i].
    + cbn [nth]. split; [intros X; contradiction|intros X; lia].
    + cbn [nth length] in *. rewrite (IH i ltac:(lia)). lia.
Qed.
Lemma head_min l : l <> [] -> In (nth 0 (rsort l) 0) l /\ forall v, In v l -> nth 0 (rsort l) 0 <= v.
Proof.
  intros N. pose proof (rsort_perm l) as P. pose proof (rsort_sorted l) as HS.
  assert (L : (0 < length (rsort l))%nat) by (rewrite <- (Permutation_length P); destruct l; [congruence|cbn; lia]).
  split; [apply (Permutation_in _ (Permutation_sym P)), nth_In, L|].
  intros v Hv. apply (Permutation_in _ P) in Hv. destruct (In_nth _ _ 0 Hv) as (i & Hi & <-). apply sorted_nth; [exact HS|lia|exact Hi].
Qed.
Lemma log_iff thr l m : In m l -> (forall v, In v l -> m <= v) ->
  (Rltb thr (nth (length (rsort l) / 2) (rsort l) 0 - nth 0 (rsort l) 0) = true <->
   (length l <= 2 * above (m + thr) l)%nat).
Proof.
  intros Hm Hl. assert (N : l <> []) by (intros ->; exact Hm).
  pose proof (rsort_perm l) as P. pose proof (rsort_sorted l) as HS. pose proof (Permutation_length P) as L.
  assert (E : nth 0 (rsort l) 0 = m).
  { destruct (head_min l N) as [A B]. specialize (B m Hm). specialize (Hl _ A). lra. }
  rewrite Rltb_iff, E. rewrite <- L.
  assert (D : (length l / 2 < length l)%nat) by (apply Nat.div_lt; [destruct l; [congruence|cbn; lia]|lia]).
  assert (Q : thr < nth (length l / 2) (rsort l) 0 - m <-> m + thr < nth (length l / 2) (rsort l) 0) by (split; lra).
  rewrite Q, (above_sorted _ _ HS) by (rewrite <- L; exact D). rewrite <- (above_perm _ _ _ P), <- L.
  pose proof (Nat.div_mod (length l) 2 ltac:(lia)). pose proof (Nat.mod_upper_bound (length l) 2 ltac:(lia)). lia.
Qed.
