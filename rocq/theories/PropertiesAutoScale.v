(** * Automatic function scaling and algorithm over a run (C137). *)
From Verif Require Import ModelAutoScale AutoScaleProofs.
From Coq Require Import Lia Lra Reals.
Import ListNotations.
Open Scope R_scope.

(** How many values exceed the bound [b]. *)
Definition exceeding (b : R) (vals : list R) : nat :=
  length (filter (fun v => if Rlt_dec b v then true else false) vals).
Definition smallest (m : R) (vals : list R) : Prop := In m vals /\ forall v, In v vals -> m <= v.

(** ** C137 *)
(** With [function_scaling = 'auto'] the values are used as they are until the first beginning of a
    cycle; afterwards the logarithmic scaling is in force exactly when, at the latest beginning of a
    cycle [i], at least half of the values exceeded the smallest one by more than the threshold. *)
Theorem C137_auto : forall thr first steps vals t,
  ((forall i, (i <= t)%nat -> (first < steps i)%nat) -> scaling_at None thr first steps vals t = ScaleOff) /\
  forall i m, (i <= t)%nat -> (steps i <= first)%nat -> (forall l, (i < l <= t)%nat -> (first < steps l)%nat) ->
    smallest m (vals i) ->
    ((length (vals i) <= 2 * exceeding (m + thr) (vals i))%nat -> scaling_at None thr first steps vals t = ScaleLog) /\
    (~ (length (vals i) <= 2 * exceeding (m + thr) (vals i))%nat -> scaling_at None thr first steps vals t = ScaleOff).
Proof.
  intros thr first steps vals t.
  assert (Skip : forall l cur, (first < steps l)%nat -> auto_scaling None thr first (steps l) (vals l) cur = cur).
  { intros l cur H. unfold auto_scaling. apply Nat.leb_gt in H. rewrite H. reflexivity. }
  split.
  - induction t as [|t IH]; intros H; cbn [scaling_at]; rewrite Skip by (apply H; lia); [reflexivity|].
    apply IH. intros i Hi. apply H. lia.
  - intros i m Hi Si N [Hm Hl].
    assert (E : scaling_at None thr first steps vals t = scaling_at None thr first steps vals i).
    { clear Si Hm Hl. induction Hi as [|t Hi IH]; [reflexivity|]. cbn [scaling_at]. rewrite Skip by (apply N; lia).
      apply IH. intros l Hl. apply N. lia. }
    rewrite E. pose proof (log_iff thr (vals i) m Hm Hl) as Q.
    assert (F : scaling_at None thr first steps vals i =
      if Rltb thr (nth (length (rsort (vals i)) / 2) (rsort (vals i)) 0 - nth 0 (rsort (vals i)) 0) then ScaleLog else ScaleOff).
    { apply Nat.leb_le in Si. destruct i; cbn [scaling_at]; unfold auto_scaling; rewrite Si; reflexivity. }
    rewrite F. change (exceeding (m + thr) (vals i)) with (above (m + thr) (vals i)).
    destruct (Rltb thr _); split; intros H; try reflexivity.
    + exfalso. apply H, Q. reflexivity.
    + apply Q in H. discriminate.
Qed.
Print Assumptions C137_auto.
(** A scaling chosen by the user is in force in every iteration. *)
Theorem C137_user : forall f thr first steps vals t, scaling_at (Some f) thr first steps vals t = f.
Proof. intros f thr first steps vals t. induction t as [|t IH]; [reflexivity|]. cbn. exact IH. Qed.
Print Assumptions C137_user.
(** Gutmann's method is used exactly when the user asked for it and there are more than [n] nodes. *)
Theorem C137_algorithm : forall gutmann n k, algorithm_at gutmann n k = true <-> gutmann = true /\ (n < k)%nat.
Proof.
  intros [] n k; cbn; [|split; [discriminate|intros [H _]; discriminate]].
  rewrite Bool.negb_true_iff, Nat.leb_gt. tauto.
Qed.
Print Assumptions C137_algorithm.
Definition auto_vals (i : nat) : list R := match i with O => [3; 1; 2000] | _ => [3; 1; 2000; 5000] end.
Example C137_case :
  (smallest 1 (auto_vals 0) /\ ~ (length (auto_vals 0) <= 2 * exceeding (1 + 100) (auto_vals 0))%nat) /\
  (smallest 1 (auto_vals 2) /\ (length (auto_vals 2) <= 2 * exceeding (1 + 100) (auto_vals 2))%nat).
Proof.
  unfold smallest, exceeding, auto_vals. cbn [filter].
  repeat match goal with |- context [Rlt_dec ?a ?b] => destruct (Rlt_dec a b); try lra end.
  split; (split; [split; [cbn; tauto|]|cbn [length]; lia]);
    intros v Hv; cbn in Hv; repeat (destruct Hv as [<-|Hv]; [lra|]); contradiction.
Qed.
