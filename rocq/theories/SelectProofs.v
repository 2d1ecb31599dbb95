(** * Proofs about the choice of the surrogate model. *)
From Verif Require Import ModelSelect SpecSelect InitUtil.
From Coq Require Import Lia.
Import ListNotations.

Section Sel.
Context {M : Type} (eqb : M -> M -> bool).
Hypothesis eqb_ok : forall x y, eqb x y = true <-> x = y.
Variable c : sel_cfg M.
Variable os : nat -> sel_in M.
Notation at_ := (serial_at eqb c os).
Notation used := (used_at eqb c os).

Lemma mark_current s o : current (mark_serial c s o) = current s.
Proof.
  unfold mark_serial. destruct (_ && _)%bool; [|reflexivity].
  destruct (c_localstep c - 1 <=? o_step o)%nat, (fail_last (local_list s)), (fail_last (global_list s)); reflexivity.
Qed.
Lemma mark_best s o : best_local (mark_serial c s o) = best_local s /\ best_global (mark_serial c s o) = best_global s.
Proof.
  unfold mark_serial. destruct (_ && _)%bool; [|auto].
  destruct (c_localstep c - 1 <=? o_step o)%nat, (fail_last (local_list s)), (fail_last (global_list s)); auto.
Qed.
Lemma current_at t : current (at_ t) = previous c used t.
Proof. destruct t; [reflexivity|]. cbn [serial_at previous]. unfold sel_serial. rewrite mark_current. reflexivity. Qed.

Lemma removelast_len {A} (l : list A) : length (removelast l) = (length l - 1)%nat.
Proof. induction l as [|x [|y r] IH]; try reflexivity. cbn [removelast length] in *. rewrite IH. cbn. lia. Qed.
Lemma fail_last_len {A} (l l' : list (option A)) : fail_last l = Some l' -> length l' = length l.
Proof.
  unfold fail_last. destruct l as [|x r]; [discriminate|]. intros H.
  assert (E : l' = removelast (x :: r) ++ [None]) by congruence. rewrite E. rewrite app_length, removelast_len. cbn. lia.
Qed.
Lemma mark_len s o : length (local_list (mark_serial c s o)) = length (local_list s) /\
  length (global_list (mark_serial c s o)) = length (global_list s).
Proof.
  unfold mark_serial. destruct (_ && _)%bool; [|auto].
  destruct (c_localstep c - 1 <=? o_step o)%nat, (fail_last (local_list s)) eqn:E1, (fail_last (global_list s)) eqn:E2;
    cbn; repeat match goal with H : fail_last _ = Some _ |- _ => apply fail_last_len in H end; auto.
Qed.
Lemma before_len s o : length (local_list (sel_before eqb c s o)) = (length (local_list s) + if sel_due c s o then 1 else 0)%nat /\
  length (global_list (sel_before eqb c s o)) = (length (global_list s) + if sel_due c s o then 1 else 0)%nat.
Proof.
  unfold sel_before, use_model. cbn. destruct (sel_due c s o); [|lia].
  unfold select. destruct (o_local o (current s)) as [bl af]. destruct (o_global o af) as [bg lf].
  destruct (_ =? _)%nat; cbn; rewrite !app_length; cbn; lia.
Qed.
Lemma filter_seq_S (f : nat -> bool) t : filter f (seq 0 (S t)) = filter f (seq 0 t) ++ (if f t then [t] else []).
Proof. rewrite seq_S, filter_app. cbn. destruct (f t); reflexivity. Qed.
Lemma eligible_before_S t : eligible_before c os (S t) = (eligible_before c os t + if eligible c (os t) then 1 else 0)%nat.
Proof. unfold eligible_before. rewrite filter_seq_S, app_length. destruct (eligible c (os t)); reflexivity. Qed.

Lemma lens t : length (local_list (at_ t)) = Nat.min (c_maxcv c) (eligible_before c os t) /\
  length (global_list (at_ t)) = length (local_list (at_ t)) /\ validates_at eqb c os t = turn c os t.
Proof.
  assert (Due : forall t, length (local_list (at_ t)) = Nat.min (c_maxcv c) (eligible_before c os t) ->
    validates_at eqb c os t = turn c os t).
  { intros u H. unfold validates_at, sel_due, turn, eligible. rewrite H.
    destruct (_ <? o_k _)%nat, (o_step _ <=? _)%nat, (c_auto c); cbn [andb]; try reflexivity.
    destruct (eligible_before c os u <? c_maxcv c)%nat eqn:E.
    - apply Nat.ltb_lt in E. apply Nat.ltb_lt. lia.
    - apply Nat.ltb_ge in E. apply Nat.ltb_ge. lia. }
  induction t as [|t (I1 & I2 & I3)].
  - split; [|split].
    + cbn. destruct (c_maxcv c); reflexivity.
    + reflexivity.
    + apply Due. cbn. destruct (c_maxcv c); reflexivity.
  - assert (L : length (local_list (at_ (S t))) = Nat.min (c_maxcv c) (eligible_before c os (S t)) /\
      length (global_list (at_ (S t))) = length (local_list (at_ (S t)))).
    { cbn [serial_at]. unfold sel_serial. rewrite !(proj1 (mark_len _ _)), !(proj2 (mark_len _ _)).
      rewrite (proj1 (before_len _ _)), (proj2 (before_len _ _)). unfold validates_at in I3. rewrite I3, I1, I2.
      rewrite eligible_before_S. unfold turn. destruct (eligible c (os t)); cbn [andb]; [|lia].
      destruct (eligible_before c os t <? c_maxcv c)%nat eqn:E; [apply Nat.ltb_lt in E|apply Nat.ltb_ge in E]; lia. }
    split; [apply L|]. split; [apply L|]. apply Due, L.
Qed.
Lemma validates_turn t : validates_at eqb c os t = turn c os t.
Proof. apply lens. Qed.
Lemma turn_at t : sel_due c (at_ t) (os t) = turn c os t.
Proof. exact (validates_turn t). Qed.

(** ** The recorded entries *)
Definition spoiledb (loc : bool) (i t : nat) : bool :=
  existsb (fun j => failure c loc (os j) && negb (existsb (turn c os) (seq (S i) (j - i))))%bool (seq i (t - i)).
Lemma spoiledb_iff loc i t : spoiledb loc i t = true <-> spoiled c os loc i t.
Proof.
  unfold spoiledb, spoiled. rewrite existsb_exists. split.
  - intros (j & Hj & E). apply in_seq in Hj. apply andb_prop in E. destruct E as [E1 E2]. exists j.
    split; [lia|]. split; [exact E1|]. intros l Hl. apply Bool.negb_true_iff in E2.
    destruct (turn c os l) eqn:T; [|reflexivity]. exfalso.
    assert (X : existsb (turn c os) (seq (S i) (j - i)) = true) by (apply existsb_exists; exists l; split; [apply in_seq; lia|exact T]).
    rewrite X in E2. discriminate.
  - intros (j & Hj & E & N). exists j. split; [apply in_seq; lia|]. rewrite E. cbn.
    apply Bool.negb_true_iff. destruct (existsb _ _) eqn:X; [|reflexivity].
    apply existsb_exists in X. destruct X as (l & Hl & T). apply in_seq in Hl. rewrite (N l) in T by lia. discriminate.
Qed.
Definition entry (loc : bool) (t i : nat) : option M :=
  if spoiledb loc i t then None else Some (found_for loc (os i) (previous c used i)).
Definition turns (t : nat) : list nat := filter (turn c os) (seq 0 t).
Definition side_list (loc : bool) (s : sel_state M) := if loc then local_list s else global_list s.

Lemma spoiledb_S loc i t : (i <= t)%nat -> spoiledb loc i (S t) =
  (spoiledb loc i t || (failure c loc (os t) && negb (existsb (turn c os) (seq (S i) (t - i)))))%bool.
Proof.
  intros H. unfold spoiledb. replace (S t - i)%nat with (S (t - i)) by lia.
  rewrite seq_S, existsb_app. cbn. rewrite Bool.orb_false_r. replace (i + (t - i))%nat with t by lia. reflexivity.
Qed.
Lemma spoiledb_refl loc t : spoiledb loc t t = false.
Proof. unfold spoiledb. rewrite Nat.sub_diag. reflexivity. Qed.

(** Marking the last entry. *)
Definition mark_last (b : bool) (l : list (option M)) : list (option M) :=
  if b then match l with [] => [] | _ => removelast l ++ [None] end else l.
Lemma mark_side loc s o : length (global_list s) = length (local_list s) ->
  side_list loc (mark_serial c s o) = mark_last (failure c loc o) (side_list loc s).
Proof.
  intros L. unfold mark_serial, failure, local_side.
  destruct (o_fails o && (o_step o <=? c_localstep c)%nat)%bool; [|reflexivity]. cbn [andb].
  destruct (c_localstep c - 1 <=? o_step o)%nat.
  - destruct (local_list s) as [|x r] eqn:E1.
    + destruct (global_list s) as [|y q] eqn:E2; [|discriminate]. cbn. destruct loc; cbn; rewrite ?E1, ?E2; reflexivity.
    + cbn [fail_last]. destruct loc; cbn; rewrite ?E1; reflexivity.
  - destruct (global_list s) as [|y q] eqn:E2.
    + destruct (local_list s) as [|x r] eqn:E1; [|discriminate]. cbn. destruct loc; cbn; rewrite ?E1, ?E2; reflexivity.
    + destruct (fail_last (local_list s)); destruct loc; cbn; rewrite ?E2; reflexivity.
Qed.
Lemma before_side loc t : side_list loc (sel_before eqb c (at_ t) (os t)) =
  side_list loc (at_ t) ++ (if turn c os t then [Some (found_for loc (os t) (previous c used t))] else []).
Proof.
  unfold sel_before. rewrite turn_at. destruct (turn c os t).
  - unfold select, found_for, found_local, found_global. rewrite current_at.
    destruct (o_local (os t) (previous c used t)) as [bl af]. cbn [fst snd].
    destruct (o_global (os t) af) as [bg lf]. destruct (_ =? _)%nat, loc; reflexivity.
  - rewrite app_nil_r. destruct loc; reflexivity.
Qed.
Lemma before_lens t : length (global_list (sel_before eqb c (at_ t) (os t))) = length (local_list (sel_before eqb c (at_ t) (os t))).
Proof. rewrite (proj1 (before_len _ _)), (proj2 (before_len _ _)). rewrite (proj1 (proj2 (lens t))). reflexivity. Qed.

Lemma turns_lt t i : In i (turns t) -> (i < t)%nat /\ turn c os i = true.
Proof. unfold turns. rewrite filter_In, in_seq. intros [H1 H2]. split; [lia|exact H2]. Qed.
Lemma existsb_turn i a : existsb (turn c os) (seq (S i) a) = true <-> exists l, (i < l <= i + a)%nat /\ turn c os l = true.
Proof.
  rewrite existsb_exists. split.
  - intros (l & Hl & T). apply in_seq in Hl. exists l. split; [lia|exact T].
  - intros (l & Hl & T). exists l. split; [apply in_seq; lia|exact T].
Qed.
(** All but the last turn of [turns (S t)] are followed by another one up to [t]; the last is not. *)
Lemma turns_split t pre i : turns (S t) = pre ++ [i] ->
  existsb (turn c os) (seq (S i) (t - i)) = false /\ (i <= t)%nat /\
  forall x, In x pre -> (x <= t)%nat /\ existsb (turn c os) (seq (S x) (t - x)) = true.
Proof.
  revert pre i. induction t as [|t IH]; intros pre i H.
  - unfold turns in H. rewrite filter_seq_S in H. cbn in H. destruct (turn c os 0).
    + destruct pre as [|a [|]]; try discriminate. cbn in H. injection H as <-. split; [reflexivity|]. split; [lia|]. intros x [].
    + destruct pre; discriminate.
  - unfold turns in H. rewrite filter_seq_S in H. fold (turns (S t)) in H.
    destruct (turn c os (S t)) eqn:T.
    + apply app_inj_tail in H. destruct H as [E <-]. split; [rewrite Nat.sub_diag; reflexivity|]. split; [lia|].
      intros x Hx. rewrite <- E in Hx. apply turns_lt in Hx. split; [lia|].
      apply existsb_turn. exists (S t). split; [lia|exact T].
    + rewrite app_nil_r in H. destruct (IH _ _ H) as (A & B & C). split; [|split; [lia|]].
      * destruct (existsb (turn c os) (seq (S i) (S t - i))) eqn:X; [|reflexivity]. apply existsb_turn in X. destruct X as (l & Hl & Tl).
        assert (l <> S t) by (intros ->; rewrite T in Tl; discriminate).
        assert (Y : existsb (turn c os) (seq (S i) (t - i)) = true) by (apply existsb_turn; exists l; split; [lia|exact Tl]).
        rewrite A in Y. discriminate.
      * intros x Hx. destruct (C x Hx) as [C1 C2]. split; [lia|]. apply existsb_turn in C2. destruct C2 as (l & Hl & Tl).
        apply existsb_turn. exists l. split; [lia|exact Tl].
Qed.
Lemma turns_S t : turns (S t) = turns t ++ if turn c os t then [t] else [].
Proof. apply filter_seq_S. Qed.
Lemma map_entry_eq loc t l : (forall i, In i l -> spoiledb loc i (S t) = spoiledb loc i t) -> map (entry loc (S t)) l = map (entry loc t) l.
Proof. intros H. apply map_ext_in. intros i Hi. unfold entry. rewrite (H i Hi). reflexivity. Qed.

Lemma side_before loc t : side_list loc (at_ t) = map (entry loc t) (turns t) ->
  side_list loc (sel_before eqb c (at_ t) (os t)) = map (entry loc t) (turns (S t)).
Proof.
  intros H. rewrite before_side, H, turns_S, map_app. f_equal. destruct (turn c os t); [|reflexivity].
  cbn. unfold entry. rewrite spoiledb_refl. reflexivity.
Qed.
Lemma side_at loc t : side_list loc (at_ t) = map (entry loc t) (turns t).
Proof.
  induction t as [|t IH]; [destruct loc; reflexivity|].
  cbn [serial_at]. unfold sel_serial. rewrite (mark_side _ _ _ (before_lens t)), (side_before _ _ IH).
  destruct (failure c loc (os t)) eqn:F; cbn [mark_last].
  - destruct (turns (S t)) as [|a r] eqn:E; [reflexivity|].
    destruct (@exists_last _ (turns (S t))) as (pre & i & E'); [rewrite E; discriminate|].
    rewrite <- E, E'. destruct (turns_split _ _ _ E') as (A & B & C).
    rewrite !map_app. cbn [map].
    replace (match map (entry loc t) pre ++ [entry loc t i] with [] => [] | _ => removelast (map (entry loc t) pre ++ [entry loc t i]) ++ [None] end)
      with (removelast (map (entry loc t) pre ++ [entry loc t i]) ++ [None])
      by (destruct (map (entry loc t) pre); reflexivity).
    rewrite removelast_app by discriminate. cbn [removelast]. rewrite app_nil_r. f_equal.
    + symmetry. apply map_entry_eq. intros x Hx. destruct (C x Hx) as [C1 C2]. rewrite spoiledb_S by exact C1. rewrite C2.
      rewrite Bool.andb_false_r, Bool.orb_false_r. reflexivity.
    + unfold entry. rewrite spoiledb_S by exact B. rewrite F, A. rewrite Bool.orb_true_r. reflexivity.
  - symmetry. apply map_entry_eq. intros x Hx. apply turns_lt in Hx. rewrite spoiledb_S by lia. rewrite F. cbn. apply Bool.orb_false_r.
Qed.

(** ** The model in use *)
Definition best_of (loc : bool) (s : sel_state M) := if loc then best_local s else best_global s.
Definition bests (t : nat) (loc : bool) : M := best_of loc (sel_before eqb c (at_ t) (os t)).
Lemma used_bests t : used t = bests t (local_side c (os t)).
Proof. unfold used_at, bests, sel_before, use_model, local_side, best_of. cbn. destruct (_ <=? _)%nat; reflexivity. Qed.
Lemma bests_init t loc : (forall i, (i <= t)%nat -> turn c os i = false) -> bests t loc = c_init c.
Proof.
  intros H. unfold bests, sel_before. rewrite turn_at, (H t) by lia.
  assert (G : forall u, (u <= t)%nat -> best_local (at_ u) = c_init c /\ best_global (at_ u) = c_init c).
  { induction u as [|u IH]; intros Hu; [auto|]. cbn [serial_at]. unfold sel_serial.
    rewrite (proj1 (mark_best _ _)), (proj2 (mark_best _ _)). unfold sel_before. rewrite turn_at, (H u) by lia. cbn. apply IH. lia. }
  destruct loc; cbn; apply G; lia.
Qed.
Lemma bests_keep t loc : turn c os (S t) = false -> bests (S t) loc = bests t loc.
Proof.
  intros H. unfold bests at 1, sel_before. rewrite turn_at, H. cbn [serial_at]. unfold sel_serial, bests.
  destruct loc; cbn [best_of use_model best_local best_global]; [exact (proj1 (mark_best _ _))|exact (proj2 (mark_best _ _))].
Qed.
Lemma bests_stay i t loc : (i <= t)%nat -> (forall l, (i < l <= t)%nat -> turn c os l = false) -> bests t loc = bests i loc.
Proof.
  intros H. induction H as [|t H IH]; intros N; [reflexivity|].
  rewrite bests_keep by (apply N; lia). apply IH. intros l Hl. apply N. lia.
Qed.
Lemma turn_len i : turn c os i = true -> length (local_list (at_ i)) = eligible_before c os i /\ (eligible_before c os i < c_maxcv c)%nat.
Proof.
  unfold turn. intros H. apply andb_prop in H. destruct H as [_ H]. apply Nat.ltb_lt in H. rewrite (proj1 (lens i)). lia.
Qed.
Lemma bests_turn i loc : turn c os i = true -> (S (eligible_before c os i) < c_maxcv c)%nat ->
  bests i loc = found_for loc (os i) (previous c used i).
Proof.
  intros T L. unfold bests, sel_before. rewrite turn_at, T.
  unfold select, found_for, found_local, found_global. rewrite current_at.
  destruct (o_local (os i) (previous c used i)) as [bl af]. cbn [fst snd].
  destruct (o_global (os i) af) as [bg lf]. rewrite app_length. rewrite (proj1 (turn_len i T)). cbn [length].
  destruct (_ =? _)%nat eqn:E; [apply Nat.eqb_eq in E; lia|]. destruct loc; reflexivity.
Qed.
Lemma bests_last i loc : turn c os i = true -> S (eligible_before c os i) = c_maxcv c ->
  bests i loc = most_frequent eqb (c_fallback c) (map (entry loc i) (turns (S i))).
Proof.
  intros T L. rewrite <- (side_before loc i (side_at loc i)), before_side, T.
  unfold bests, sel_before. rewrite turn_at, T.
  unfold select, found_for, found_local, found_global. rewrite current_at.
  destruct (o_local (os i) (previous c used i)) as [bl af]. cbn [fst snd].
  destruct (o_global (os i) af) as [bg lf]. rewrite app_length. rewrite (proj1 (turn_len i T)). cbn [length].
  destruct (_ =? _)%nat eqn:E; [|apply Nat.eqb_neq in E; lia]. destruct loc; reflexivity.
Qed.
Lemma entry_eqb_ok (x y : option M) : entry_eqb eqb x y = true <-> x = y.
Proof.
  destruct x as [x|], y as [y|]; cbn; try (split; congruence). rewrite eqb_ok. split; congruence.
Qed.
Lemma turns_turn i : turn c os i = true -> turns (S i) = turns i ++ [i].
Proof. intros T. rewrite turns_S, T. reflexivity. Qed.

Definition kept (loc : bool) (i : nat) : list nat := filter (fun x => negb (spoiledb loc x i)) (turns (S i)).
Lemma kept_unspoiled loc i : unspoiled c os loc i (kept loc i).
Proof.
  split.
  - apply NoDup_filter. apply NoDup_filter. apply seq_NoDup.
  - intros x. unfold kept, turns. rewrite !filter_In, in_seq, Bool.negb_true_iff. split.
    + intros [[H1 H2] H3]. split; [lia|]. split; [exact H2|]. intros X. apply spoiledb_iff in X. congruence.
    + intros (H1 & H2 & H3). split; [split; [lia|exact H2]|]. destruct (spoiledb loc x i) eqn:E; [|reflexivity].
      apply spoiledb_iff in E. contradiction.
Qed.
Lemma unspoiled_perm loc i L : unspoiled c os loc i L -> forall f : nat -> bool, length (filter f L) = length (filter f (kept loc i)).
Proof.
  intros [N H] f. destruct (kept_unspoiled loc i) as [N' H'].
  assert (A : forall X Y : list nat, NoDup X -> (forall a, In a X -> In a Y) -> (length (filter f X) <= length (filter f Y))%nat).
  { intros X Y NX I. apply NoDup_incl_length; [apply NoDup_filter; exact NX|].
    intros a Ha. apply filter_In in Ha. apply filter_In. split; [apply I, Ha|apply Ha]. }
  apply Nat.le_antisymm; apply A; auto; intros a Ha; [apply H', H, Ha|apply H, H', Ha].
Qed.
Lemma count_entries loc i m l : count_eq (entry_eqb eqb) (Some m) (map (entry loc i) l) =
  length (filter (fun x => eqb m (found_for loc (os x) (previous c used x))) (filter (fun x => negb (spoiledb loc x i)) l)).
Proof.
  unfold count_eq. induction l as [|x r IH]; [reflexivity|]. cbn [map filter].
  unfold entry at 1. destruct (spoiledb loc x i); cbn [negb entry_eqb filter].
  - exact IH.
  - destruct (eqb m _); cbn [length]; rewrite IH; reflexivity.
Qed.
Lemma last_choice i loc : turn c os i = true -> S (eligible_before c os i) = c_maxcv c ->
  forall L, unspoiled c os loc i L ->
  (exists x, In x L /\ bests i loc = found_for loc (os x) (previous c used x)) /\
  forall m, (votes eqb c os used loc L m <= votes eqb c os used loc L (bests i loc))%nat.
Proof.
  intros T E L U. rewrite (bests_last i loc T E). unfold most_frequent.
  pose proof (most_common_spec (entry_eqb eqb) entry_eqb_ok (map (entry loc i) (turns (S i))) [None]) as H.
  assert (Last : In (Some (found_for loc (os i) (previous c used i))) (map (entry loc i) (turns (S i)))).
  { rewrite (turns_turn i T), map_app. apply in_or_app. right. cbn. left. unfold entry. rewrite spoiledb_refl. reflexivity. }
  destruct (most_common _ _ _) as [[m|]|].
  - destruct H as (H1 & _ & H3). split.
    + apply in_map_iff in H1. destruct H1 as (x & Ex & Hx). unfold entry in Ex.
      destruct (spoiledb loc x i) eqn:Sx; [discriminate|]. injection Ex as <-. exists x. split; [|reflexivity].
      apply (proj2 U). apply kept_unspoiled. unfold kept. apply filter_In. rewrite Sx. auto.
    + intros m'. unfold votes. rewrite !(unspoiled_perm loc i L U). unfold kept. rewrite <- !count_entries.
      destruct (existsb (entry_eqb eqb (Some m')) (map (entry loc i) (turns (S i)))) eqn:X.
      * apply existsb_exists in X. destruct X as (y & Hy & Ey). apply entry_eqb_ok in Ey. subst y.
        apply H3; [exact Hy|]. intros [Y|[]]. discriminate.
      * assert (Z : count_eq (entry_eqb eqb) (Some m') (map (entry loc i) (turns (S i))) = 0%nat).
        { unfold count_eq. destruct (filter _ _) as [|y r] eqn:F; [reflexivity|].
          assert (Y : In y (filter (entry_eqb eqb (Some m')) (map (entry loc i) (turns (S i))))) by (rewrite F; left; reflexivity).
          apply filter_In in Y. destruct Y as [Y1 Y2].
          assert (Q : existsb (entry_eqb eqb (Some m')) (map (entry loc i) (turns (S i))) = true) by (apply existsb_exists; eauto).
          congruence. }
        rewrite Z. lia.
  - exfalso. destruct H as (_ & H & _). apply H. left. reflexivity.
  - exfalso. specialize (H _ Last). destruct H as [H|[]]. discriminate.
Qed.

(** ** Parallel loop *)
Lemma parallel_eq s o : (o_step o <= c_localstep c)%nat -> length (global_list s) = length (local_list s) ->
  mark_parallel c s o = if (o_fails o && (length (local_list s) =? 0)%nat)%bool then None else Some (mark_serial c s o).
Proof.
  intros H L. unfold mark_parallel, mark_serial. apply Nat.leb_le in H. rewrite H. destruct (o_fails o); [|reflexivity]. cbn [andb].
  destruct (local_list s) as [|x r] eqn:E1, (global_list s) as [|y q] eqn:E2; try discriminate.
  - cbn [length Nat.eqb fail_last]. destruct (c_localstep c - 1 <=? o_step o)%nat; reflexivity.
  - cbn [length Nat.eqb fail_last]. destruct (c_localstep c - 1 <=? o_step o)%nat; reflexivity.
Qed.
Lemma lists_empty t : (length (local_list (sel_before eqb c (at_ t) (os t))) =? 0)%nat = true <->
  forall i, (i <= t)%nat -> turn c os i = false.
Proof.
  assert (E : length (local_list (sel_before eqb c (at_ t) (os t))) = length (turns (S t))).
  { change (local_list ?s) with (side_list true s). rewrite (side_before true t (side_at true t)). apply map_length. }
  rewrite E, Nat.eqb_eq. split.
  - intros Z i Hi. destruct (turn c os i) eqn:T; [|reflexivity]. exfalso.
    assert (X : In i (turns (S t))) by (apply filter_In; split; [apply in_seq; lia|exact T]).
    destruct (turns (S t)); [exact X|discriminate].
  - intros H. destruct (turns (S t)) as [|x r] eqn:X; [reflexivity|].
    assert (Y : In x (turns (S t))) by (rewrite X; left; reflexivity). apply turns_lt in Y. destruct Y as [Y1 Y2].
    rewrite H in Y2 by lia. discriminate.
Qed.
Lemma parallel_serial : (forall i, (o_step (os i) <= c_localstep c)%nat) -> forall t,
  match parallel_at eqb c os t with
  | Some s => s = at_ t /\ forall j, (j < t)%nat -> o_fails (os j) = true -> exists i, (i <= j)%nat /\ turn c os i = true
  | None => exists j, (j < t)%nat /\ o_fails (os j) = true /\ forall i, (i <= j)%nat -> turn c os i = false
  end.
Proof.
  intros H. induction t as [|t IH]; [split; [reflexivity|intros j Hj; lia]|].
  cbn [parallel_at]. destruct (parallel_at eqb c os t) as [s|].
  - destruct IH as [-> IH]. unfold sel_parallel. rewrite (parallel_eq _ _ (H t) (before_lens t)).
    destruct (o_fails (os t)) eqn:F; cbn [andb].
    + destruct (length _ =? 0)%nat eqn:Z.
      * exists t. split; [lia|]. split; [exact F|]. apply lists_empty. exact Z.
      * split; [reflexivity|]. intros j Hj Fj. destruct (Nat.eq_dec j t) as [->|].
        -- destruct (existsb (turn c os) (seq 0 (S t))) eqn:X.
           ++ apply existsb_exists in X. destruct X as (i & Hi & T). apply in_seq in Hi. exists i. split; [lia|exact T].
           ++ exfalso. assert (Y : (length (local_list (sel_before eqb c (at_ t) (os t))) =? 0)%nat = true).
              { apply lists_empty. intros i Hi. destruct (turn c os i) eqn:T; [|reflexivity]. exfalso.
                assert (Q : existsb (turn c os) (seq 0 (S t)) = true) by (apply existsb_exists; exists i; split; [apply in_seq; lia|exact T]).
                congruence. }
              congruence.
        -- apply IH; [lia|exact Fj].
    + split; [reflexivity|]. intros j Hj Fj. destruct (Nat.eq_dec j t) as [->|]; [congruence|]. apply IH; [lia|exact Fj].
  - destruct IH as (j & Hj & A & B). exists j. split; [lia|]. auto.
Qed.
End Sel.
