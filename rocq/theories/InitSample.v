(** * Latin hypercubes, sample sizes and the initialization loop. *)
From Verif Require Export InitProofs.
From Verif Require Import CatProofs CatCodes CatGlue BaseLemmas.
From Coq Require Import Lia Lqa.
Open Scope Q_scope.

Lemma map2_length {A B C} (f : A -> B -> C) l : forall m, length m = length l -> length (map2 f l m) = length l.
Proof. induction l as [|a l IH]; intros [|b m] H; cbn in *; try lia. rewrite IH; lia. Qed.
Lemma nth_map2 {A B C} (f : A -> B -> C) da db dc l : forall m i, length m = length l -> (i < length l)%nat ->
  nth i (map2 f l m) dc = f (nth i l da) (nth i m db).
Proof. induction l as [|a l IH]; intros [|b m] i H Hi; cbn [length] in *; try lia. destruct i; cbn; [reflexivity|]. apply IH; lia. Qed.

(** ** Latin hypercube *)
Lemma lhs_entry num n t i j : lhs_draws num n t -> (i < num)%nat -> (j < n)%nat ->
  nth j (nth i (uniform_lhs num (fst t) (snd t)) []) 0 =
  (nth j (nth i (snd t) []) 0 + inject_Z (Z.of_nat (nth i (nth j (fst t) []) 0%nat))) / inject_Z (Z.of_nat num).
Proof.
  intros (HP & _ & HR & HRs) Hi Hj. unfold uniform_lhs.
  set (F := fun i => map2 (fun pm r => (r + inject_Z (Z.of_nat (nth i pm 0%nat))) / inject_Z (Z.of_nat num)) (fst t) (nth i (snd t) [])).
  rewrite (nth_indep _ [] (F 0%nat)) by (rewrite map_length, seq_length; exact Hi). rewrite (map_nth F), seq_nth by exact Hi. cbn [Nat.add].
  unfold F. rewrite (nth_map2 _ [] 0 0) by (rewrite ?HP; destruct (HRs (nth i (snd t) [])) as [HL _]; [apply nth_In; lia|]; lia). reflexivity.
Qed.
Lemma lhs_length num n t : lhs_draws num n t -> length (uniform_lhs num (fst t) (snd t)) = num.
Proof. intros _. unfold uniform_lhs. rewrite map_length, seq_length. reflexivity. Qed.
Lemma lhs_row num n t i : lhs_draws num n t -> (i < num)%nat -> length (nth i (uniform_lhs num (fst t) (snd t)) []) = n.
Proof.
  intros (HP & _ & HR & HRs) Hi. unfold uniform_lhs.
  set (F := fun i => map2 (fun pm r => (r + inject_Z (Z.of_nat (nth i pm 0%nat))) / inject_Z (Z.of_nat num)) (fst t) (nth i (snd t) [])).
  rewrite (nth_indep _ [] (F 0%nat)) by (rewrite map_length, seq_length; exact Hi). rewrite (map_nth F), seq_nth by exact Hi. cbn [Nat.add].
  unfold F. rewrite map2_length; [exact HP|]. destruct (HRs (nth i (snd t) [])) as [HL _]; [apply nth_In; lia|]. lia.
Qed.
Lemma draw_range num n t i j : lhs_draws num n t -> (i < num)%nat -> (j < n)%nat ->
  0 <= nth j (nth i (snd t) []) 0 < 1 /\ (nth i (nth j (fst t) []) 0 < num)%nat.
Proof.
  intros (HP & HPs & HR & HRs) Hi Hj. destruct (HRs (nth i (snd t) [])) as [HL HX]; [apply nth_In; lia|].
  destruct (HPs (nth j (fst t) [])) as (PL & _ & PB); [apply nth_In; lia|].
  split; [apply HX, nth_In; lia|]. apply PB, nth_In. lia.
Qed.
Lemma part_iff num n t i j k : lhs_draws num n t -> (i < num)%nat -> (j < n)%nat ->
  (in_part num k (nth j (nth i (uniform_lhs num (fst t) (snd t)) []) 0) <-> nth i (nth j (fst t) []) 0%nat = k).
Proof.
  intros HD Hi Hj. destruct (draw_range num n t i j HD Hi Hj) as [[R1 R2] PB]. unfold in_part. rewrite (lhs_entry num n) by assumption.
  set (r := nth j (nth i (snd t) []) 0) in *. set (p := nth i (nth j (fst t) []) 0%nat) in *.
  assert (NZ : ~ inject_Z (Z.of_nat num) == 0). { change 0 with (inject_Z 0). rewrite inject_Z_injective. lia. }
  assert (E : (r + inject_Z (Z.of_nat p)) / inject_Z (Z.of_nat num) * inject_Z (Z.of_nat num) == r + inject_Z (Z.of_nat p)) by (field; exact NZ).
  rewrite E. rewrite inject_Z_plus. change (inject_Z 1) with 1. split.
  - intros [A B].
    assert (C : inject_Z (Z.of_nat k) < inject_Z (Z.of_nat p + 1)) by (rewrite inject_Z_plus; change (inject_Z 1) with 1; lra).
    assert (D : inject_Z (Z.of_nat p) < inject_Z (Z.of_nat k + 1)) by (rewrite inject_Z_plus; change (inject_Z 1) with 1; lra).
    rewrite <- Zlt_Qlt in C, D. lia.
  - intros <-. lra.
Qed.
Lemma perm_onto m perm k : permutation_of m perm -> (k < m)%nat -> exists i, (i < m)%nat /\ nth i perm 0%nat = k.
Proof.
  intros (L & N & B) Hk.
  assert (I : incl (seq 0 m) perm).
  { apply NoDup_length_incl; [exact N|rewrite seq_length; lia|]. intros x Hx. apply in_seq. specialize (B x Hx). lia. }
  assert (Hin : In k perm) by (apply I, in_seq; lia). destruct (In_nth perm k 0%nat Hin) as (i & Hi & E). exists i. split; [lia|exact E].
Qed.
Lemma lhs_one_per_part num n t j k : lhs_draws num n t -> (j < n)%nat -> (k < num)%nat ->
  exists i, (i < num)%nat /\ in_part num k (nth j (nth i (uniform_lhs num (fst t) (snd t)) []) 0) /\
    forall i', (i' < num)%nat -> in_part num k (nth j (nth i' (uniform_lhs num (fst t) (snd t)) []) 0) -> i' = i.
Proof.
  intros HD Hj Hk. assert (HP : permutation_of num (nth j (fst t) [])).
  { destruct HD as (HP & HPs & _). apply HPs, nth_In. lia. }
  destruct (perm_onto num _ k HP Hk) as (i & Hi & E). exists i. split; [exact Hi|]. split; [apply (part_iff num n); assumption|].
  intros i' Hi' H. apply (part_iff num n) in H; [|assumption..]. destruct HP as (L & N & _).
  apply (proj1 (NoDup_nth (nth j (fst t) []) 0%nat) N); [lia|lia|]. congruence.
Qed.
Lemma lhs_unit num n t i j : lhs_draws num n t -> (i < num)%nat -> (j < n)%nat ->
  0 <= nth j (nth i (uniform_lhs num (fst t) (snd t)) []) 0 <= 1.
Proof.
  intros HD Hi Hj. destruct (draw_range num n t i j HD Hi Hj) as [[R1 R2] PB]. rewrite (lhs_entry num n) by assumption.
  set (r := nth j (nth i (snd t) []) 0) in *. set (p := nth i (nth j (fst t) []) 0%nat) in *.
  assert (M : 0 < inject_Z (Z.of_nat num)). { change 0 with (inject_Z 0). rewrite <- Zlt_Qlt. lia. }
  assert (P0 : 0 <= inject_Z (Z.of_nat p)). { change 0 with (inject_Z 0). rewrite <- Zle_Qle. lia. }
  assert (P1 : inject_Z (Z.of_nat p) + 1 <= inject_Z (Z.of_nat num)). { change 1 with (inject_Z 1). rewrite <- inject_Z_plus, <- Zle_Qle. lia. }
  split; [apply Qle_shift_div_l; [exact M|lra]|apply Qle_shift_div_r; [exact M|lra]].
Qed.
(** ** Maximin choice *)
Lemma pair_dists_In l q : In q (pair_dists l) <-> exists i j, (i < j < length l)%nat /\ q = sqdist (nth i l []) (nth j l []).
Proof.
  induction l as [|p r IH]; cbn [pair_dists length].
  - split; [intros []|intros (i & j & H & _); lia].
  - rewrite in_app_iff, in_map_iff, IH. split.
    + intros [(x & <- & Hx)|(i & j & H & ->)].
      * destruct (In_nth r x [] Hx) as (j & Hj & <-). exists 0%nat, (S j). split; [lia|reflexivity].
      * exists (S i), (S j). split; [lia|reflexivity].
    + intros (i & j & H & ->). destruct j as [|j]; [lia|]. destruct i as [|i]; cbn [nth].
      * left. exists (nth j r []). split; [reflexivity|apply nth_In; lia].
      * right. exists i, j. split; [lia|reflexivity].
Qed.
Lemma min_pair_spec l : (2 <= length l)%nat ->
  (exists i j, (i < j < length l)%nat /\ min_pair l = sqdist (nth i l []) (nth j l [])) /\
  forall i j, (i < j < length l)%nat -> min_pair l <= sqdist (nth i l []) (nth j l []).
Proof.
  intros HL. assert (NE : pair_dists l <> []). { destruct l as [|a [|b r]]; cbn in *; try lia; discriminate. }
  pose proof (argmin_spec _ NE) as FM. unfold min_pair. split.
  - apply pair_dists_In. apply nth_In. apply FM.
  - intros i j H. apply (first_min_In _ _ _ FM). apply pair_dists_In. exists i, j. auto.
Qed.
Lemma maximin_spec ds : ds <> [] -> In (maximin_choice ds) ds /\ forall d, In d ds -> min_pair d <= min_pair (maximin_choice ds).
Proof.
  intros NE. assert (NE' : map min_pair ds <> []) by (destruct ds; [congruence|discriminate]).
  destruct (argmax_spec _ NE') as (A & B & _). rewrite map_length in A. unfold maximin_choice.
  split; [apply nth_In; exact A|]. intros d Hd. destruct (In_nth ds d [] Hd) as (j & Hj & <-).
  specialize (B j). rewrite map_length in B. specialize (B Hj).
  assert (X : forall i, nth i (map min_pair ds) 0 = min_pair (nth i ds [])) by (intros i; exact (map_nth min_pair ds [] i)).
  rewrite !X in B. exact B.
Qed.

(** ** Mapping to the box *)
Lemma lhd_point_length ints x : forall lo up i, length lo = length x -> length up = length x -> length (lhd_point i ints x lo up) = length x.
Proof. induction x as [|v x IH]; intros [|l lo] [|u up] i H1 H2; cbn in *; try lia. rewrite IH; lia. Qed.
Lemma lhd_point_nth ints x : forall lo up i k, length lo = length x -> length up = length x -> (k < length x)%nat ->
  nth k (lhd_point i ints x lo up) 0 =
  nth k x 0 * (2 * bound_shift ints (i + k) + nth k up 0 - nth k lo 0) + nth k lo 0 - bound_shift ints (i + k).
Proof.
  induction x as [|v x IH]; intros [|l lo] [|u up] i k H1 H2 Hk; cbn [length] in *; try lia.
  destruct k as [|k]; cbn [lhd_point nth]; [rewrite Nat.add_0_r; reflexivity|]. rewrite IH by lia.
  replace (S i + k)%nat with (i + S k)%nat by lia. reflexivity.
Qed.
Lemma lhd_range x s l u : 0 <= x <= 1 -> 0 <= s -> l <= u -> l - s <= x * (2 * s + u - l) + l - s <= u + s.
Proof. intros [A B] S H. split; nra. Qed.

(** Good bounds in the space sampled: ordered, integral where integrality is required. *)
Definition good_box (lo up : point) (ints : list nat) : Prop :=
  box_ok lo up /\ (forall i, In i ints -> (i < length lo)%nat /\ integral (nth i lo 0) /\ integral (nth i up 0)).
(** Each coordinate in the (enlarged, for integers) box. *)
Definition loosely (lo up : point) (ints : list nat) (p : point) : Prop :=
  length p = length lo /\ forall i, (i < length lo)%nat ->
    nth i lo 0 - bound_shift ints i <= nth i p 0 <= nth i up 0 + bound_shift ints i.
Lemma round_feasible lo up ints p : good_box lo up ints -> loosely lo up ints p -> feasible lo up ints (round_integer_vars p ints).
Proof.
  intros [[BL BO] GI] [HL HB]. unfold round_integer_vars. split; [rewrite round_at_len; exact HL|]. split.
  - intros j Hj. rewrite round_at_val by lia. cbn [Nat.add]. specialize (HB j Hj). unfold bound_shift in HB.
    destruct (memn j ints) eqn:M; [|split; lra]. apply memn_In in M. destruct (GI j M) as (_ & I1 & I2).
    apply rhe_between; auto; lra.
  - intros j Hj. destruct (GI j Hj) as (Hl & _). rewrite round_at_val by lia. cbn [Nat.add].
    apply memn_In in Hj. rewrite Hj. eexists; reflexivity.
Qed.
Lemma corner_loosely lo up ints p : good_box lo up ints -> is_corner lo up p -> loosely lo up ints p.
Proof.
  intros [[BL BO] _] [HL HB]. split; [exact HL|]. intros i Hi. specialize (BO i Hi).
  assert (0 <= bound_shift ints i) by (unfold bound_shift; destruct (memn i ints); discriminate).
  destruct (HB i Hi) as [->| ->]; lra.
Qed.
Lemma mid_loosely lo up ints : good_box lo up ints -> loosely lo up ints (map2 (fun l u => (l + u) / 2) lo up).
Proof.
  intros [[BL BO] _]. split; [apply map2_length; lia|]. intros i Hi. rewrite (nth_map2 _ 0 0) by lia. specialize (BO i Hi).
  assert (0 <= bound_shift ints i) by (unfold bound_shift; destruct (memn i ints); discriminate).
  assert (E : (nth i lo 0 + nth i up 0) / 2 == nth i lo 0 * (1#2) + nth i up 0 * (1#2)) by field. rewrite E. split; lra.
Qed.
Lemma lhd_loosely choose lo up ints num trials : good_box lo up ints ->
  (choose (map (fun t => uniform_lhs num (fst t) (snd t)) trials) = [] \/
   exists t, In t trials /\ lhs_draws num (length lo) t /\ choose (map (fun t => uniform_lhs num (fst t) (snd t)) trials) = uniform_lhs num (fst t) (snd t)) ->
  forall p, In p (lhd_points choose lo up ints num trials) -> loosely lo up ints p.
Proof.
  intros GB HC p Hp. assert (GB' := GB). destruct GB' as [[BL BO] _].
  assert (SH : forall i, 0 <= bound_shift ints i) by (intros i; unfold bound_shift; destruct (memn i ints); discriminate).
  assert (ONE : In p [lo; up] -> loosely lo up ints p).
  { intros [<-|[<-|[]]]; (split; [lia|]); intros i Hi; specialize (BO i Hi); specialize (SH i); lra. }
  assert (GEN : In p (map (fun x => lhd_point 0 ints x lo up) (choose (map (fun t => uniform_lhs num (fst t) (snd t)) trials))) -> loosely lo up ints p).
  { intros H. destruct HC as [E|(t & Ht & HD & E)]; rewrite E in H; [destruct H|].
    apply in_map_iff in H. destruct H as (x & <- & Hx). destruct (In_nth _ x [] Hx) as (i & Hi & <-).
    rewrite (lhs_length num (length lo) t HD) in Hi. pose proof (lhs_row num (length lo) t i HD Hi) as R.
    split; [rewrite lhd_point_length; lia|]. intros k Hk. rewrite lhd_point_nth by lia. cbn [Nat.add].
    apply lhd_range; [apply (lhs_unit num (length lo)); assumption|apply SH|apply BO; exact Hk]. }
  unfold lhd_points in Hp. destruct lo as [|l [|l' lo']]; [apply GEN; exact Hp|apply ONE; exact Hp|apply GEN; exact Hp].
Qed.
Lemma sample_loosely st num lo up ints a nodes : good_box lo up ints -> good_attempt (Z.to_nat num) (length lo) a ->
  sample_nodes st num lo up ints a = Some nodes -> forall p, In p nodes -> loosely lo up ints p.
Proof.
  intros GB (HC & NE & HT & HK) H p Hp. assert (BL : length up = length lo) by (destruct GB as [[? _] _]; lia).
  destruct st; cbn [sample_nodes] in H; try (injection H as <-).
  - apply corner_loosely; [exact GB|]. apply all_corners_In; assumption.
  - apply corner_loosely; [exact GB|]. apply lower_corners_In; assumption.
  - apply corner_loosely; [exact GB|]. destruct (random_corners_spec lo up _ nodes BL HC H) as (_ & X & _). auto.
  - refine (lhd_loosely maximin_choice lo up ints _ (a_trials a) GB _ p Hp). right.
    destruct (maximin_spec (map (fun t => uniform_lhs (Z.to_nat num) (fst t) (snd t)) (a_trials a))) as [X _].
    { destruct (a_trials a); [congruence|discriminate]. }
    apply in_map_iff in X. destruct X as (t & E & Ht). exists t. split; [exact Ht|]. split; [apply HT; exact Ht|]. symmetry; exact E.
  - refine (lhd_loosely (fun ds => nth (a_corr a) ds []) lo up ints _ (a_trials a) GB _ p Hp). right.
    set (F := fun t : list (list nat) * list point => uniform_lhs (Z.to_nat num) (fst t) (snd t)) in *.
    exists (nth (a_corr a) (a_trials a) ([], [])). split; [apply nth_In; exact HK|]. split; [apply HT, nth_In; exact HK|].
    rewrite (nth_indep _ [] (F ([], []))) by (rewrite map_length; exact HK). rewrite map_nth. reflexivity.
Qed.

(** ** The loop *)
(** What the loop returns comes from one of the passes. *)
Lemma init_loop_ok c num cat s lo up ints attempts : forall k nodes,
  init_loop c num cat s lo up ints k attempts = InitOk nodes ->
  exists a raw, In a attempts /\ sample_nodes (i_strategy c) num lo up ints a = Some raw /\
    nodes = finish_nodes c cat s lo up ints raw /\ a_independent a nodes = true.
Proof.
  induction attempts as [|a r IH]; intros k nodes H; cbn [init_loop] in H; [discriminate|].
  destruct (sample_nodes _ _ _ _ _ a) as [raw|] eqn:E; [|discriminate].
  destruct (a_independent a (finish_nodes c cat s lo up ints raw)) eqn:I.
  - destruct (_ =? _)%nat; [discriminate|]. injection H as <-. exists a, raw. repeat split; auto. left; reflexivity.
  - destruct (_ <? _)%nat; [|discriminate]. apply IH in H. destruct H as (a' & raw' & Hin & A & B & C).
    exists a', raw'. repeat split; auto. right; exact Hin.
Qed.
(** Rounded sample and midpoint are feasible in the sampled space. *)
Lemma finish_plain c s lo up ints raw p : good_box lo up ints -> (forall q, In q raw -> loosely lo up ints q) ->
  In p (finish_nodes c false s lo up ints raw) -> feasible lo up ints p.
Proof.
  intros GB HR Hp. unfold finish_nodes in Hp.
  assert (X : forall q, In q (map (fun p => round_integer_vars p ints) raw) -> feasible lo up ints q).
  { intros q Hq. apply in_map_iff in Hq. destruct Hq as (q' & <- & Hq). apply round_feasible; auto. }
  destruct (_ && _)%bool; [|auto]. apply in_app_or in Hp. destruct Hp as [Hp|[<-|[]]]; [auto|].
  apply round_feasible; [exact GB|]. apply mid_loosely. exact GB.
Qed.
Lemma finish_cat c s lo up ints raw : finish_nodes c true s lo up ints raw = map (expand s) (finish_nodes c false s lo up ints raw).
Proof. reflexivity. Qed.

(** Success of the loop. *)
Lemma init_loop_success c num cat s lo up ints attempts : forall k,
  (k < i_max c)%nat -> (i_max c <= k + length attempts)%nat ->
  (forall a, In a attempts -> exists raw, sample_nodes (i_strategy c) num lo up ints a = Some raw) ->
  ((exists nodes, init_loop c num cat s lo up ints k attempts = InitOk nodes) <->
   exists i raw, (k + i + 1 < i_max c)%nat /\ sample_nodes (i_strategy c) num lo up ints (nth i attempts (mkAttempt [] [] 0 (fun _ => false))) = Some raw /\
     a_independent (nth i attempts (mkAttempt [] [] 0 (fun _ => false))) (finish_nodes c cat s lo up ints raw) = true).
Proof.
  induction attempts as [|a r IH]; intros k Hk HL HS; [cbn in HL; lia|]. cbn [init_loop].
  destruct (HS a (or_introl eq_refl)) as [raw Er]. rewrite Er.
  destruct (a_independent a (finish_nodes c cat s lo up ints raw)) eqn:I.
  - destruct (Nat.eqb_spec (S k) (i_max c)) as [E|E].
    + split; [intros (n & H); discriminate|]. intros (i & raw' & H & _). lia.
    + split; [|eauto]. intros _. exists 0%nat, raw. cbn [nth]. split; [lia|auto].
  - destruct (Nat.ltb_spec (S k) (i_max c)) as [E|E].
    + rewrite (IH (S k)); [|lia|cbn [length] in HL; lia|intros a' Ha'; apply HS; right; exact Ha']. split.
      * intros (i & raw' & H & A & B). exists (S i), raw'. cbn [nth]. split; [lia|auto].
      * intros (i & raw' & H & A & B). destruct i as [|i]; cbn [nth] in *; [rewrite A in Er; injection Er as ->; congruence|].
        exists i, raw'. split; [lia|auto].
    + split; [intros (n & H); discriminate|]. intros (i & raw' & H & _). lia.
Qed.
