(** * Proofs about the refinement step, continued: rounding, categorical blocks, model set. *)
From Verif Require Export RefineProofs.
From Coq Require Import Sorting.Permutation Lra Lia.
Open Scope R_scope.

(** ** Floor, ceiling, nearest *)
Lemma Rfloor_spec x : Rfloor x <= x < Rfloor x + 1.
Proof. unfold Rfloor. destruct (base_Int_part x). lra. Qed.
Lemma Rceil_spec x : x <= Rceil x < x + 1.
Proof. unfold Rceil. pose proof (Rfloor_spec (- x)). lra. Qed.
Lemma Rfloor_whole x : whole (Rfloor x).
Proof. exists (Int_part x). reflexivity. Qed.
Lemma Rceil_whole x : whole (Rceil x).
Proof. exists (- Int_part (- x))%Z. unfold Rceil, Rfloor. rewrite opp_IZR. reflexivity. Qed.
Lemma whole_lt_step a b : whole a -> whole b -> a < b + 1 -> a <= b.
Proof.
  intros [z ->] [w ->] H. apply IZR_le. rewrite <- plus_IZR in H. apply lt_IZR in H. lia.
Qed.
Lemma whole_opp a : whole a -> whole (- a).
Proof. intros [z ->]. exists (- z)%Z. rewrite opp_IZR. reflexivity. Qed.
Lemma whole_plus a b : whole a -> whole b -> whole (a + b).
Proof. intros [z ->] [w ->]. exists (z + w)%Z. rewrite plus_IZR. reflexivity. Qed.
Lemma whole_minus a b : whole a -> whole b -> whole (a - b).
Proof. intros. unfold Rminus. apply whole_plus; auto. apply whole_opp; auto. Qed.
Lemma whole_0 : whole 0. Proof. exists 0%Z. reflexivity. Qed.
Lemma whole_1 : whole 1. Proof. exists 1%Z. reflexivity. Qed.
Lemma Rfloor_ge lo x : whole lo -> lo <= x -> lo <= Rfloor x.
Proof. intros W H. apply whole_lt_step; auto using Rfloor_whole. pose proof (Rfloor_spec x). lra. Qed.
Lemma Rceil_le up x : whole up -> x <= up -> Rceil x <= up.
Proof. intros W H. apply whole_lt_step; auto using Rceil_whole. pose proof (Rceil_spec x). lra. Qed.
Lemma Rfloor_id x : whole x -> Rfloor x = x.
Proof. intros W. apply Rle_antisym; [apply Rfloor_spec|]. apply Rfloor_ge; auto; lra. Qed.
Lemma Rceil_id x : whole x -> Rceil x = x.
Proof. intros W. apply Rle_antisym; [apply Rceil_le; auto; lra|apply Rceil_spec]. Qed.
Lemma rounded_floor x : rounded x (Rfloor x).
Proof.
  split; [apply Rfloor_whole|]. split; [|apply Rfloor_id].
  pose proof (Rfloor_spec x). unfold Rabs. destruct (Rcase_abs _); lra.
Qed.
Lemma rounded_ceil x : rounded x (Rceil x).
Proof.
  split; [apply Rceil_whole|]. split; [|apply Rceil_id].
  pose proof (Rceil_spec x). unfold Rabs. destruct (Rcase_abs _); lra.
Qed.
Lemma Raround_cases x : Raround x = Rfloor x \/ (Raround x = Rfloor x + 1 /\ Rfloor x < x).
Proof.
  unfold Raround. pose proof (Rfloor_spec x). unfold Rfloor in *.
  destruct (Rltb (x - IZR (Int_part x)) (1 / 2)) eqn:E1; auto. apply Rltb_ge in E1.
  destruct (Rltb (1 / 2) (x - IZR (Int_part x))) eqn:E2; [right; rewrite plus_IZR; lra|].
  destruct (Z.even (Int_part x)); auto. right. rewrite plus_IZR. lra.
Qed.
Lemma Raround_whole x : whole (Raround x).
Proof.
  destruct (Raround_cases x) as [->|[-> _]]; [apply Rfloor_whole|]. apply whole_plus; [apply Rfloor_whole|apply whole_1].
Qed.
Lemma Raround_between lo up x : whole lo -> whole up -> lo <= x <= up -> lo <= Raround x <= up.
Proof.
  intros W1 W2 [H1 H2]. pose proof (Rfloor_ge lo x W1 H1). pose proof (Rfloor_spec x).
  destruct (Raround_cases x) as [->|[-> L]]; split; try lra.
  apply whole_lt_step; auto; [apply whole_plus; [apply Rfloor_whole|apply whole_1]|]. lra.
Qed.
Lemma Raround_id x : whole x -> Raround x = x.
Proof. intros W. apply Rle_antisym; apply (Raround_between x x x); auto; lra. Qed.

(** ** Categorical blocks *)
Lemma zero_block block : forall p : rpoint,
  length (fold_left (fun q j => set_at j 0 q) block p) = length p /\
  (forall j, ~ In j block -> nth j (fold_left (fun q j => set_at j 0 q) block p) 0 = nth j p 0) /\
  (forall j, In j block -> (j < length p)%nat -> nth j (fold_left (fun q j => set_at j 0 q) block p) 0 = 0).
Proof.
  induction block as [|b r IH]; intros p; cbn; [split; auto; split; [auto|intros j []]|].
  destruct (IH (set_at b 0 p)) as (L & O & Z). rewrite set_at_length in *.
  split; auto. split.
  - intros j Hj. rewrite O by tauto. rewrite nth_set_at_ne; auto.
  - intros j Hj Hl. destruct (in_dec Nat.eq_dec j r) as [Hr|Hr]; [auto|].
    destruct Hj as [<-|Hj]; [|tauto]. rewrite O by auto. apply nth_set_at. auto.
Qed.
Lemma round_block_spec p block c : In c block -> (forall j, In j block -> (j < length p)%nat) ->
  length (round_block p block c) = length p /\ nth c (round_block p block c) 0 = 1 /\
  (forall j, In j block -> j <> c -> nth j (round_block p block c) 0 = 0) /\
  (forall j, ~ In j block -> nth j (round_block p block c) 0 = nth j p 0).
Proof.
  intros Hc Hb. destruct (zero_block block p) as (L & O & Z). unfold round_block.
  split; [rewrite set_at_length; auto|]. split; [|split].
  - apply nth_set_at. unfold rpoint in *. rewrite L. auto.
  - intros j Hj Hne. rewrite nth_set_at_ne by auto. apply Z; auto.
  - intros j Hj. rewrite nth_set_at_ne by (intros ->; auto). apply O; auto.
Qed.
Lemma proper_tail n b bs : proper_blocks n (b :: bs) -> proper_blocks n bs /\ forall b', In b' bs -> forall x, In x b -> ~ In x b'.
Proof.
  intros [P1 P2]. split; [split|].
  - intros b' H. apply P1. right; auto.
  - intros i j Hi Hj Hne. apply (P2 (S i) (S j)); cbn; lia.
  - intros b' H x Hx. destruct (In_nth _ _ [] H) as (i & Hi & <-).
    apply (P2 0%nat (S i) ltac:(cbn; lia) ltac:(cbn; lia) ltac:(lia) x). auto.
Qed.
Lemma round_categorical_spec blocks : forall choices (p : rpoint), proper_blocks (length p) blocks ->
  length choices = length blocks -> (forall i, (i < length blocks)%nat -> In (nth i choices 0%nat) (nth i blocks [])) ->
  length (round_categorical blocks choices p) = length p /\
  (forall j, in_no_block blocks j -> nth j (round_categorical blocks choices p) 0 = nth j p 0) /\
  (forall i, (i < length blocks)%nat ->
     nth (nth i choices 0%nat) (round_categorical blocks choices p) 0 = 1 /\
     forall j, In j (nth i blocks []) -> j <> nth i choices 0%nat -> nth j (round_categorical blocks choices p) 0 = 0).
Proof.
  unfold round_categorical. induction blocks as [|b bs IH]; intros choices p Pb Lc Hc.
  - cbn. repeat split; auto; intros; lia.
  - destruct choices as [|c cs]; [discriminate|]. cbn [combine fold_left fst snd].
    destruct (proper_tail _ _ _ Pb) as [Pt Dj].
    pose proof (Hc 0%nat ltac:(cbn; lia)) as Hc0. cbn in Hc0.
    assert (Hb : forall j, In j b -> (j < length p)%nat) by (apply (proj1 Pb b); left; auto).
    destruct (round_block_spec p b c Hc0 Hb) as (L & C1 & C0 & O).
    destruct (IH cs (round_block p b c)) as (L' & O' & A').
    + rewrite L. auto.
    + cbn in Lc. lia.
    + intros i Hi. apply (Hc (S i)). cbn; lia.
    + split; [rewrite L'; auto|]. split.
      * intros j Hj. rewrite O' by (intros b' H'; apply Hj; right; auto). apply O. apply Hj. left; auto.
      * intros [|i] Hi; cbn [nth].
        -- split.
           ++ rewrite O' by (intros b' H'; apply Dj; auto). auto.
           ++ intros j Hj Hne. rewrite O' by (intros b' H'; apply Dj; auto). auto.
        -- apply A'. cbn in Hi. lia.
Qed.
Lemma round_categorical_box blocks choices p lo up : proper_blocks (length p) blocks ->
  length choices = length blocks -> (forall i, (i < length blocks)%nat -> In (nth i choices 0%nat) (nth i blocks [])) ->
  rin_box p lo up -> (forall b j, In b blocks -> In j b -> nth j lo 0 <= 0 /\ 1 <= nth j up 0) ->
  rin_box (round_categorical blocks choices p) lo up.
Proof.
  intros Pb Lc Hc (L1 & L2 & B) Bb. destruct (round_categorical_spec blocks choices p Pb Lc Hc) as (L & O & A).
  split; [rewrite L; auto|]. split; [rewrite L; auto|]. intros j Hj. rewrite L in Hj.
  destruct (in_dec Nat.eq_dec j (concat blocks)) as [Hin|Hin].
  - apply in_concat in Hin as (b & Hb & Hjb). destruct (Bb b j Hb Hjb). destruct (In_nth _ _ [] Hb) as (i & Hi & <-).
    destruct (A i Hi) as [A1 A2]. destruct (Nat.eq_dec j (nth i choices 0%nat)) as [->|Hne]; [rewrite A1; lra|rewrite A2 by auto; lra].
  - rewrite O; [apply B; auto|]. intros b Hb Hjb. apply Hin. apply in_concat. exists b; auto.
Qed.

(** ** Integer candidate *)
Lemma best_rounding_spec h start cand radius ints blocks draws : forall best bv, bv = rdot h best ->
  let (q, v) := best_rounding h start cand radius ints blocks draws best bv in
  v = rdot h q /\ v <= bv /\
  (q = best \/ exists d, In d draws /\ q = drawn_rounding cand ints blocks d /\ distance q start <= radius) /\
  (forall d, In d draws -> distance (drawn_rounding cand ints blocks d) start <= radius -> v <= rdot h (drawn_rounding cand ints blocks d)).
Proof.
  induction draws as [|d r IH]; intros best bv E; cbn [best_rounding].
  - repeat split; auto; try lra. intros d [].
  - set (q0 := drawn_rounding cand ints blocks d).
    destruct (Rleb (distance q0 start) radius && Rltb (rdot h q0) bv) eqn:G.
    + apply Bool.andb_true_iff in G as [G1 G2]. apply Rleb_le in G1. apply Rltb_lt in G2.
      specialize (IH q0 (rdot h q0) eq_refl). destruct (best_rounding _ _ _ _ _ _ r q0 _) as [q v].
      destruct IH as (A & B & C & D). split; auto. split; [lra|]. split.
      * destruct C as [->|(d' & Hd & Hq)]; right; [exists d; cbn; auto|exists d'; cbn; tauto].
      * intros d' [<-|Hd] Hr; [exact B|auto].
    + specialize (IH best bv E). destruct (best_rounding _ _ _ _ _ _ r best bv) as [q v].
      destruct IH as (A & B & C & D). split; auto. split; [lra|]. split.
      * destruct C as [->|(d' & Hd & Hq)]; [auto|right; exists d'; cbn; tauto].
      * intros d' [<-|Hd] Hr; [|auto]. apply Bool.andb_false_iff in G as [G|G].
        -- apply Rleb_gt in G. fold q0 in Hr. lra.
        -- apply Rltb_ge in G. fold q0. lra.
Qed.
(** What a rounding (initial or drawn) is, coordinate by coordinate. *)
Definition is_rounding (cand : rpoint) (ints : list nat) (blocks : list (list nat)) (q : rpoint) : Prop :=
  length q = length cand /\
  (forall j, (j < length cand)%nat -> in_no_block blocks j -> In j ints ->
     nth j q 0 = Rfloor (nth j cand 0) \/ nth j q 0 = Rceil (nth j cand 0)) /\
  (forall j, (j < length cand)%nat -> in_no_block blocks j -> ~ In j ints -> nth j q 0 = nth j cand 0) /\
  (forall b, In b blocks -> one_active b q).
Lemma rounding_generic cand ints blocks choices (f : nat -> R -> R) :
  proper_blocks (length cand) blocks -> length choices = length blocks ->
  (forall i, (i < length blocks)%nat -> In (nth i choices 0%nat) (nth i blocks [])) ->
  (forall j x, f j x = Rfloor x \/ f j x = Rceil x) ->
  is_rounding cand ints blocks (round_categorical blocks choices (mapi (fun j x => if memb ints j then f j x else x) cand)).
Proof.
  intros Pb Lc Hc Hf. set (p := mapi _ cand).
  assert (Lp : length p = length cand) by apply mapi_len.
  rewrite <- Lp in Pb. destruct (round_categorical_spec blocks choices p Pb Lc Hc) as (L & O & A).
  split; [congruence|]. split; [|split].
  - intros j Hj Hn Hi. rewrite O by auto. unfold p. rewrite (nth_mapi _ cand 0 0) by auto.
    apply memb_in in Hi. rewrite Hi. auto.
  - intros j Hj Hn Hi. rewrite O by auto. unfold p. rewrite (nth_mapi _ cand 0 0) by auto.
    destruct (memb ints j) eqn:E; auto. apply memb_in in E. tauto.
  - intros b Hb. destruct (In_nth _ _ [] Hb) as (i & Hi & <-). destruct (A i Hi) as [A1 A2].
    exists (nth i choices 0%nat). split; auto.
Qed.
Definition choices_ok (blocks : list (list nat)) (choices : list nat) : Prop :=
  length choices = length blocks /\ forall i, (i < length blocks)%nat -> In (nth i choices 0%nat) (nth i blocks []).
Lemma integer_candidate_spec h start cand radius ints blocks fc draws :
  proper_blocks (length cand) blocks -> choices_ok blocks fc -> (forall d, In d draws -> choices_ok blocks (d_choice d)) ->
  let (q, adj) := get_integer_candidate h start cand radius ints blocks fc draws in
  is_rounding cand ints blocks q /\ adj = rdot h cand - rdot h q /\
  (q = initial_rounding h cand ints blocks fc \/ distance q start <= radius) /\
  rdot h q <= rdot h (initial_rounding h cand ints blocks fc) /\
  (forall d, In d draws -> distance (drawn_rounding cand ints blocks d) start <= radius -> rdot h q <= rdot h (drawn_rounding cand ints blocks d)).
Proof.
  intros Pb [F1 F2] D. unfold get_integer_candidate. set (p0 := initial_rounding h cand ints blocks fc).
  pose proof (best_rounding_spec h start cand radius ints blocks draws p0 (rdot h p0) eq_refl) as S.
  destruct (best_rounding _ _ _ _ _ _ draws p0 _) as [q v]. destruct S as (-> & S2 & S3 & S4).
  split; [|split; [auto|split; [|split; auto]]].
  - destruct S3 as [->|(d & Hd & -> & _)].
    + apply (rounding_generic cand ints blocks fc (fun j x => if Rleb 0 (nth j h 0) then Rceil x else Rfloor x)); auto.
      intros j x. destruct (Rleb 0 (nth j h 0)); auto.
    + destruct (D d Hd) as [D1 D2].
      apply (rounding_generic cand ints blocks (d_choice d) (fun j x => if Rltb (d_unif d j) (x - Rfloor x) then Rceil x else Rfloor x)); auto.
      intros j x. destruct (Rltb _ _); auto.
  - destruct S3 as [->|(d & Hd & -> & Hr)]; auto.
Qed.
Lemma rounding_box cand ints blocks q lo up : rin_box cand lo up -> is_rounding cand ints blocks q ->
  (forall j, In j ints -> in_no_block blocks j -> whole (nth j lo 0) /\ whole (nth j up 0)) ->
  (forall b j, In b blocks -> In j b -> nth j lo 0 <= 0 /\ 1 <= nth j up 0) -> rin_box q lo up.
Proof.
  intros (L1 & L2 & B) (L & I & O & A) W Bb. split; [congruence|]. split; [congruence|].
  rewrite L. intros j Hj.
  destruct (in_dec Nat.eq_dec j (concat blocks)) as [Hin|Hin].
  - apply in_concat in Hin as (b & Hb & Hjb). destruct (Bb b j Hb Hjb). destruct (A b Hb) as (c & _ & A1 & A2).
    destruct (Nat.eq_dec j c) as [->|Hne]; [rewrite A1; lra|rewrite A2 by auto; lra].
  - assert (Nb : in_no_block blocks j) by (intros b Hb Hjb; apply Hin; apply in_concat; exists b; auto).
    specialize (B j Hj). destruct (in_dec Nat.eq_dec j ints) as [Hi|Hi].
    + destruct (W j Hi Nb) as [W1 W2]. pose proof (Rfloor_spec (nth j cand 0)). pose proof (Rceil_spec (nth j cand 0)).
      destruct (I j Hj Nb Hi) as [->| ->]; split; try lra; [apply Rfloor_ge; auto; lra|apply Rceil_le; auto; lra].
    + rewrite O by auto. auto.
Qed.
(** From an integral start the initial rounding is between start and candidate. *)
Lemma initial_rounding_between h start cand ints j :
  length h = length cand -> length start = length cand -> (j < length cand)%nat -> (In j ints -> whole (nth j start 0)) ->
  0 <= nth j h 0 * (nth j start 0 - nth j cand 0) -> (nth j h 0 = 0 -> nth j cand 0 = nth j start 0) ->
  let q := initial_rounding h cand ints [] [] in
  Rabs (nth j q 0 - nth j start 0) <= Rabs (nth j cand 0 - nth j start 0) /\ 0 <= nth j h 0 * (nth j start 0 - nth j q 0).
Proof.
  intros L1 L2 Hj W Hd Hz q. unfold q, initial_rounding, round_categorical. cbn [combine fold_left].
  rewrite (nth_mapi _ cand 0 0) by auto. destruct (memb ints j) eqn:E; [|split; [lra|auto]].
  apply memb_in in E. specialize (W E).
  destruct (Rleb 0 (nth j h 0)) eqn:G.
  - apply Rleb_le in G. pose proof (Rceil_spec (nth j cand 0)).
    assert (C : nth j cand 0 <= nth j start 0).
    { destruct (Rle_lt_or_eq_dec _ _ G) as [P|P]; [nra|]. rewrite Hz by auto. lra. }
    pose proof (Rceil_le _ _ W C). split; [|nra]. unfold Rabs; repeat destruct (Rcase_abs _); lra.
  - apply Rleb_gt in G. pose proof (Rfloor_spec (nth j cand 0)).
    assert (C : nth j start 0 <= nth j cand 0) by nra.
    pose proof (Rfloor_ge _ _ W C). split; [|nra]. unfold Rabs; repeat destruct (Rcase_abs _); lra.
Qed.

(** ** Model set *)
Lemma sorts_nodup dist order : sorts dist order -> NoDup order /\ length order = length dist /\ (forall i, In i order <-> (i < length dist)%nat).
Proof.
  intros [P _]. split; [eapply Permutation_NoDup; [exact P|apply seq_NoDup]|]. split.
  - rewrite <- (Permutation_length P). apply seq_length.
  - intros i. split; intros H.
    + apply Permutation_sym in P. apply (Permutation_in _ P) in H. apply in_seq in H. lia.
    + apply (Permutation_in _ P). apply in_seq. lia.
Qed.
Lemma NoDup_firstn {A} (l : list A) : forall m, NoDup l -> NoDup (firstn m l).
Proof.
  induction l as [|x r IH]; intros [|m] H; cbn; try constructor.
  - inversion H; subst. intros Hx. apply H2. rewrite <- (firstn_skipn m r). apply in_or_app; auto.
  - apply IH. inversion H; auto.
Qed.
Lemma nth_firstn' {A} (l : list A) d : forall m i, (i < m)%nat -> nth i (firstn m l) d = nth i l d.
Proof. induction l as [|x r IH]; intros [|m] [|i] H; cbn; auto; try lia. apply IH; lia. Qed.
Lemma model_set_spec dist order n : sorts dist order -> let k := length dist in let ms := init_model_set n k order in
  NoDup ms /\ length ms = Nat.min (n + 1) k /\ (forall i, In i ms -> (i < k)%nat) /\
  (forall i j, In i ms -> (j < k)%nat -> ~ In j ms -> nth i dist 0 <= nth j dist 0) /\
  (forall i, (i < k)%nat -> nth (nth 0 ms 0%nat) dist 0 <= nth i dist 0).
Proof.
  intros S k ms. destruct (sorts_nodup _ _ S) as (N & L & M). unfold ms, init_model_set.
  set (m := Nat.min (n + 1) k) in *. assert (Hm : (m <= length order)%nat) by (rewrite L; unfold m, k; lia).
  split; [apply NoDup_firstn; auto|]. split; [rewrite firstn_length; lia|].
  assert (Sub : forall i, In i (firstn m order) -> In i order).
  { intros i H. rewrite <- (firstn_skipn m order). apply in_or_app; auto. }
  split; [intros i H; apply M; auto|]. split.
  - intros i j Hi Hj Hn. assert (Hjo : In j order) by (apply M; auto).
    destruct (In_nth _ _ 0%nat Hi) as (a & Ha & Ea). rewrite firstn_length in Ha. rewrite nth_firstn' in Ea by lia.
    destruct (In_nth _ _ 0%nat Hjo) as (b & Hb & Eb).
    assert (m <= b)%nat.
    { destruct (le_lt_dec m b); auto. exfalso. apply Hn. rewrite <- Eb, <- (nth_firstn' order 0%nat m b) by lia.
      apply nth_In. rewrite firstn_length. lia. }
    rewrite <- Ea, <- Eb. apply (proj2 S). lia.
  - intros i Hi. assert (Hio : In i order) by (apply M; auto). destruct (In_nth _ _ 0%nat Hio) as (b & Hb & Eb).
    rewrite nth_firstn' by (unfold m; lia). rewrite <- Eb. destruct b as [|b]; [lra|]. apply (proj2 S). lia.
Qed.

(** ** Improving point *)
Lemma direction_in_box eps lo up start radius ints blocks choices col : 0 < eps ->
  rin_box start lo up -> length col = length start ->
  (forall j, In j ints -> whole (nth j lo 0) /\ whole (nth j up 0) /\ whole (nth j start 0)) ->
  (blocks <> [] -> proper_blocks (length start) blocks /\ choices_ok blocks choices /\
     forall b j, In b blocks -> In j b -> nth j lo 0 <= 0 /\ 1 <= nth j up 0) ->
  let d := improving_direction eps lo up start radius ints blocks choices col in
  let q := map2 Rplus start d in
  rin_box q lo up /\ (forall j, In j ints -> (j < length start)%nat -> whole (nth j q 0)) /\
  (eps <= 1 -> forall b, In b blocks -> (forall j, In j b -> In j ints) -> one_active b start -> one_active b q).
Proof.
  intros He B Lc W Hb d q. pose proof B as (L1 & L2 & Bj).
  set (c1 := rclip (map2 (fun s a => s + a * radius) start col) lo up).
  assert (Lc1 : length c1 = length start) by (unfold c1, rclip; rewrite map3_rlen; rewrite map2_len by lia; auto).
  assert (B1 : rin_box c1 lo up).
  { split; [congruence|]. split; [congruence|]. rewrite Lc1. intros j Hj. unfold c1, rclip.
    rewrite (nth_map3 rclip1 _ lo up j 0 0 0) by (rewrite ?map2_len; lia). apply rclip1_in. specialize (Bj j Hj). lra. }
  set (d1 := map2 Rminus c1 start).
  assert (Ld1 : length d1 = length start) by (unfold d1; rewrite map2_len; auto).
  assert (E1 : map2 Rplus start d1 = c1).
  { apply (nth_ext _ _ 0 0); [rewrite map2_len; lia|]. rewrite map2_len by lia. intros j Hj.
    rewrite (map2_nth Rplus start d1 j 0 0 0) by lia. unfold d1. rewrite (map2_nth Rminus c1 start j 0 0 0) by lia. ring. }
  set (c2 := match blocks with [] => c1 | _ => round_categorical blocks choices c1 end).
  assert (B2 : rin_box c2 lo up /\ length c2 = length start /\ forall b, In b blocks -> one_active b c2).
  { unfold c2. destruct blocks as [|b0 bs]; [split; auto; split; auto; intros b []|].
    destruct (Hb ltac:(discriminate)) as (Pb & [C1 C2] & Bb).
    assert (Pb' : proper_blocks (length c1) (b0 :: bs)) by (rewrite Lc1; auto).
    destruct (round_categorical_spec _ choices c1 Pb' C1 C2) as (Lr & _ & Ar).
    split; [apply round_categorical_box; auto|]. split; [congruence|].
    intros b H. destruct (In_nth _ _ [] H) as (i & Hi & <-). destruct (Ar i Hi) as [A1 A2]. exists (nth i choices 0%nat). split; auto. }
  destruct B2 as (B2 & Lc2 & A2).
  set (d2 := map2 Rminus c2 start).
  assert (Ld2 : length d2 = length start) by (unfold d2; rewrite map2_len; auto).
  assert (Ed : d = match ints with [] => d2 | _ =>
       mapi (fun j x => let y := if Rltb (Rabs x) eps then 0 else x in
                          if memb ints j
                          then Raround ((if Rlt_dec y 0 then -1 else if Rlt_dec 0 y then 1 else 0) * Rmax (Rabs y) 1)
                          else y) d2 end).
  { unfold d, improving_direction, d2, c2. fold c1. fold d1. destruct blocks; [reflexivity|].
    rewrite E1. reflexivity. }
  assert (Ld : length d = length start) by (rewrite Ed; destruct ints; [auto|rewrite mapi_len; auto]).
  assert (Lq : length q = length start) by (unfold q; rewrite map2_len; auto).
  assert (Nq : forall j, (j < length start)%nat -> nth j q 0 = nth j start 0 + nth j d 0).
  { intros j Hj. unfold q. rewrite (map2_nth Rplus start d j 0 0 0) by lia. reflexivity. }
  assert (N2 : forall j, (j < length start)%nat -> nth j d2 0 = nth j c2 0 - nth j start 0).
  { intros j Hj. unfold d2. rewrite (map2_nth Rminus c2 start j 0 0 0) by lia. reflexivity. }
  assert (Main : forall j, (j < length start)%nat ->
     (nth j lo 0 <= nth j q 0 <= nth j up 0) /\ (In j ints -> whole (nth j q 0)) /\
     (eps <= 1 -> In j ints -> whole (nth j c2 0) -> Rabs (nth j d2 0) <= 1 -> nth j q 0 = nth j c2 0)).
  { intros j Hj. rewrite Nq by auto. specialize (Bj j Hj).
    assert (Bc : nth j lo 0 <= nth j c2 0 <= nth j up 0) by (apply B2; lia).
    specialize (N2 j Hj). destruct ints as [|i0 is].
    - rewrite Ed. rewrite N2. split; [lra|]. split; [intros []|intros _ []].
    - rewrite Ed. rewrite (nth_mapi _ d2 0 0) by lia. cbv zeta.
      set (x := nth j d2 0) in *. set (y := if Rltb (Rabs x) eps then 0 else x).
      assert (Y : y = 0 \/ y = x) by (unfold y; destruct (Rltb (Rabs x) eps); auto).
      destruct (memb (i0 :: is) j) eqn:M.
      + apply memb_in in M. destruct (W j M) as (W1 & W2 & W3).
        set (z := (if Rlt_dec y 0 then -1 else if Rlt_dec 0 y then 1 else 0) * Rmax (Rabs y) 1).
        assert (Z : nth j lo 0 - nth j start 0 <= z <= nth j up 0 - nth j start 0).
        { unfold z. destruct (Rlt_dec y 0) as [Hn|Hn].
          - assert (nth j lo 0 - nth j start 0 <= -1).
            { apply whole_lt_step; [apply whole_minus; auto|exists (-1)%Z; reflexivity|]. destruct Y; lra. }
            rewrite Rabs_left by lra. unfold Rmax. destruct (Rle_dec (- y) 1); split; destruct Y; lra.
          - destruct (Rlt_dec 0 y) as [Hp|Hp]; [|lra].
            assert (1 <= nth j up 0 - nth j start 0).
            { apply whole_lt_step; [apply whole_1|apply whole_minus; auto|]. destruct Y; lra. }
            rewrite Rabs_right by lra. unfold Rmax. destruct (Rle_dec y 1); split; destruct Y; lra. }
        pose proof (Raround_between _ _ z (whole_minus _ _ W1 W3) (whole_minus _ _ W2 W3) Z).
        split; [lra|]. split; [intros _; apply whole_plus; auto; apply Raround_whole|].
        intros He1 _ Wc Hx.
        assert (Wx : whole x) by (rewrite N2; apply whole_minus; auto).
        assert (z = x).
        { assert (X3 : x = -1 \/ x = 0 \/ x = 1).
          { destruct Wx as [w Ew]. rewrite Ew in *. assert (-1 <= w <= 1)%Z.
            { split; apply le_IZR; revert Hx; unfold Rabs; destruct (Rcase_abs _); lra. }
            assert (w = -1 \/ w = 0 \/ w = 1)%Z as [->|[->| ->]] by lia; auto. }
          unfold z, y. destruct X3 as [->|[->| ->]].
          - rewrite (Rabs_left (-1)) by lra. replace (Rltb (- -1) eps) with false by (symmetry; apply Rltb_ge; lra).
            destruct (Rlt_dec (-1) 0); [|lra]. rewrite (Rabs_left (-1)) by lra. rewrite Rmax_left by lra. lra.
          - rewrite Rabs_R0. replace (if Rltb 0 eps then 0 else 0) with 0 by (destruct (Rltb 0 eps); auto).
            destruct (Rlt_dec 0 0); lra.
          - rewrite Rabs_R1. replace (Rltb 1 eps) with false by (symmetry; apply Rltb_ge; lra).
            destruct (Rlt_dec 1 0); [lra|]. destruct (Rlt_dec 0 1); [|lra]. rewrite Rabs_R1, Rmax_left by lra. lra. }
        rewrite H0, (Raround_id x Wx). lra.
      + assert (~ In j (i0 :: is)) by (intros F; apply memb_in in F; congruence).
        split; [destruct Y as [->| ->]; lra|]. split; [tauto|tauto]. }
  split; [split; [congruence|]; split; [congruence|]; rewrite Lq; intros j Hj; apply Main; auto|].
  split; [intros j Hi Hj; apply Main; auto|].
  intros He1 b Hbk Hbi (s0 & S0 & S1 & S2). destruct (A2 b Hbk) as (a0 & I0 & V1 & V0).
  destruct (Hb ltac:(intros ->; destruct Hbk)) as (Pb & _ & _).
  assert (Lb : forall j, In j b -> (j < length start)%nat) by (apply (proj1 Pb b Hbk)).
  assert (EQ : forall j, In j b -> nth j q 0 = nth j c2 0).
  { intros j Hj. apply Main; auto.
    - destruct (Nat.eq_dec j a0) as [->|N]; [rewrite V1; apply whole_1|rewrite V0 by auto; apply whole_0].
    - rewrite N2 by auto.
      assert (Vc : nth j c2 0 = 1 \/ nth j c2 0 = 0) by (destruct (Nat.eq_dec j a0) as [->|N]; auto).
      assert (Vs : nth j start 0 = 1 \/ nth j start 0 = 0) by (destruct (Nat.eq_dec j s0) as [->|N]; auto).
      unfold Rabs. destruct (Rcase_abs _); destruct Vc, Vs; lra. }
  exists a0. split; auto. split; [rewrite EQ; auto|]. intros c Hc Hne. rewrite EQ by auto. auto.
Qed.
