(** * Lemmas on initial sampling and utilities. *)
From Verif Require Export SpecInit.
From Verif Require Import CatProofs BaseLemmas.
From Coq Require Import Lia Lqa.
Open Scope Q_scope.

(** ** Rounding *)
Lemma rhe_proper x y : x == y -> round_half_even x = round_half_even y.
Proof.
  intros H. unfold round_half_even. assert (F : Qfloor x = Qfloor y) by (rewrite H; reflexivity). rewrite F.
  assert (E1 : Qltb (x - inject_Z (Qfloor y)) (1#2) = Qltb (y - inject_Z (Qfloor y)) (1#2)).
  { destruct (Qltb (y - _) _) eqn:E; [apply Qltb_lt in E; apply Qltb_lt|apply Qltb_ge in E; apply Qltb_ge]; lra. }
  assert (E2 : Qltb (1#2) (x - inject_Z (Qfloor y)) = Qltb (1#2) (y - inject_Z (Qfloor y))).
  { destruct (Qltb _ (y - _)) eqn:E; [apply Qltb_lt in E; apply Qltb_lt|apply Qltb_ge in E; apply Qltb_ge]; lra. }
  rewrite E1, E2. reflexivity.
Qed.
Lemma rhe_bounds x : x - (1#2) <= inject_Z (round_half_even x) <= x + (1#2).
Proof.
  unfold round_half_even. pose proof (Qfloor_le x) as A. pose proof (Qlt_floor x) as B. rewrite inject_Z_plus in B. change (inject_Z 1) with 1 in B.
  destruct (Qltb (x - inject_Z (Qfloor x)) (1#2)) eqn:E1; qb; [split; lra|].
  destruct (Qltb (1#2) (x - inject_Z (Qfloor x))) eqn:E2; qb.
  - rewrite inject_Z_plus. change (inject_Z 1) with 1. lra.
  - destruct (Z.even _); [lra|]. rewrite inject_Z_plus. change (inject_Z 1) with 1. lra.
Qed.
Lemma inject_Z_le a b : (a <= b)%Z <-> inject_Z a <= inject_Z b.
Proof. rewrite <- Zle_Qle. reflexivity. Qed.
Lemma rhe_mono x y : x <= y -> (round_half_even x <= round_half_even y)%Z.
Proof.
  intros H. destruct (Z_le_gt_dec (round_half_even x) (round_half_even y)) as [?|G]; [assumption|].
  pose proof (rhe_bounds x) as A. pose proof (rhe_bounds y) as B.
  assert (C : inject_Z (round_half_even y + 1) <= inject_Z (round_half_even x)) by (rewrite <- Zle_Qle; lia).
  rewrite inject_Z_plus in C. change (inject_Z 1) with 1 in C.
  assert (E : x == y) by (apply Qle_antisym; lra). rewrite (rhe_proper x y E) in G. lia.
Qed.
Lemma rhe_Z z x : x == inject_Z z -> round_half_even x = z.
Proof.
  intros H. unfold round_half_even. assert (F : Qfloor x = z) by (rewrite H; apply Qfloor_Z). rewrite F.
  assert (B : Qltb (x - inject_Z z) (1#2) = true) by (apply Qltb_lt; lra). rewrite B. reflexivity.
Qed.
(** Rounding stays between integral bounds, also from the box enlarged by .499. *)
Lemma rhe_between l u x : integral l -> integral u -> l - (499#1000) <= x -> x <= u + (499#1000) ->
  l <= inject_Z (round_half_even x) <= u.
Proof.
  intros [zl Hl] [zu Hu] A B. pose proof (rhe_bounds x) as C. rewrite Hl, Hu in *.
  split; rewrite <- Zle_Qle.
  - destruct (Z_le_gt_dec zl (round_half_even x)) as [?|G]; [assumption|].
    assert (D : inject_Z (round_half_even x + 1) <= inject_Z zl) by (rewrite <- Zle_Qle; lia).
    rewrite inject_Z_plus in D. change (inject_Z 1) with 1 in D. lra.
  - destruct (Z_le_gt_dec (round_half_even x) zu) as [?|G]; [assumption|].
    assert (D : inject_Z (zu + 1) <= inject_Z (round_half_even x)) by (rewrite <- Zle_Qle; lia).
    rewrite inject_Z_plus in D. change (inject_Z 1) with 1 in D. lra.
Qed.

(** ** Position-wise rounding *)
Lemma round_at_len ints p : forall off, length (round_at off ints p) = length p.
Proof. induction p as [|x r IH]; intros off; cbn; [reflexivity|]. rewrite IH. reflexivity. Qed.
Lemma round_at_val ints p : forall off i, (i < length p)%nat ->
  nth i (round_at off ints p) 0 = if memn (off + i) ints then inject_Z (round_half_even (nth i p 0)) else nth i p 0.
Proof.
  induction p as [|x r IH]; intros off i Hi; cbn [length] in Hi; [lia|]. cbn [round_at].
  destruct i as [|i]; cbn [nth]; [rewrite Nat.add_0_r; reflexivity|]. rewrite IH by lia.
  replace (S off + i)%nat with (off + S i)%nat by lia. reflexivity.
Qed.
Lemma floor_at_len ints p : forall off, length (floor_at off ints p) = length p.
Proof. induction p as [|x r IH]; intros off; cbn; [reflexivity|]. rewrite IH. reflexivity. Qed.
Lemma floor_at_val ints p : forall off i, (i < length p)%nat ->
  nth i (floor_at off ints p) 0 = if memn (off + i) ints then inject_Z (Qfloor (nth i p 0)) else nth i p 0.
Proof.
  induction p as [|x r IH]; intros off i Hi; cbn [length] in Hi; [lia|]. cbn [floor_at].
  destruct i as [|i]; cbn [nth]; [rewrite Nat.add_0_r; reflexivity|]. rewrite IH by lia.
  replace (S off + i)%nat with (off + S i)%nat by lia. reflexivity.
Qed.
Lemma ceil_at_len ints p : forall off, length (ceil_at off ints p) = length p.
Proof. induction p as [|x r IH]; intros off; cbn; [reflexivity|]. rewrite IH. reflexivity. Qed.
Lemma ceil_at_val ints p : forall off i, (i < length p)%nat ->
  nth i (ceil_at off ints p) 0 = if memn (off + i) ints then inject_Z (Qceiling (nth i p 0)) else nth i p 0.
Proof.
  induction p as [|x r IH]; intros off i Hi; cbn [length] in Hi; [lia|]. cbn [ceil_at].
  destruct i as [|i]; cbn [nth]; [rewrite Nat.add_0_r; reflexivity|]. rewrite IH by lia.
  replace (S off + i)%nat with (off + S i)%nat by lia. reflexivity.
Qed.

(** ** Corners *)
Lemma all_corners_length lo : forall up, length up = length lo -> length (all_corners lo up) = (2 ^ length lo)%nat.
Proof.
  induction lo as [|l lo IH]; intros [|u up] H; cbn [length] in *; try lia; [reflexivity|].
  cbn [all_corners]. rewrite app_length, !map_length, IH by lia. rewrite Nat.pow_succ_r'. lia.
Qed.
Lemma all_corners_In lo : forall up, length up = length lo -> forall p, In p (all_corners lo up) <-> is_corner lo up p.
Proof.
  unfold is_corner. induction lo as [|l lo IH]; intros [|u up] H p; cbn [length] in *; try lia.
  - cbn. split; [intros [<-|[]]; split; [reflexivity|intros; lia]|]. intros [A _]. left. destruct p; [reflexivity|discriminate].
  - cbn [all_corners]. rewrite in_app_iff, !in_map_iff. specialize (IH up ltac:(lia)). split.
    + intros [(q & <- & Hq)|(q & <- & Hq)]; apply IH in Hq; destruct Hq as [A B]; (split; [cbn; lia|]);
        intros [|i] Hi; cbn [nth]; auto; apply B; lia.
    + intros [A B]. destruct p as [|x p]; [discriminate|]. cbn [length] in A.
      assert (Hp : In p (all_corners lo up)).
      { apply IH. split; [lia|]. intros i Hi. apply (B (S i)). lia. }
      destruct (B 0%nat ltac:(lia)) as [E|E]; cbn [nth] in E; subst x; [left|right]; exists p; auto.
Qed.
Lemma all_corners_first lo : forall up, length up = length lo -> exists r, all_corners lo up = lo :: r.
Proof.
  induction lo as [|l lo IH]; intros [|u up] H; cbn [length] in *; try lia; [exists []; reflexivity|].
  cbn [all_corners]. destruct (IH up ltac:(lia)) as [r ->]. cbn [map app]. eauto.
Qed.
Lemma same_point_cons x y p q : same_point (x :: p) (y :: q) <-> x == y /\ same_point p q.
Proof.
  unfold same_point. cbn [length]. split.
  - intros [A B]. split; [apply (B 0%nat); lia|]. split; [lia|]. intros i Hi. apply (B (S i)). lia.
  - intros (E & A & B). split; [lia|]. intros [|i] Hi; cbn [nth]; [exact E|]. apply B. lia.
Qed.
(** Distinctness as a recursive predicate. *)
Fixpoint apart (l : list point) : Prop :=
  match l with [] => True | p :: r => (forall q, In q r -> ~ same_point p q) /\ apart r end.
Lemma apart_pairwise l : apart l <-> pairwise_distinct l.
Proof.
  unfold pairwise_distinct. induction l as [|p r IH]; cbn [apart length].
  - split; [intros _ i j H; lia|auto].
  - rewrite IH. split.
    + intros [A B] i j H. destruct j as [|j]; [lia|]. destruct i as [|i]; cbn [nth]; [apply A, nth_In; lia|]. apply B; lia.
    + intros H. split; [|intros i j Hij; apply (H (S i) (S j)); lia].
      intros q Hq. destruct (In_nth r q [] Hq) as (j & Hj & <-). apply (H 0%nat (S j)). lia.
Qed.
Lemma apart_app a b : apart (a ++ b) <-> apart a /\ apart b /\ forall p q, In p a -> In q b -> ~ same_point p q.
Proof.
  induction a as [|x a IH]; cbn [app apart]; [split; [intros H; repeat split; auto; intros ? ? []|tauto]|].
  rewrite IH. split.
  - intros (A & B & C & D). repeat split; auto.
    + intros q Hq. apply A, in_or_app; auto.
    + intros p q [<-|Hp] Hq; [apply A, in_or_app; auto|apply D; auto].
  - intros ((A & B) & C & D). repeat split; auto.
    + intros q Hq. apply in_app_or in Hq. destruct Hq as [Hq|Hq]; [auto|apply D; [left; reflexivity|exact Hq]].
    + intros p q Hp Hq. apply D; [right; exact Hp|exact Hq].
Qed.
Lemma apart_cons x l : apart l -> apart (map (cons x) l).
Proof.
  induction l as [|p r IH]; cbn [map apart]; [auto|]. intros [A B]. split; [|auto].
  intros q Hq. apply in_map_iff in Hq. destruct Hq as (q' & <- & Hq). rewrite same_point_cons. intros [_ E]. exact (A q' Hq E).
Qed.
Lemma all_corners_apart lo : forall up, length up = length lo ->
  (forall i, (i < length lo)%nat -> ~ nth i lo 0 == nth i up 0) -> apart (all_corners lo up).
Proof.
  induction lo as [|l lo IH]; intros [|u up] H D; cbn [length] in *; try lia; [cbn; split; [intros ? []|auto]|].
  cbn [all_corners]. assert (A : apart (all_corners lo up)) by (apply IH; [lia|intros i Hi; apply (D (S i)); lia]).
  apply apart_app. repeat split; [apply apart_cons, A|apply apart_cons, A|].
  intros p q Hp Hq. apply in_map_iff in Hp. apply in_map_iff in Hq. destruct Hp as (p' & <- & _). destruct Hq as (q' & <- & _).
  rewrite same_point_cons. intros [E _]. apply (D 0%nat); [lia|exact E].
Qed.
Lemma lower_corners_spec lo up : length up = length lo ->
  length (lower_corners lo up) = S (length lo) /\
  nth 0 (lower_corners lo up) [] = lo /\
  forall i, (i < length lo)%nat -> nth (S i) (lower_corners lo up) [] = set_at i (nth i up 0) lo.
Proof.
  intros H. unfold lower_corners. cbn [length nth]. rewrite map_length, seq_length. repeat split; auto.
  intros i Hi. rewrite (nth_indep _ [] (set_at 0 (nth 0 up 0) lo)) by (rewrite map_length, seq_length; lia).
  rewrite (map_nth (fun i => set_at i (nth i up 0) lo)). rewrite seq_nth by lia. reflexivity.
Qed.
Lemma set_corner lo up i : (i < length lo)%nat -> is_corner lo up (set_at i (nth i up 0) lo).
Proof.
  intros Hi. split; [apply set_at_length|]. intros j Hj. destruct (Nat.eq_dec i j) as [<-|N].
  - right. apply nth_set_at. exact Hi.
  - left. apply nth_set_at_ne. exact N.
Qed.
Lemma lower_corners_In lo up p : length up = length lo -> In p (lower_corners lo up) -> is_corner lo up p.
Proof.
  intros H [<-|Hp]; [split; auto|]. apply in_map_iff in Hp. destruct Hp as (i & <- & Hi). apply in_seq in Hi. apply set_corner. lia.
Qed.
Lemma lower_corners_apart lo up : length up = length lo ->
  (forall i, (i < length lo)%nat -> ~ nth i lo 0 == nth i up 0) -> pairwise_distinct (lower_corners lo up).
Proof.
  intros H D i j Hij. destruct (lower_corners_spec lo up H) as (L & F & N). rewrite L in Hij.
  destruct j as [|j]; [lia|]. rewrite (N j) by lia. intros [E1 E2].
  assert (X : nth j (nth i (lower_corners lo up) []) 0 = nth j lo 0 /\ length (nth i (lower_corners lo up) []) = length lo).
  { destruct i as [|i]; [rewrite F; auto|]. rewrite (N i) by lia. rewrite nth_set_at_ne by lia. split; [reflexivity|apply set_at_length]. }
  destruct X as [X1 X2]. specialize (E2 j ltac:(lia)). rewrite X1 in E2. rewrite nth_set_at in E2 by lia. exact (D j ltac:(lia) E2).
Qed.
Lemma pick_corner_spec d : forall lo up, length d = length lo -> length up = length lo -> is_corner lo up (pick_corner d lo up).
Proof.
  unfold is_corner, pick_corner. induction d as [|b d IH]; intros [|l lo] [|u up] H1 H2; cbn [length] in *; try lia; [split; [reflexivity|intros; lia]|].
  cbn [map3 length]. destruct (IH lo up ltac:(lia) ltac:(lia)) as [A B]. split; [lia|].
  intros [|i] Hi; cbn [nth]; [destruct b; auto|apply B; lia].
Qed.
Lemma same_point_Forall2 p : forall q, same_point p q <-> Forall2 Qeq p q.
Proof.
  induction p as [|a p IH]; intros [|b q].
  - split; [constructor|]. intros _. split; [reflexivity|]. cbn; intros; lia.
  - split; [intros [H _]; discriminate|intros H; inversion H].
  - split; [intros [H _]; discriminate|intros H; inversion H].
  - rewrite same_point_cons, IH. split; [intros [A B]; constructor; auto|intros H; inversion H; auto].
Qed.
Lemma same_point_dist p q : length p = length q -> (same_point p q <-> sqdist p q == 0).
Proof. intros H. rewrite same_point_Forall2. symmetry. apply sqdist_zero_iff. exact H. Qed.
Lemma same_point_sym p q : same_point p q -> same_point q p.
Proof. intros [A B]. split; [auto|]. intros i Hi. symmetry. apply B. lia. Qed.
Lemma same_point_trans p q r : same_point p q -> same_point q r -> same_point p r.
Proof. intros [A B] [C D]. split; [lia|]. intros i Hi. rewrite B by lia. apply D. lia. Qed.
Lemma near0_same p acc : (forall q, In q acc -> length q = length p) -> near 0 p acc = true <-> exists q, In q acc /\ same_point p q.
Proof.
  intros HL. rewrite near_true. split.
  - intros (q & Hq & A). assert (HL' : length p = length q) by (rewrite (HL q Hq); reflexivity).
    exists q. split; [exact Hq|]. apply (same_point_dist p q HL').
    pose proof (sqdist_nonneg p q). destruct A as [A1 A2]. ring_simplify (0 * 0) in A2. lra.
  - intros (q & Hq & S). exists q. split; [exact Hq|].
    assert (Z : sqdist p q == 0) by (apply same_point_dist; [apply S|exact S]).
    split; [lra|]. rewrite Z. apply Qle_refl.
Qed.
Lemma more_corners_spec n lo up (Hup : length up = length lo) draws : forall acc r,
  (forall d, In d draws -> length d = length lo) -> (forall p, In p acc -> is_corner lo up p) -> apart acc -> (length acc <= n)%nat ->
  more_corners n lo up acc draws = Some r -> length r = n /\ (forall p, In p r -> is_corner lo up p) /\ apart r.
Proof.
  induction draws as [|d ds IH]; intros acc r HD HC HA HL H; cbn [more_corners] in H.
  - destruct (Nat.ltb_spec (length acc) n); [discriminate|]. injection H as <-. split; [lia|split; assumption].
  - destruct (Nat.ltb_spec (length acc) n) as [L|L]; [|injection H as <-; split; [lia|split; assumption]].
    assert (P : is_corner lo up (pick_corner d lo up)) by (apply pick_corner_spec; [apply HD; left; reflexivity|exact Hup]).
    apply IH in H; [exact H| | | |].
    + intros d' Hd'. apply HD. right; exact Hd'.
    + intros p Hp. destruct (near _ _ _); [auto|]. apply in_app_or in Hp. destruct Hp as [Hp|[<-|[]]]; auto.
    + destruct (near 0 (pick_corner d lo up) acc) eqn:E; [exact HA|]. apply apart_app. split; [exact HA|].
      split; [cbn; split; [intros ? []|auto]|]. intros p q Hp [<-|[]] S.
      assert (X : near 0 (pick_corner d lo up) acc = true); [|congruence].
      apply near0_same; [|exists p; split; [exact Hp|apply same_point_sym, S]].
      intros q Hq. destruct (HC q Hq) as [-> _]. destruct P as [-> _]. reflexivity.
    + destruct (near _ _ _); [exact HL|]. rewrite app_length. cbn. lia.
Qed.
Lemma random_corners_spec lo up draws r : length up = length lo ->
  (forall d, In d draws -> length d = length lo) ->
  random_corners lo up draws = Some r ->
  length r = S (length lo) /\ (forall p, In p r -> is_corner lo up p) /\ pairwise_distinct r.
Proof.
  intros Hup HD H. destruct draws as [|d ds]; [discriminate|]. cbn [random_corners] in H.
  rewrite <- apart_pairwise. apply (more_corners_spec _ lo up Hup) in H; auto.
  - intros d' Hd'. apply HD. right; exact Hd'.
  - intros p [<-|[]]. apply pick_corner_spec; [apply HD; left; reflexivity|exact Hup].
  - cbn. split; [intros ? []|auto].
  - cbn. lia.
Qed.
(** Enough distinct draws end the loop. *)
Lemma more_corners_none n lo up (Hup : length up = length lo) draws : forall acc,
  (forall d, In d draws -> length d = length lo) -> (forall p, In p acc -> is_corner lo up p) -> apart acc ->
  more_corners n lo up acc draws = None ->
  exists r, (length r < n)%nat /\ (forall p, In p acc -> In p r) /\
    (forall d, In d draws -> exists q, In q r /\ same_point (pick_corner d lo up) q).
Proof.
  induction draws as [|d ds IH]; intros acc HD HC HA H; cbn [more_corners] in H.
  - destruct (Nat.ltb_spec (length acc) n); [|discriminate]. exists acc. repeat split; auto. intros d [].
  - destruct (Nat.ltb_spec (length acc) n); [|discriminate].
    assert (P : is_corner lo up (pick_corner d lo up)) by (apply pick_corner_spec; [apply HD; left; reflexivity|exact Hup]).
    assert (N : near 0 (pick_corner d lo up) acc = true <-> exists q, In q acc /\ same_point (pick_corner d lo up) q).
    { apply near0_same. intros q Hq. destruct (HC q Hq) as [-> _]. destruct P as [-> _]. reflexivity. }
    apply IH in H.
    + destruct H as (r & L & I & D). exists r. split; [exact L|]. split.
      * intros p Hp. apply I. destruct (near _ _ _); [exact Hp|apply in_or_app; auto].
      * intros d' [<-|Hd']; [|auto]. destruct (near 0 (pick_corner d lo up) acc) eqn:E.
        -- destruct (proj1 N eq_refl) as (q & Hq & S). exists q. auto.
        -- exists (pick_corner d lo up). split; [apply I, in_or_app; right; left; reflexivity|]. split; [reflexivity|]. intros; reflexivity.
    + intros d' Hd'. apply HD. right; exact Hd'.
    + intros p Hp. destruct (near _ _ _); [auto|]. apply in_app_or in Hp. destruct Hp as [Hp|[<-|[]]]; auto.
    + destruct (near 0 (pick_corner d lo up) acc) eqn:E; [exact HA|]. apply apart_app. split; [exact HA|].
      split; [cbn; split; [intros ? []|auto]|]. intros p q Hp [<-|[]] S.
      assert (X : false = true) by (apply N; exists p; split; [exact Hp|apply same_point_sym, S]). discriminate.
Qed.
(** Pigeonhole: points pairwise distinct, each equal to one of [r]. *)
Lemma apart_pigeon l : forall r : list point, apart l -> (forall p, In p l -> exists q, In q r /\ same_point p q) -> (length l <= length r)%nat.
Proof.
  induction l as [|p l IH]; intros r A H; cbn [length]; [lia|]. destruct A as [A1 A2].
  destruct (H p (or_introl eq_refl)) as (q & Hq & Sq). apply in_split in Hq. destruct Hq as (r1 & r2 & ->).
  specialize (IH (r1 ++ r2) A2). rewrite app_length in *. cbn [length]. assert (length l <= length r1 + length r2)%nat; [|lia].
  apply IH. intros p' Hp'. destruct (H p' (or_intror Hp')) as (q' & Hq' & Sq'). exists q'. split; [|exact Sq'].
  apply in_app_or in Hq'. apply in_or_app. destruct Hq' as [?|[<-|?]]; auto.
  exfalso. apply (A1 p' Hp'). apply (same_point_trans p q p' Sq). apply same_point_sym. exact Sq'.
Qed.
Lemma random_corners_total lo up draws : length up = length lo ->
  (forall d, In d draws -> length d = length lo) ->
  (exists ps, length ps = S (length lo) /\ pairwise_distinct ps /\
     forall p, In p ps -> exists d, In d draws /\ p = pick_corner d lo up) ->
  exists r, random_corners lo up draws = Some r.
Proof.
  intros Hup HD (ps & Lp & Ap & Hp). apply apart_pairwise in Ap. destruct draws as [|d ds].
  - destruct ps as [|p ps]; [discriminate|]. destruct (Hp p (or_introl eq_refl)) as (d & [] & _).
  - cbn [random_corners]. destruct (more_corners (S (length lo)) lo up [pick_corner d lo up] ds) eqn:E; [eauto|]. exfalso.
    apply more_corners_none in E; auto.
    + destruct E as (r & L & I & D).
      assert (X : (length ps <= length r)%nat); [|lia]. apply apart_pigeon; [exact Ap|].
      intros p Hin. destruct (Hp p Hin) as (d' & [<-|Hd'] & ->); [|auto].
      exists (pick_corner d lo up). split; [apply I; left; reflexivity|]. split; [reflexivity|intros; reflexivity].
    + intros d' Hd'. apply HD. right; exact Hd'.
    + intros p [<-|[]]. apply pick_corner_spec; [apply HD; left; reflexivity|exact Hup].
    + cbn. split; [intros ? []|auto].
Qed.
