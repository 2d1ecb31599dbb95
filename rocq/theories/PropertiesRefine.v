(** * Properties of the refinement (trust region) step (C57 - C62, C92 - C94).

    Statements, each closed by lemmas proved elsewhere; beside each an [Example].
    Vocabulary: [SpecRefine], [SpecRBF] (blocks of expanded categorical variables). *)
From Verif Require Import RefineMore.
From Verif Require RefineRun.
From Coq Require Import Lra Lia QArith.
Open Scope R_scope.

(** ** C57 *)
Theorem C57_candidate : forall eps min_dist lo up h b start radius,
  0 <= eps -> rin_box start lo up -> length h = length start -> 0 <= radius ->
  let '(c, impr, grad) := get_candidate_point eps min_dist lo up h start radius in
  rin_box c lo up /\ distance c start <= radius /\
  impr = linear_value h b start - linear_value h b c /\ 0 <= impr /\ grad = sqrt (rdot h h).
Proof.
  intros eps md lo up h b start radius He B L Hr. pose proof (candidate_spec eps md lo up h start radius He B L Hr) as S.
  destruct (get_candidate_point _ _ _ _ _ _ _) as [[c impr] g]. intuition auto.
Qed.
Print Assumptions C57_candidate.
(** The step is along the negative gradient, cut by the box, and as long as possible: either the
    radius is reached or a coordinate that had room reaches its bound. *)
Theorem C57_step : forall eps min_dist lo up h start radius,
  0 <= eps -> rin_box start lo up -> length h = length start -> 0 <= radius -> eps < sqrt (rdot h h) ->
  let '(c, _, _) := get_candidate_point eps min_dist lo up h start radius in
  let free j := (0 < nth j h 0 /\ nth j lo 0 + min_dist <= nth j start 0) \/
                (nth j h 0 < 0 /\ nth j start 0 <= nth j up 0 - min_dist) in
  exists t, 0 <= t /\
    (forall j, (j < length h)%nat -> nth j c 0 = Rmin (Rmax (nth j start 0 - t * nth j h 0) (nth j lo 0)) (nth j up 0)) /\
    (forall j, (j < length h)%nat -> free j -> nth j c 0 = nth j start 0 - t * nth j h 0) /\
    (t * sqrt (rdot h h) = radius \/
     exists j, (j < length h)%nat /\ free j /\ (nth j c 0 = nth j lo 0 \/ nth j c 0 = nth j up 0)).
Proof.
  intros eps md lo up h start radius He B L Hr Hg. pose proof (candidate_step eps md lo up h start radius He B L Hr Hg) as S.
  destruct (get_candidate_point _ _ _ _ _ _ _) as [[c impr] g]. cbv zeta. destruct S as (t & S1 & S2 & S3 & S4).
  exists t. split; auto. split; auto. split; auto. destruct S4 as [S4|(j & Hj & Rm & E)]; auto.
  right. exists j. split; auto. split; auto. destruct (Rlt_dec 0 (nth j h 0)); auto.
Qed.
Print Assumptions C57_step.
(** Positive improvement as soon as some coordinate can move against the gradient. *)
Theorem C57_progress : forall eps min_dist lo up h start radius,
  0 <= eps -> 0 < min_dist -> rin_box start lo up -> length h = length start -> 0 < radius -> eps < sqrt (rdot h h) ->
  (exists j, (j < length h)%nat /\ ((0 < nth j h 0 /\ nth j lo 0 < nth j start 0) \/ (nth j h 0 < 0 /\ nth j start 0 < nth j up 0))) ->
  let '(_, impr, _) := get_candidate_point eps min_dist lo up h start radius in 0 < impr.
Proof.
  intros eps md lo up h start radius He Hm B L Hr Hg (j & Hj & Cj).
  pose proof (candidate_progress eps md lo up h start radius j He Hm B L Hr Hg Hj Cj) as S.
  destruct (get_candidate_point _ _ _ _ _ _ _) as [[c impr] g]. exact S.
Qed.
Print Assumptions C57_progress.
Lemma box3 : rin_box [1; 0; 2] [0; 0; 0] [1; 1; 5].
Proof. split; [reflexivity|]. split; [reflexivity|]. cbn. intros [|[|[|j]]] H; cbn; try lra; lia. Qed.
Example C57_case : rin_box [1; 0; 2] [0; 0; 0] [1; 1; 5] /\ length [-1; -1; 1] = length [1; 0; 2] /\ 1 < sqrt (rdot [-1; -1; 1] [-1; -1; 1]) /\
  (0 < nth 2 [-1; -1; 1] 0 /\ nth 2 [0; 0; 0] 0 < nth 2 [1; 0; 2] 0).
Proof.
  split; [exact box3|]. split; [reflexivity|]. split; [|cbn; lra].
  rewrite <- sqrt_1 at 1. apply sqrt_lt_1; cbn; lra.
Qed.

(** ** C58 *)
Theorem C58_rounding : forall h start cand radius ints blocks first draws,
  proper_blocks (length cand) blocks -> choices_ok blocks first -> (forall d, In d draws -> choices_ok blocks (d_choice d)) ->
  let (q, adj) := get_integer_candidate h start cand radius ints blocks first draws in
  length q = length cand /\
  (forall j, (j < length cand)%nat -> in_no_block blocks j -> In j ints -> rounded (nth j cand 0) (nth j q 0)) /\
  (forall j, (j < length cand)%nat -> in_no_block blocks j -> ~ In j ints -> nth j q 0 = nth j cand 0) /\
  (forall b, In b blocks -> one_active b q) /\
  (forall c0, adj = linear_value h c0 cand - linear_value h c0 q) /\
  (forall lo up, rin_box cand lo up ->
     (forall j, In j ints -> in_no_block blocks j -> whole (nth j lo 0) /\ whole (nth j up 0)) ->
     (forall b j, In b blocks -> In j b -> nth j lo 0 <= 0 /\ 1 <= nth j up 0) -> rin_box q lo up) /\
  (forall d, In d draws -> distance (drawn_rounding cand ints blocks d) start <= radius ->
     linear_value h 0 q <= linear_value h 0 (drawn_rounding cand ints blocks d)).
Proof.
  intros h start cand radius ints blocks first draws Pb F D.
  pose proof (integer_candidate_spec h start cand radius ints blocks first draws Pb F D) as S.
  destruct (get_integer_candidate _ _ _ _ _ _ _ _) as [q adj]. destruct S as (S1 & S2 & _ & _ & S5). pose proof S1 as (L & I & O & A).
  split; auto. split; [intros j Hj Nb Hi; destruct (I j Hj Nb Hi) as [->| ->]; [apply rounded_floor|apply rounded_ceil]|].
  split; auto. split; auto. split; [intros c0; unfold linear_value; lra|]. split.
  - intros lo up B W Bb. eapply rounding_box; eauto.
  - intros d Hd Hr. unfold linear_value. specialize (S5 d Hd Hr). lra.
Qed.
Print Assumptions C58_rounding.
(** The improvement reported by the refinement step is the model difference between start and the
    returned point, when the point is not a model-improving one. *)
Theorem C58_step_improvement : forall eps min_dist min_grad lo up nodes h b rank_def model_set start radius ints blocks noncat first draws improving,
  0 <= eps -> let s := nth start nodes [] in rin_box s lo up -> length h = length s -> 0 <= radius ->
  proper_blocks (length s) blocks -> choices_ok blocks first -> (forall d, In d draws -> choices_ok blocks (d_choice d)) ->
  rank_def && snd (fst improving) = false ->
  let '(p, impr, _) := refinement_step eps min_dist min_grad lo up nodes h b rank_def model_set start radius ints blocks improving noncat first draws in
  match p with
  | None => sqrt (rdot h h) <= min_grad
  | Some q => impr = linear_value h b s - linear_value h b q /\ min_grad < sqrt (rdot h h)
  end.
Proof.
  intros eps md mg lo up nodes h b rd ms start radius ints blocks noncat first draws [[ip found] irep] He s B L Hr Pb F D G.
  unfold refinement_step. cbn [fst snd] in G. rewrite G. fold s.
  pose proof (candidate_spec eps md lo up h s radius He B L Hr) as S.
  destruct (get_candidate_point _ _ _ _ _ _ _) as [[c impr] g]. destruct S as (S1 & S2 & S3 & S4 & _ & _ & _ & ->).
  destruct ints as [|i0 is].
  - destruct (Rleb (sqrt (rdot h h)) mg) eqn:E; [apply Rleb_le in E; auto|apply Rleb_gt in E; auto].
  - rewrite <- S3 in Pb. pose proof (integer_candidate_spec h s c radius noncat blocks first draws Pb F D) as Q.
    destruct (get_integer_candidate _ _ _ _ _ _ _ _) as [q adj]. destruct Q as (_ & Q & _).
    destruct (Rleb (sqrt (rdot h h)) mg) eqn:E; [apply Rleb_le in E; auto|apply Rleb_gt in E; split; auto].
    rewrite (S4 b), Q. unfold linear_value. lra.
Qed.
Print Assumptions C58_step_improvement.
(** Without categorical variables and from an integral start, the rounded point stays within the
    radius and is not worse than the start. *)
Theorem C58_within_radius : forall eps min_dist lo up h start radius ints draws,
  0 <= eps -> rin_box start lo up -> length h = length start -> 0 <= radius ->
  (forall j, In j ints -> whole (nth j start 0)) ->
  let '(c, impr, _) := get_candidate_point eps min_dist lo up h start radius in
  let (q, adj) := get_integer_candidate h start c radius ints [] [] draws in
  distance q start <= radius /\ 0 <= impr + adj.
Proof. intros. apply integer_within; auto. Qed.
Print Assumptions C58_within_radius.
(** With a categorical variable both can fail: two values, the first one active at the start.  The
    choice of the second one is possible (positive weight); the point is outside the radius and its
    model value is worse than the start's. *)
Theorem C58_within_radius_refuted : exists lo up h start radius blocks first,
  rin_box start lo up /\ proper_blocks 2 blocks /\ one_active (nth 0 blocks []) start /\ 0 < radius /\
  let '(c, impr, _) := get_candidate_point (1/1000) (1/1000) lo up h start radius in
  possible_choice c (nth 0 blocks []) (nth 0 first 0%nat) /\
  let (q, adj) := get_integer_candidate h start c radius [] blocks first [] in
  radius < distance q start /\ impr + adj < 0.
Proof.
  exists [0; 0], [1; 1], [-2; -1], [1; 0], (1/2), [[0; 1]%nat], [1%nat].
  assert (B : rin_box [1; 0] [0; 0] [1; 1]).
  { split; [reflexivity|]. split; [reflexivity|]. cbn. intros [|[|j]] H; cbn; try lra; lia. }
  assert (Pb : proper_blocks 2 [[0; 1]%nat]).
  { split.
    - intros b [<-|[]]. split; [discriminate|]. split; [repeat constructor; cbn; intuition lia|]. cbn. intros j [<-|[<-|[]]]; lia.
    - intros i j Hi Hj N. cbn in Hi, Hj. lia. }
  split; auto. split; auto. split; [exists 0%nat; cbn; split; auto; split; auto; intros c [<-|[<-|[]]] N; [congruence|reflexivity]|].
  split; [lra|].
  assert (G : 1/1000 < sqrt (rdot [-2; -1] [-2; -1])).
  { apply Rlt_trans with (sqrt 1); [rewrite sqrt_1; lra|]. apply sqrt_lt_1; cbn; lra. }
  pose proof (C57_candidate (1/1000) (1/1000) [0; 0] [1; 1] [-2; -1] 0 [1; 0] (1/2) ltac:(lra) B eq_refl ltac:(lra)) as S.
  pose proof (C57_progress (1/1000) (1/1000) [0; 0] [1; 1] [-2; -1] [1; 0] (1/2) ltac:(lra) ltac:(lra) B eq_refl ltac:(lra) G) as P.
  pose proof (candidate_spec (1/1000) (1/1000) [0; 0] [1; 1] [-2; -1] [1; 0] (1/2) ltac:(lra) B eq_refl ltac:(lra)) as S'.
  destruct (get_candidate_point _ _ _ _ _ _ _) as [[c impr] g].
  assert (Hp : 0 < impr) by (apply P; exists 1%nat; cbn; split; [lia|lra]).
  destruct S as ((L1 & L2 & Bj) & _ & Ei & _ & _). destruct S' as (_ & _ & _ & _ & M & _).
  destruct c as [|x [|y [|z c]]]; cbn in L1; try discriminate. unfold linear_value in Ei. cbn in Ei.
  pose proof (Bj 0%nat ltac:(cbn; lia)) as B0. pose proof (M 0%nat ltac:(cbn; lia)) as M0. cbn in B0, M0.
  pose proof (Bj 1%nat ltac:(cbn; lia)) as B1. cbn in B1.
  assert (x = 1) by lra. subst x.
  split.
  - split; [cbn; auto|]. intros _. cbn. lra.
  - cbn. split.
    + apply Rlt_le_trans with (sqrt 1); [rewrite sqrt_1; lra|]. unfold distance. cbv zeta. apply sqrt_le_1_alt. cbn. lra.
    + rewrite Ei. lra.
Qed.
Print Assumptions C58_within_radius_refuted.
Example C58_case : proper_blocks 3 [[0; 1]%nat] /\ choices_ok [[0; 1]%nat] [1%nat] /\ in_no_block [[0; 1]%nat] 2%nat /\
  (forall j, In j [2%nat] -> whole (nth j [1; 0; 2] 0)).
Proof.
  split.
  { split.
    - intros b [<-|[]]. split; [discriminate|]. split; [repeat constructor; cbn; intuition lia|]. cbn. intros j [<-|[<-|[]]]; lia.
    - intros i j Hi Hj N. cbn in Hi, Hj. lia. }
  split; [split; [reflexivity|]; intros [|i] H; cbn in *; [auto|lia]|].
  split; [intros b [<-|[]] [H|[H|[]]]; discriminate|]. intros j [<-|[]]. exists 2%Z. reflexivity.
Qed.

(** ** C59 *)
Theorem C59_round_categorical : forall blocks choices p, proper_blocks (length p) blocks -> length choices = length blocks ->
  (forall i, (i < length blocks)%nat -> possible_choice p (nth i blocks []) (nth i choices 0%nat)) ->
  let q := round_categorical blocks choices p in
  length q = length p /\ (forall j, in_no_block blocks j -> nth j q 0 = nth j p 0) /\
  (forall i, (i < length blocks)%nat -> let b := nth i blocks [] in
     one_active b q /\
     (rsum (map (fun j => nth j p 0) b) <> 0 -> forall j, In j b -> nth j q 0 = 1 -> 0 < nth j p 0)).
Proof.
  intros blocks choices p Pb L Hc q.
  destruct (round_categorical_spec blocks choices p Pb L) as (A & B & D); [intros i Hi; apply (Hc i Hi)|].
  split; auto. split; auto. intros i Hi b. destruct (D i Hi) as [D1 D2]. destruct (Hc i Hi) as [H1 H2]. split.
  - exists (nth i choices 0%nat). split; auto.
  - intros N j Hj E. destruct (Nat.eq_dec j (nth i choices 0%nat)) as [->|Ne]; [auto|].
    unfold q in E. rewrite (D2 j Hj Ne) in E. lra.
Qed.
Print Assumptions C59_round_categorical.
(** The random choice made for a block is a possible one, and its probability (the length of the
    interval of uniform numbers that produce it) is the share of its weight. *)
Theorem C59_choice : forall p block u r, block <> [] -> (forall j, In j block -> 0 <= nth j p 0) -> 0 <= u < 1 -> (r < length block)%nat ->
  possible_choice p block (pick_category p block u r).
Proof. intros. apply pick_possible; auto. Qed.
Print Assumptions C59_choice.
Theorem C59_share : forall total u ws, (forall w, In w ws -> 0 <= w) -> total = rsum ws -> 0 < total -> 0 <= u < 1 ->
  let i := pick_from total u 0 ws 0 in
  (i < length ws)%nat /\ rsum (firstn i ws) / total <= u < rsum (firstn i ws) / total + nth i ws 0 / total.
Proof.
  intros total u ws P E Ht Hu i. destruct (pick_from_spec total u Ht Hu ws 0 0 P ltac:(lra)) as (m & M1 & M2 & M3 & M4).
  { unfold Rdiv. rewrite Rmult_0_l. lra. }
  unfold i. rewrite M1. cbn [Nat.add]. split; auto. rewrite !Rplus_0_l in M4.
  assert (S : forall (l : list R) k, (k < length l)%nat -> rsum (firstn (S k) l) = rsum (firstn k l) + nth k l 0).
  { clear. induction l as [|a l IH]; intros k H; cbn in H; [lia|]. destruct k as [|k]; [cbn; lra|].
    specialize (IH k ltac:(lia)). unfold rsum in *. change (firstn (S (S k)) (a :: l)) with (a :: firstn (S k) l).
    change (firstn (S k) (a :: l)) with (a :: firstn k l). cbn [fold_right nth]. rewrite IH. lra. }
  rewrite (S ws m M2) in M4. unfold Rdiv in *. lra.
Qed.
Print Assumptions C59_share.
Example C59_case : proper_blocks 3 [[0; 1]%nat] /\ possible_choice [1/4; 3/4; 5] [0; 1]%nat 1%nat /\
  round_categorical [[0; 1]%nat] [1%nat] [1/4; 3/4; 5] = [0; 1; 5].
Proof. split; [apply C58_case|]. split; [split; [cbn; auto|intros _; cbn; lra]|reflexivity]. Qed.

(** ** C60 *)
Import RefineRun.
Import Lra.
Local Open Scope R_scope.
Theorem C60_radius : forall c r model_impr real_impr,
  let ratio := (real_impr / model_impr)%Q in
  let r' := new_radius c r model_impr real_impr in
  ((Qabs model_impr <= eps_zero c)%Q -> (0 <= ref_shrink c)%Q -> (r' == r * (1#2))%Q) /\
  ((eps_zero c < Qabs model_impr)%Q ->
     ((ratio <= ref_shrink c)%Q -> (r' == r * (1#2))%Q) /\
     ((ref_shrink c < ratio)%Q -> (ref_enlarge c <= ratio)%Q -> (r' == r * 2)%Q) /\
     ((ref_shrink c < ratio)%Q -> (ratio < ref_enlarge c)%Q -> (r' == r)%Q) /\
     (refine_move c model_impr real_impr = true <-> (ref_movethr c <= ratio)%Q)) /\
  ((Qabs model_impr <= eps_zero c)%Q -> (refine_move c model_impr real_impr = true <-> (ref_movethr c <= 0)%Q)) /\
  ((0 <= r)%Q -> (0 <= r')%Q) /\ ((0 < r)%Q -> (0 < r')%Q).
Proof.
  intros c r mi ri ratio r'. unfold r', new_radius, refine_move, refine_ratio. fold ratio.
  split; [|split; [|split; [|split]]].
  - intros H1 H2. replace (Qltb (eps_zero c) (Qabs mi)) with false by (symmetry; apply Qltb_ge; auto).
    apply Qle_bool_iff in H2. rewrite H2. reflexivity.
  - intros H. apply Qltb_lt in H. rewrite H. repeat split.
    + intros H2. apply Qle_bool_iff in H2. rewrite H2. reflexivity.
    + intros H2 H3. apply Qle_bool_iff in H3. rewrite H3.
      destruct (Qle_bool ratio (ref_shrink c)) eqn:E; [apply Qle_bool_iff in E; exfalso; apply (Qlt_irrefl ratio); eapply Qle_lt_trans; eauto|reflexivity].
    + intros H2 H3. destruct (Qle_bool ratio (ref_shrink c)) eqn:E; [apply Qle_bool_iff in E; exfalso; apply (Qlt_irrefl ratio); eapply Qle_lt_trans; eauto|].
      destruct (Qle_bool (ref_enlarge c) ratio) eqn:E2; [apply Qle_bool_iff in E2; exfalso; apply (Qlt_irrefl ratio); eapply Qlt_le_trans; eauto|reflexivity].
    + intros H2. apply Qle_bool_iff. exact H2.
    + intros H2. apply Qle_bool_iff. exact H2.
  - intros H1. replace (Qltb (eps_zero c) (Qabs mi)) with false by (symmetry; apply Qltb_ge; auto). apply Qle_bool_iff.
  - intros H. destruct (Qle_bool _ _); [apply Qmult_le_0_compat; auto; discriminate|]. destruct (Qle_bool _ _); auto. apply Qmult_le_0_compat; auto. discriminate.
  - intros H. destruct (Qle_bool _ _); [|destruct (Qle_bool _ _); auto].
    + rewrite <- (Qmult_0_l (1#2)). apply Qmult_lt_compat_r; [reflexivity|auto].
    + rewrite <- (Qmult_0_l 2). apply Qmult_lt_compat_r; [reflexivity|auto].
Qed.
Print Assumptions C60_radius.
(** In the run: the update applies this radius, and moves the iterate to the newest node exactly
    when told so or when the node to be replaced is the iterate. *)
Theorem C60_update : forall c i s s', refinement_update c i s = Ok s' ->
  exists rad, ref_radius (Rf s) = Some rad /\ ref_radius (Rf s') = Some (new_radius c rad (i_model_impr i) (i_real_impr i)) /\
  (refine_move c (i_model_impr i) (i_real_impr i) = true -> ref_iterate_index (Rf s') = Some (length (node_pos (T s)) - 1)%nat).
Proof.
  intros c i s s' H. destruct (update_spec _ _ _ _ H) as (rad & it0 & E1 & E2 & A & _ & _ & _ & (it1 & I1 & _ & I3) & _).
  exists rad. split; auto. split; auto. intros M. rewrite I1, (I3 M). reflexivity.
Qed.
Print Assumptions C60_update.
Example C60_case : let c := WitnessAlg.c_ref in (eps_zero c < Qabs 1)%Q /\ (ref_shrink c < 1 / 2)%Q /\ (1 / 2 < ref_enlarge c)%Q /\ (ref_movethr c <= 1 / 2)%Q.
Proof. repeat split; try reflexivity; discriminate. Qed.

(** ** C61 *)
Theorem C61_model_set : forall dist order n, sorts dist order -> let k := length dist in let ms := init_model_set n k order in
  NoDup ms /\ length ms = Nat.min (n + 1) k /\ (forall i, In i ms -> (i < k)%nat) /\
  (forall i j, In i ms -> (j < k)%nat -> ~ In j ms -> nth i dist 0 <= nth j dist 0) /\
  (forall i, (i < k)%nat -> nth (nth 0 ms 0%nat) dist 0 <= nth i dist 0).
Proof. intros. apply model_set_spec; auto. Qed.
Print Assumptions C61_model_set.
(** With distinct nodes, the first element is the centre. *)
Theorem C61_centre_first : forall nodes order n c, (c < length nodes)%nat ->
  (forall i j, (i < length nodes)%nat -> (j < length nodes)%nat -> i <> j -> 0 < distance (nth i nodes []) (nth j nodes [])) ->
  sorts (map (distance (nth c nodes [])) nodes) order ->
  nth 0 (init_model_set n (length nodes) order) 0%nat = c.
Proof.
  intros nodes order n c Hc D S. destruct (model_set_spec _ order n S) as (_ & L & V & _ & F). rewrite map_length in *.
  set (m := nth 0 (init_model_set n (length nodes) order) 0%nat) in *.
  assert (Hm : (m < length nodes)%nat).
  { apply V. unfold m. apply nth_In. unfold rpoint in *. rewrite L. lia. }
  specialize (F c Hc). rewrite !(nth_map_in _ nodes _ []) in F by auto. rewrite distance_self in F.
  destruct (Nat.eq_dec c m) as [E|N]; [auto|]. specialize (D c m Hc Hm N). exfalso. apply (Rlt_irrefl 0). eapply Rlt_le_trans; [exact D|exact F].
Qed.
Print Assumptions C61_centre_first.
Theorem C61_radius : forall ref_min_radius mult nodes centre ms, 0 < ref_min_radius ->
  ref_min_radius <= init_radius ref_min_radius mult nodes centre ms.
Proof.
  intros r m nodes ce ms H. unfold init_radius. eapply Rle_trans; [|apply Rmax_r].
  rewrite <- (Rmult_1_r r) at 1. apply Rmult_le_compat_l; [lra|]. apply pow_R1_Rle. lra.
Qed.
Print Assumptions C61_radius.
(** Updates keep the size, bring in only the newest node, keep the elements distinct, and while the
    refinement goes on the iterate belongs to the model set. *)
Theorem C61_update : forall c i s s', refinement_update c i s = Ok s' ->
  let newest := (length (node_pos (T s)) - 1)%nat in
  length (ref_model_set (Rf s')) = length (ref_model_set (Rf s)) /\
  (forall j, In j (ref_model_set (Rf s')) -> j = newest \/ In j (ref_model_set (Rf s))) /\
  (~ In newest (ref_model_set (Rf s)) -> NoDup (ref_model_set (Rf s)) -> NoDup (ref_model_set (Rf s'))) /\
  ((forall it, ref_iterate_index (Rf s) = Some it -> In it (ref_model_set (Rf s))) -> (0 <= num_cons_refinement (Rf s))%Z ->
   num_cons_refinement (Rf s') <> 0%Z -> forall it, ref_iterate_index (Rf s') = Some it -> In it (ref_model_set (Rf s'))) /\
  (num_cons_refinement (Rf s') = 0 \/ num_cons_refinement (Rf s') < max_consecutive_refinement c \/
   unlimited_refinement c s (i_time_unl i) = true)%Z.
Proof.
  intros c i s s' H newest. destruct (update_spec _ _ _ _ H) as (rad & it0 & E1 & E2 & _ & A & B & N & _ & D).
  split; auto. split; auto. split; auto. split; [|apply (update_bound _ _ _ _ H)].
  intros Hit Hc Hn it Hi. specialize (Hit _ E2). destruct D as [(_ & _ & D)|(D & _)]; [|contradiction].
  destruct D as (it1 & D1 & D2); auto; [intros Z; rewrite Z in Hit; destruct Hit|]. congruence.
Qed.
Print Assumptions C61_update.
Example C61_case : sorts [2; 0; 1] [1; 2; 0]%nat /\ init_model_set 1 3 [1; 2; 0]%nat = [1; 2]%nat.
Proof.
  split; [|reflexivity]. split.
  - cbn. apply Permutation.perm_trans with [1; 0; 2]%nat; [apply Permutation.perm_swap|]. constructor. apply Permutation.perm_swap.
  - cbn. intros a b [H1 H2]. destruct b as [|[|[|b]]]; try lia; destruct a as [|[|[|a]]]; try lia; cbn; lra.
Qed.

(** ** C62 *)
(** When the start heads the model set (as after the initialization), the index reported for
    replacement never designates, in the model set, the node found dependent. *)
Theorem C62_index_refuted : forall model_set rest start i, model_set = start :: rest -> NoDup model_set ->
  (i < length rest)%nat -> nth i model_set 0%nat <> nth i (reduced_set model_set start) 0%nat.
Proof.
  intros ms rest start i -> N Hi. inversion N as [|x l Hx Hl]; subst.
  assert (E : reduced_set (start :: rest) start = rest).
  { unfold reduced_set. cbn [filter]. rewrite Nat.eqb_refl. cbn [negb].
    clear -Hx. induction rest as [|a r IH]; [reflexivity|]. cbn. destruct (Nat.eqb_spec a start) as [->|Na].
    - exfalso. apply Hx. left; auto.
    - cbn. f_equal. apply IH. intros H. apply Hx. right; auto. }
  rewrite E. clear E. destruct i as [|i]; cbn [nth].
  - intros ->. apply Hx. apply nth_In. auto.
  - intros Q. assert (i = S i) by (eapply (NoDup_nth rest 0%nat); eauto; lia). lia.
Qed.
Print Assumptions C62_index_refuted.
(** What the index is: a position among the columns of the factorization, i.e. of the reduced set. *)
Theorem C62_index_range : forall eps lo up nodes ms start radius ints blocks rank piv cols new_rank choice,
  let red := reduced_set ms start in
  length piv = length red -> (forall i, (i < length red)%nat -> (nth i piv 0 < length red)%nat) ->
  let '(p, ok, rep) := get_model_improving_point eps lo up nodes ms start radius ints blocks rank piv cols new_rank choice in
  ok = true -> (rep < length red)%nat /\ exists i, (rank <= i < length red)%nat /\ rep = nth i piv 0%nat /\ (rank < new_rank i)%nat.
Proof.
  intros eps lo up nodes ms start radius ints blocks rank piv cols new_rank choice red Lp Hp.
  unfold get_model_improving_point. fold red. cbv zeta.
  destruct ((length red =? 0)%nat || (length red <=? rank)%nat) eqn:E; [discriminate|].
  apply Bool.orb_false_iff in E as [_ E]. apply Nat.leb_gt in E.
  set (dir := fun i => _).
  assert (G : forall is d rep, (forall i, In i is -> (rank <= i < length red)%nat) ->
     let '(_, ok, r) := improve_loop dir rank new_rank piv is d rep in
     ok = true -> exists i, (rank <= i < length red)%nat /\ r = nth i piv 0%nat /\ (rank < new_rank i)%nat).
  { induction is as [|i is IH]; intros d rep Hi; cbn [improve_loop]; [discriminate|].
    destruct (Nat.ltb_spec rank (new_rank i)).
    - intros _. exists i. split; [apply Hi; left; auto|]. auto.
    - apply IH. intros j Hj. apply Hi. right; auto. }
  specialize (G (seq rank (length red - rank)) (map (fun _ => 0) (nth start nodes [])) (nth rank piv 0%nat)).
  destruct (improve_loop _ _ _ _ _ _ _) as [[d ok] rep]. intros Ok. destruct G as (i & G1 & G2 & G3); auto.
  - intros i Hi. apply in_seq in Hi. lia.
  - split; [rewrite G2; apply Hp; lia|]. exists i; auto.
Qed.
Print Assumptions C62_index_range.
Example C62_case : NoDup [4; 7; 2]%nat /\ reduced_set [4; 7; 2]%nat 4 = [7; 2]%nat /\ (nth 1 [4; 7; 2] 0 = 7)%nat.
Proof. split; [repeat constructor; cbn; intuition lia|]. split; reflexivity. Qed.

(** ** C92 *)
Theorem C92_improving_point : forall eps lo up start radius ints blocks choices col, 0 < eps <= 1 ->
  rin_box start lo up -> length col = length start ->
  (forall j, In j ints -> whole (nth j lo 0) /\ whole (nth j up 0) /\ whole (nth j start 0)) ->
  (blocks <> [] -> proper_blocks (length start) blocks /\ choices_ok blocks choices /\
     forall b j, In b blocks -> In j b -> nth j lo 0 <= 0 /\ 1 <= nth j up 0) ->
  let q := map2 Rplus start (improving_direction eps lo up start radius ints blocks choices col) in
  rin_box q lo up /\ (forall j, In j ints -> (j < length start)%nat -> whole (nth j q 0)) /\
  (forall b, In b blocks -> (forall j, In j b -> In j ints) -> one_active b start -> one_active b q).
Proof.
  intros eps lo up start radius ints blocks choices col [He1 He2] B L W Hb q.
  destruct (direction_in_box eps lo up start radius ints blocks choices col He1 B L W Hb) as (A1 & A2 & A3).
  split; auto.
Qed.
Print Assumptions C92_improving_point.
Example C92_case : rin_box [1; 0; 2] [0; 0; 0] [1; 1; 5] /\ one_active [0; 1]%nat [1; 0; 2] /\ proper_blocks 3 [[0; 1]%nat] /\
  (forall j, In j [0; 1; 2]%nat -> whole (nth j [0; 0; 0] 0) /\ whole (nth j [1; 1; 5] 0) /\ whole (nth j [1; 0; 2] 0)).
Proof.
  split; [exact box3|]. split; [exists 0%nat; cbn; split; auto; split; auto; intros c [<-|[<-|[]]] N; [congruence|reflexivity]|].
  split; [apply C58_case|]. intros j [<-|[<-|[<-|[]]]]; cbn; (split; [|split]); first [exists 0%Z; reflexivity|exists 1%Z; reflexivity|exists 2%Z; reflexivity|exists 5%Z; reflexivity].
Qed.

(** ** C94: reported improvement of a model-improving point. *)
Theorem C94_reported_value : forall eps min_dist min_grad lo up nodes h b model_set start radius ints blocks noncat first draws ip rep,
  ModelRefine.refinement_step eps min_dist min_grad lo up nodes h b true model_set start radius ints blocks (ip, true, rep) noncat first draws
    = (Some ip, linear_value h b ip, rep).
Proof. reflexivity. Qed.
Print Assumptions C94_reported_value.
Theorem C94_difference_refuted : exists h b nodes start ip,
  let '(p, impr, _) := ModelRefine.refinement_step (1/1000) (1/1000) (1/1000) [0] [1] nodes h b true [0; 1]%nat start (1/2) [] [] (ip, true, 0%nat) [] [] [] in
  p = Some ip /\ linear_value h b (nth start nodes []) - linear_value h b ip < 0 /\ 0 < impr.
Proof.
  exists [1], 3, [[0]; [1/4]], 0%nat, [1/2]. cbn. split; [reflexivity|]. unfold linear_value. cbn. lra.
Qed.
Print Assumptions C94_difference_refuted.
Example C94_case : linear_value [1] 3 [1/2] = 7/2 /\ linear_value [1] 3 [0] - linear_value [1] 3 [1/2] = - (1/2).
Proof. unfold linear_value. cbn. lra. Qed.

(** ** C93: refinement data along a run *)
Theorem C93_indices_valid : forall c i0 pause_after is s0 l0 s l, (0 <= num_global_searches c)%Z ->
  start_call c i0 pause_after (init_st c) = Ok (s0, l0) -> linear_models_ok c is s0 l0 -> run c is s0 l0 = Running s l ->
  num_cons_refinement (Rf s) <> 0%Z ->
  current_step (C s) = ModelAlg.refinement_step c /\
  (forall j, In j (ref_model_set (Rf s)) -> (j < length (node_pos (T s)))%nat) /\
  exists it, ref_iterate_index (Rf s) = Some it /\ In it (ref_model_set (Rf s)).
Proof.
  intros c i0 pa is s0 l0 s l Hg H0 O H N.
  destruct (ready_run c Hg is s0 l0 s l (start_ready _ _ _ _ _ H0) O H) as [Z|(_ & A & B & D)]; [contradiction|auto].
Qed.
Print Assumptions C93_indices_valid.
Theorem C93_starts_at_best : forall c i0 pause_after is s0 l0 s l i, (0 <= num_global_searches c)%Z ->
  start_call c i0 pause_after (init_st c) = Ok (s0, l0) -> linear_models_ok c is s0 l0 -> run c is s0 l0 = Running s l ->
  current_step (C s) = ModelAlg.refinement_step c -> linear_model_ok s i -> (2 <= length (node_pos (T s)))%nat ->
  exists s2 it, prepare c i s = PGo s2 /\ ref_iterate_index (Rf s2) = Some it /\ In it (ref_model_set (Rf s2)) /\
    (forall j, In j (ref_model_set (Rf s2)) -> (j < length (node_pos (T s)))%nat) /\
    (num_cons_refinement (Rf s) = 0%Z -> it = fmin_index (I s) /\ ref_model_set (Rf s2) = i_ref_set i /\ ref_radius (Rf s2) = Some (i_ref_radius i)).
Proof.
  intros c i0 pa is s0 l0 s l i Hg H0 O H E Li K.
  destruct (ready_prepare c i s Hg E (ready_run c Hg is s0 l0 s l (start_ready _ _ _ _ _ H0) O H) Li K) as (s2 & it & A & B & D & F & G).
  exists s2, it. split; auto. split; auto. split; auto. split; auto. intros Z. destruct (G Z) as (G1 & G2 & G3). auto.
Qed.
Print Assumptions C93_starts_at_best.
(** If the linear model cannot be built in the middle of a refinement, the refinement is abandoned
    without being closed: the next one is not initialized, and works with the old iterate, which is
    not the best node. *)
Theorem C93_after_failure_refuted : exists c s l i s2, reach c any_inp s l /\
  current_step (C s) = ModelAlg.refinement_step c /\ i_ref_ok i = true /\ prepare c i s = PGo s2 /\
  (exists es p v, trace s = List.app es [EvStep (local_search_step c); EvAcc p v]) /\
  ref_iterate_index (Rf s2) <> Some (fmin_index (I s)).
Proof.
  exists c_ref, s_ref_fail, (at_loc run_ref_fail), dflt_inp. eexists. split.
  { apply (reach_call c_ref any_inp dflt_inp 1000 is_ref_fail); [exact Logic.I|apply any_all|vm_compute; reflexivity]. }
  split; [vm_compute; reflexivity|]. split; [reflexivity|]. split; [vm_compute; reflexivity|].
  split; [|vm_compute; discriminate].
  exists (firstn 18 (trace s_ref_fail)), [1%Q], (-2)%Q. vm_compute. reflexivity.
Qed.
Print Assumptions C93_after_failure_refuted.
Example C93_case : exists s0 l0 s l, start_call c_ref dflt_inp 1000 (init_st c_ref) = Ok (s0, l0) /\ run c_ref (List.app is_ref [prop [7%Q] 3%Q (nz 0)]) s0 l0 = Running s l /\ num_cons_refinement (Rf s) = 1%Z /\ ref_model_set (Rf s) = [5; 1]%nat /\ ref_iterate_index (Rf s) = Some 5%nat.
Proof.
  do 4 eexists. split; [vm_compute; reflexivity|]. split; [vm_compute; reflexivity|]. repeat split.
Qed.
