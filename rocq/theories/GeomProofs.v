(** * Facts about real vectors and distances. *)
From Verif Require Export ModelGeom BaseLemmas.
From Coq Require Export Lra Lia Psatz Qreals.
Open Scope R_scope.

Lemma Rleb_le a b : Rleb a b = true <-> a <= b.
Proof. unfold Rleb; destruct (Rle_dec a b); split; auto; discriminate. Qed.
Lemma Rleb_gt a b : Rleb a b = false <-> b < a.
Proof. unfold Rleb; destruct (Rle_dec a b); split; auto; intros; try discriminate; lra. Qed.
Lemma Rltb_lt a b : Rltb a b = true <-> a < b.
Proof. unfold Rltb; destruct (Rlt_dec a b); split; auto; discriminate. Qed.
Lemma Rltb_ge a b : Rltb a b = false <-> b <= a.
Proof. unfold Rltb; destruct (Rlt_dec a b); split; auto; intros; try discriminate; lra. Qed.

Lemma map2_len {A B C} (f : A -> B -> C) l : forall m, length l = length m -> length (map2 f l m) = length l.
Proof. induction l; intros [|b m]; cbn; auto; try discriminate. Qed.
Lemma map2_nth {A B C} (f : A -> B -> C) l : forall m i da db dc,
  length l = length m -> (i < length l)%nat -> nth i (map2 f l m) dc = f (nth i l da) (nth i m db).
Proof.
  induction l as [|a l IH]; intros [|b m] i da db dc H Hi; cbn in *; try lia.
  destruct i; auto. apply IH; lia.
Qed.

(** ** Scalar products *)
Lemma rdot_comm u : forall v, rdot u v = rdot v u.
Proof. induction u; intros [|b v]; cbn; auto. rewrite IHu; ring. Qed.
Lemma rdot_nil_r u : rdot u [] = 0.
Proof. destruct u; reflexivity. Qed.
Lemma rdot_app a : forall a' b b', length a = length b ->
  rdot (a ++ a') (b ++ b') = rdot a b + rdot a' b'.
Proof. induction a; intros a' [|y b] b' H; cbn in *; try discriminate; try ring.
  rewrite IHa by lia. ring. Qed.
Lemma rdot_zeros n : forall v, rdot (repeat 0 n) v = 0.
Proof. induction n; intros [|b v]; cbn; auto. rewrite IHn; ring. Qed.
Lemma rdot_sq_nonneg u : 0 <= rdot u u.
Proof. induction u; cbn; nra. Qed.
Lemma rdot_lin u : forall b a t, length b = length u -> length a = length u ->
  rdot u (map2 (fun x y => x - t * y) b a) = rdot u b - t * rdot u a.
Proof.
  induction u as [|c u IH]; intros [|x b] [|y a] t H H'; cbn in *; try discriminate; try ring.
  rewrite IH by lia. ring.
Qed.
Lemma rdot_ext u : forall u' v, length u = length u' ->
  (forall i, (i < length u)%nat -> nth i u 0 = nth i u' 0) -> rdot u v = rdot u' v.
Proof.
  induction u as [|a u IH]; intros [|a' u'] v H E; cbn in *; try discriminate; auto.
  destruct v; auto. pose proof (E 0%nat ltac:(lia)) as E0. cbn in E0. subst a'.
  f_equal. apply IH; [lia|]. intros i Hi. apply (E (S i)); lia.
Qed.

(** ** Cauchy-Schwarz and the triangle inequality *)
Lemma cs_step A B S a b : 0 <= A -> 0 <= B -> S * S <= A * B ->
  (a * b + S) * (a * b + S) <= (a * a + A) * (b * b + B).
Proof.
  intros HA HB HS.
  assert (Hm : 2 * (a * b * S) <= a * a * B + b * b * A).
  { set (x := sqrt A). set (y := sqrt B).
    assert (Hx : x * x = A) by (apply sqrt_sqrt; auto).
    assert (Hy : y * y = B) by (apply sqrt_sqrt; auto).
    assert (0 <= x) by apply sqrt_pos. assert (0 <= y) by apply sqrt_pos.
    assert (Ha : Rabs S <= x * y).
    { apply Rsqr_incr_0; try nra; [|apply Rabs_pos].
      rewrite <- Rsqr_abs. unfold Rsqr. nra. }
    assert (a * b * S <= Rabs (a * b) * (x * y)).
    { apply Rle_trans with (Rabs (a * b * S)); [apply Rle_abs|].
      rewrite Rabs_mult. apply Rmult_le_compat_l; [apply Rabs_pos|auto]. }
    rewrite Rabs_mult in H1.
    pose proof (Rsqr_abs a) as Ea. pose proof (Rsqr_abs b) as Eb. unfold Rsqr in Ea, Eb.
    rewrite <- Hx, <- Hy, Ea, Eb.
    pose proof (Rle_0_sqr (Rabs a * y - Rabs b * x)) as Hq. unfold Rsqr in Hq. nra. }
  nra.
Qed.
Lemma cauchy_schwarz u : forall v, rdot u v * rdot u v <= rdot u u * rdot v v.
Proof.
  induction u as [|a u IH]; intros [|b v]; cbn; [lra|lra|lra|].
  apply cs_step; auto using rdot_sq_nonneg.
Qed.
Lemma minkowski u v s : rdot u u + 2 * rdot u v + rdot v v = s ->
  sqrt s <= sqrt (rdot u u) + sqrt (rdot v v).
Proof.
  intros E.
  pose proof (rdot_sq_nonneg u) as Hu. pose proof (rdot_sq_nonneg v) as Hv.
  set (x := sqrt (rdot u u)). set (y := sqrt (rdot v v)).
  assert (Hx : x * x = rdot u u) by (apply sqrt_sqrt; auto).
  assert (Hy : y * y = rdot v v) by (apply sqrt_sqrt; auto).
  assert (0 <= x) by apply sqrt_pos. assert (0 <= y) by apply sqrt_pos.
  rewrite <- (sqrt_square (x + y)) by lra. apply sqrt_le_1_alt.
  assert (Hc : rdot u v <= x * y).
  { pose proof (cauchy_schwarz u v) as C.
    destruct (Rle_dec (rdot u v) 0) as [L|L]; [nra|].
    apply Rsqr_incr_0_var; [unfold Rsqr|]; nra. }
  nra.
Qed.

Definition diff (p q : rpoint) : list R := map2 Rminus p q.
Lemma distance_diff p q : distance p q = sqrt (rdot (diff p q) (diff p q)).
Proof. reflexivity. Qed.
Lemma diff_sq_sym p : forall q, rdot (diff p q) (diff p q) = rdot (diff q p) (diff q p).
Proof. induction p; intros [|b q]; cbn; auto. unfold diff in IHp. rewrite IHp; ring. Qed.
Lemma distance_sym p q : distance p q = distance q p.
Proof. rewrite !distance_diff, diff_sq_sym; auto. Qed.
Lemma distance_nonneg p q : 0 <= distance p q.
Proof. apply sqrt_pos. Qed.
Lemma diff_sq_zero p : forall q, length p = length q ->
  (rdot (diff p q) (diff p q) = 0 <-> p = q).
Proof.
  induction p as [|a p IH]; intros [|b q] H; cbn in *; try discriminate.
  - split; auto.
  - pose proof (rdot_sq_nonneg (diff p q)) as Hn. unfold diff in *. split.
    + intros E. assert (a - b = 0) by nra. assert (E2 : rdot (map2 Rminus p q) (map2 Rminus p q) = 0) by nra.
      apply IH in E2; [|lia]. subst. f_equal. lra.
    + intros E. injection E as -> ->. destruct (IH q eq_refl) as [_ K]. rewrite K; auto. ring.
Qed.
Lemma distance_zero p q : length p = length q -> (distance p q = 0 <-> p = q).
Proof.
  intros H. rewrite distance_diff, <- (diff_sq_zero p q H). split.
  - intros E. apply sqrt_eq_0; auto. apply rdot_sq_nonneg.
  - intros ->. apply sqrt_0.
Qed.
Lemma distance_self p : distance p p = 0.
Proof. apply distance_zero; auto. Qed.
Lemma distance_triangle p : forall q r, length p = length q -> length q = length r ->
  distance p r <= distance p q + distance q r.
Proof.
  intros q r H H'. rewrite !distance_diff. apply minkowski.
  revert q r H H'. induction p as [|a p IH]; intros [|b q] [|c r] H H'; cbn in *; try discriminate; try ring.
  specialize (IH q r ltac:(lia) ltac:(lia)). unfold diff in *. rewrite <- IH. ring.
Qed.

(** ** First extreme index and extreme value *)
Definition rfirst_min (l : list R) (j : nat) : Prop :=
  (j < length l)%nat /\ (forall i, (i < length l)%nat -> nth j l 0 <= nth i l 0) /\
  (forall i, (i < j)%nat -> nth j l 0 < nth i l 0).
Definition rfirst_max (l : list R) (j : nat) : Prop :=
  (j < length l)%nat /\ (forall i, (i < length l)%nat -> nth i l 0 <= nth j l 0) /\
  (forall i, (i < j)%nat -> nth i l 0 < nth j l 0).

Lemma rargmin_aux_spec l : forall pre best bi,
  rfirst_min pre bi -> best = nth bi pre 0 ->
  rfirst_min (pre ++ l) (rargmin_aux best bi (length pre) l).
Proof.
  induction l as [|x r IH]; intros pre best bi Hf Hb; cbn.
  - rewrite app_nil_r. exact Hf.
  - destruct Hf as (H1 & H2 & H3).
    replace (pre ++ x :: r) with ((pre ++ [x]) ++ r) by (rewrite <- app_assoc; auto).
    replace (S (length pre)) with (length (pre ++ [x])) by (rewrite app_length; cbn; lia).
    destruct (Rltb x best) eqn:E.
    + apply Rltb_lt in E. apply IH.
      * split; [rewrite app_length; cbn; lia|].
        assert (Hx : nth (length pre) (pre ++ [x]) 0 = x) by (rewrite app_nth2, Nat.sub_diag; auto).
        rewrite Hx. split.
        -- intros i Hi. rewrite app_length in Hi; cbn in Hi.
           destruct (Nat.eq_dec i (length pre)) as [->|]; [rewrite Hx; lra|].
           rewrite app_nth1 by lia. specialize (H2 i ltac:(lia)). subst best. lra.
        -- intros i Hi. rewrite app_nth1 by lia. specialize (H2 i Hi). subst best. lra.
      * rewrite app_nth2, Nat.sub_diag; auto.
    + apply Rltb_ge in E. apply IH; [|rewrite app_nth1; auto].
      split; [rewrite app_length; lia|]. rewrite (app_nth1 pre [x] 0 H1). split.
      * intros i Hi. rewrite app_length in Hi; cbn in Hi.
        destruct (Nat.eq_dec i (length pre)) as [->|].
        -- rewrite app_nth2, Nat.sub_diag by lia. cbn. subst best; lra.
        -- rewrite app_nth1 by lia. apply H2; lia.
      * intros i Hi. rewrite app_nth1 by lia. auto.
Qed.
Lemma rargmin_spec l : l <> [] -> rfirst_min l (rargmin l).
Proof.
  destruct l as [|x r]; [congruence|intros _]. cbn.
  apply (rargmin_aux_spec r [x] x 0); auto.
  split; [cbn; lia|]. cbn. split; intros i Hi; [|lia]. destruct i; [lra|lia].
Qed.
Lemma rargmax_aux_spec l : forall pre best bi,
  rfirst_max pre bi -> best = nth bi pre 0 ->
  rfirst_max (pre ++ l) (rargmax_aux best bi (length pre) l).
Proof.
  induction l as [|x r IH]; intros pre best bi Hf Hb; cbn.
  - rewrite app_nil_r. exact Hf.
  - destruct Hf as (H1 & H2 & H3).
    replace (pre ++ x :: r) with ((pre ++ [x]) ++ r) by (rewrite <- app_assoc; auto).
    replace (S (length pre)) with (length (pre ++ [x])) by (rewrite app_length; cbn; lia).
    destruct (Rltb best x) eqn:E.
    + apply Rltb_lt in E. apply IH.
      * split; [rewrite app_length; cbn; lia|].
        assert (Hx : nth (length pre) (pre ++ [x]) 0 = x) by (rewrite app_nth2, Nat.sub_diag; auto).
        rewrite Hx. split.
        -- intros i Hi. rewrite app_length in Hi; cbn in Hi.
           destruct (Nat.eq_dec i (length pre)) as [->|]; [rewrite Hx; lra|].
           rewrite app_nth1 by lia. specialize (H2 i ltac:(lia)). subst best. lra.
        -- intros i Hi. rewrite app_nth1 by lia. specialize (H2 i Hi). subst best. lra.
      * rewrite app_nth2, Nat.sub_diag; auto.
    + apply Rltb_ge in E. apply IH; [|rewrite app_nth1; auto].
      split; [rewrite app_length; lia|]. rewrite (app_nth1 pre [x] 0 H1). split.
      * intros i Hi. rewrite app_length in Hi; cbn in Hi.
        destruct (Nat.eq_dec i (length pre)) as [->|].
        -- rewrite app_nth2, Nat.sub_diag by lia. cbn. subst best; lra.
        -- rewrite app_nth1 by lia. apply H2; lia.
      * intros i Hi. rewrite app_nth1 by lia. auto.
Qed.
Lemma rargmax_spec l : l <> [] -> rfirst_max l (rargmax l).
Proof.
  destruct l as [|x r]; [congruence|intros _]. cbn.
  apply (rargmax_aux_spec r [x] x 0); auto.
  split; [cbn; lia|]. cbn. split; intros i Hi; [|lia]. destruct i; [lra|lia].
Qed.

Lemma amin_spec l : l <> [] -> In (amin l) l /\ forall x, In x l -> amin l <= x.
Proof.
  destruct l as [|x r]; [congruence|intros _]. cbn [amin].
  revert x. induction r as [|y r IH]; intros x; cbn [fold_left].
  - split; [left; auto|]. intros z [->|[]]; lra.
  - destruct (IH (Rmin x y)) as [H1 H2]. split.
    + destruct H1 as [H1|H1]; [|right; right; auto].
      rewrite <- H1. unfold Rmin. destruct (Rle_dec x y); cbn; auto.
    + assert (Hm : fold_left Rmin r (Rmin x y) <= Rmin x y) by (apply H2; left; auto).
      pose proof (Rmin_l x y). pose proof (Rmin_r x y).
      intros z [->|[->|Hz]]; try lra. apply H2; right; auto.
Qed.
Lemma amax_spec l : l <> [] -> In (amax l) l /\ forall x, In x l -> x <= amax l.
Proof.
  destruct l as [|x r]; [congruence|intros _]. cbn [amax].
  revert x. induction r as [|y r IH]; intros x; cbn [fold_left].
  - split; [left; auto|]. intros z [->|[]]; lra.
  - destruct (IH (Rmax x y)) as [H1 H2]. split.
    + destruct H1 as [H1|H1]; [|right; right; auto].
      rewrite <- H1. unfold Rmax. destruct (Rle_dec x y); cbn; auto.
    + assert (Hm : Rmax x y <= fold_left Rmax r (Rmax x y)) by (apply H2; left; auto).
      pose proof (Rmax_l x y). pose proof (Rmax_r x y).
      intros z [->|[->|Hz]]; try lra. apply H2; right; auto.
Qed.

Lemma nth_cdist_row p others i : (i < length others)%nat ->
  nth i (cdist_row p others) 0 = distance p (nth i others []).
Proof. intros H. unfold cdist_row. rewrite (nth_indep _ 0 (distance p [])); [apply map_nth|rewrite map_length; auto]. Qed.

(** ** Queries *)
Lemma min_distance_and_index_spec p others : others <> [] ->
  let (d, j) := get_min_distance_and_index p others in
  (j < length others)%nat /\ d = distance p (nth j others []) /\
  (forall i, (i < length others)%nat -> d <= distance p (nth i others [])) /\
  (forall i, (i < j)%nat -> d < distance p (nth i others [])) /\
  get_min_distance p others = d.
Proof.
  intros Hne. unfold get_min_distance_and_index, get_min_distance.
  assert (Hr : cdist_row p others <> []) by (destruct others; [congruence|discriminate]).
  destruct (rargmin_spec _ Hr) as (H1 & H2 & H3).
  assert (HL : length (cdist_row p others) = length others) by apply map_length.
  rewrite HL in *. rewrite nth_cdist_row by auto.
  split; [auto|]. split; [auto|].
  split; [intros i Hi; specialize (H2 i Hi); rewrite !nth_cdist_row in H2 by lia; auto|].
  split; [intros i Hi; specialize (H3 i Hi); rewrite !nth_cdist_row in H3 by lia; auto|].
  destruct (amin_spec _ Hr) as [A1 A2]. apply Rle_antisym.
  - rewrite <- nth_cdist_row by auto. apply A2, nth_In. lia.
  - apply In_nth with (d := 0) in A1. destruct A1 as (i & Hi & E). rewrite <- E.
    rewrite <- nth_cdist_row by lia. apply H2. lia.
Qed.
Lemma max_distance_and_index_spec p others : others <> [] ->
  let (d, j) := get_max_distance_and_index p others in
  (j < length others)%nat /\ d = distance p (nth j others []) /\
  (forall i, (i < length others)%nat -> distance p (nth i others []) <= d) /\
  (forall i, (i < j)%nat -> distance p (nth i others []) < d) /\
  get_max_distance p others = d.
Proof.
  intros Hne. unfold get_max_distance_and_index, get_max_distance.
  assert (Hr : cdist_row p others <> []) by (destruct others; [congruence|discriminate]).
  destruct (rargmax_spec _ Hr) as (H1 & H2 & H3).
  assert (HL : length (cdist_row p others) = length others) by apply map_length.
  rewrite HL in *. rewrite nth_cdist_row by auto.
  split; [auto|]. split; [auto|].
  split; [intros i Hi; specialize (H2 i Hi); rewrite !nth_cdist_row in H2 by lia; auto|].
  split; [intros i Hi; specialize (H3 i Hi); rewrite !nth_cdist_row in H3 by lia; auto|].
  destruct (amax_spec _ Hr) as [A1 A2]. apply Rle_antisym.
  - apply In_nth with (d := 0) in A1. destruct A1 as (i & Hi & E). rewrite <- E.
    rewrite <- nth_cdist_row by lia. apply H2. lia.
  - rewrite <- nth_cdist_row by auto. apply A2, nth_In. lia.
Qed.
Lemma bulk_min_distance_spec points others :
  length (bulk_get_min_distance points others) = length points /\
  forall i, (i < length points)%nat ->
    nth i (bulk_get_min_distance points others) 0 = get_min_distance (nth i points []) others.
Proof.
  unfold bulk_get_min_distance, cdist. rewrite map_map. split; [apply map_length|].
  intros i Hi. rewrite (nth_indep _ 0 (amin (cdist_row [] others))) by (rewrite map_length; auto).
  rewrite (map_nth (fun x => amin (cdist_row x others))). reflexivity.
Qed.

(** ** Bridge to the squared rational distances of [ModelBase] *)
Lemma Q2R_0' : Q2R 0 = 0. Proof. unfold Q2R; cbn; lra. Qed.
Lemma sqdist_real p : forall q, Q2R (sqdist p q) = rdot (diff (Q2Rp p) (Q2Rp q)) (diff (Q2Rp p) (Q2Rp q)).
Proof.
  induction p as [|a p IH]; intros [|b q]; cbn; auto using Q2R_0'.
  rewrite Q2R_plus, Q2R_mult, Q2R_minus, IH. reflexivity.
Qed.
Lemma distance_real p q : distance (Q2Rp p) (Q2Rp q) = sqrt (Q2R (sqdist p q)).
Proof. rewrite sqdist_real. reflexivity. Qed.
Lemma dist_le_real p q d : dist_le p q d = true <-> distance (Q2Rp p) (Q2Rp q) <= Q2R d.
Proof.
  rewrite dist_le_iff, distance_real.
  assert (Hs : 0 <= Q2R (sqdist p q)) by (rewrite sqdist_real; apply rdot_sq_nonneg).
  split.
  - intros [H1 H2]. apply Qle_Rle in H1, H2. rewrite Q2R_0' in H1. rewrite Q2R_mult in H2.
    rewrite <- (sqrt_square (Q2R d)) by auto. apply sqrt_le_1_alt; auto.
  - intros H. pose proof (sqrt_pos (Q2R (sqdist p q))).
    split; apply Rle_Qle; rewrite ?Q2R_0', ?Q2R_mult; [lra|].
    rewrite <- (sqrt_sqrt (Q2R (sqdist p q))) by auto. nra.
Qed.
Lemma dist_lt_real p q d : dist_lt p q d = true <-> distance (Q2Rp p) (Q2Rp q) < Q2R d.
Proof.
  rewrite dist_lt_iff, distance_real.
  assert (Hs : 0 <= Q2R (sqdist p q)) by (rewrite sqdist_real; apply rdot_sq_nonneg).
  split.
  - intros [H1 H2]. apply Qlt_Rlt in H1, H2. rewrite Q2R_0' in H1. rewrite Q2R_mult in H2.
    rewrite <- (sqrt_square (Q2R d)) by lra. apply sqrt_lt_1_alt; auto.
  - intros H. pose proof (sqrt_pos (Q2R (sqdist p q))).
    split; apply Rlt_Qlt; rewrite ?Q2R_0', ?Q2R_mult; [lra|].
    rewrite <- (sqrt_sqrt (Q2R (sqdist p q))) by auto. nra.
Qed.
Lemma near_real d p ps : ps <> [] ->
  (near d p ps = true <-> get_min_distance (Q2Rp p) (map Q2Rp ps) <= Q2R d).
Proof.
  intros Hne. unfold near. rewrite existsb_exists.
  assert (Hr : cdist_row (Q2Rp p) (map Q2Rp ps) <> []) by (destruct ps; [congruence|discriminate]).
  destruct (amin_spec _ Hr) as [A1 A2]. unfold get_min_distance. split.
  - intros (q & Hq & H). apply dist_le_real in H. eapply Rle_trans; [|exact H].
    apply A2. unfold cdist_row. rewrite map_map. apply (in_map (fun x => distance (Q2Rp p) (Q2Rp x))); auto.
  - intros H. unfold cdist_row in A1. rewrite map_map in A1. apply in_map_iff in A1.
    destruct A1 as (q & E & Hq). exists q. split; auto. apply dist_le_real. rewrite E.
    unfold cdist_row in H. rewrite map_map in H. exact H.
Qed.
Lemma rfirst_min_unique l i j : rfirst_min l i -> rfirst_min l j -> i = j.
Proof.
  intros (A1 & A2 & A3) (B1 & B2 & B3).
  destruct (lt_eq_lt_dec i j) as [[H|H]|H]; auto.
  - specialize (B3 i H). specialize (A2 j B1). lra.
  - specialize (A3 j H). specialize (B2 i A1). lra.
Qed.
Lemma rfirst_max_unique l i j : rfirst_max l i -> rfirst_max l j -> i = j.
Proof.
  intros (A1 & A2 & A3) (B1 & B2 & B3).
  destruct (lt_eq_lt_dec i j) as [[H|H]|H]; auto.
  - specialize (B3 i H). specialize (A2 j B1). lra.
  - specialize (A3 j H). specialize (B2 i A1). lra.
Qed.
Lemma sq_nth p ps i : (i < length ps)%nat -> nth i (map (sqdist p) ps) 0%Q = sqdist p (nth i ps []).
Proof. intros H. rewrite (nth_indep _ 0%Q (sqdist p [])) by (rewrite map_length; auto). apply map_nth. Qed.
Lemma dist_nth p ps i : (i < length ps)%nat ->
  nth i (cdist_row (Q2Rp p) (map Q2Rp ps)) 0 = sqrt (Q2R (sqdist p (nth i ps []))).
Proof.
  intros H. rewrite nth_cdist_row by (rewrite map_length; auto).
  rewrite <- distance_real. f_equal. rewrite (nth_indep _ [] (Q2Rp [])) by (rewrite map_length; auto). apply map_nth.
Qed.
Lemma nearest_real p ps : ps <> [] ->
  nearest p ps = snd (get_min_distance_and_index (Q2Rp p) (map Q2Rp ps)).
Proof.
  intros Hne. cbn [snd get_min_distance_and_index].
  assert (Hr : cdist_row (Q2Rp p) (map Q2Rp ps) <> []) by (destruct ps; [congruence|discriminate]).
  assert (HL : length (cdist_row (Q2Rp p) (map Q2Rp ps)) = length ps) by (unfold cdist_row; rewrite !map_length; auto).
  apply rfirst_min_unique with (l := cdist_row (Q2Rp p) (map Q2Rp ps)); [|apply rargmin_spec; auto].
  assert (Hm : map (sqdist p) ps <> []) by (destruct ps; [congruence|discriminate]).
  destruct (argmin_spec _ Hm) as (H1 & H2 & H3). fold (nearest p ps) in *.
  rewrite map_length in H1, H2. unfold rfirst_min. rewrite HL. split; auto.
  assert (Hs : forall i, 0 <= Q2R (sqdist p (nth i ps []))) by (intros; rewrite sqdist_real; apply rdot_sq_nonneg).
  split; intros i Hi; rewrite !dist_nth by lia.
  - specialize (H2 i Hi). rewrite !sq_nth in H2 by lia. apply sqrt_le_1_alt, Qle_Rle; auto.
  - specialize (H3 i Hi). rewrite !sq_nth in H3 by lia.
    apply sqrt_lt_1_alt. split; [apply Hs|]. apply Qlt_Rlt; auto.
Qed.
Lemma farthest_real p ps : ps <> [] ->
  farthest p ps = snd (get_max_distance_and_index (Q2Rp p) (map Q2Rp ps)).
Proof.
  intros Hne. cbn [snd get_max_distance_and_index].
  assert (Hr : cdist_row (Q2Rp p) (map Q2Rp ps) <> []) by (destruct ps; [congruence|discriminate]).
  assert (HL : length (cdist_row (Q2Rp p) (map Q2Rp ps)) = length ps) by (unfold cdist_row; rewrite !map_length; auto).
  apply rfirst_max_unique with (l := cdist_row (Q2Rp p) (map Q2Rp ps)); [|apply rargmax_spec; auto].
  assert (Hm : map (sqdist p) ps <> []) by (destruct ps; [congruence|discriminate]).
  destruct (argmax_spec _ Hm) as (H1 & H2 & H3). fold (farthest p ps) in *.
  rewrite map_length in H1, H2. unfold rfirst_max. rewrite HL. split; auto.
  assert (Hs : forall i, 0 <= Q2R (sqdist p (nth i ps []))) by (intros; rewrite sqdist_real; apply rdot_sq_nonneg).
  split; intros i Hi; rewrite !dist_nth by lia.
  - specialize (H2 i Hi). rewrite !sq_nth in H2 by lia. apply sqrt_le_1_alt, Qle_Rle; auto.
  - specialize (H3 i Hi). rewrite !sq_nth in H3 by lia.
    apply sqrt_lt_1_alt. split; [apply Hs|]. apply Qlt_Rlt; auto.
Qed.
