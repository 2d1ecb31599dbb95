(** * Facts about the radial basis function models. *)
From Verif Require Export ModelRBF GeomProofs.
Open Scope R_scope.

(** ** Basis functions *)
Lemma sign_pos r : 0 < r -> sign r = 1.
Proof. unfold sign; destruct (Rlt_dec r 0), (Rlt_dec 0 r); intros; lra. Qed.
Lemma sign_0 : sign 0 = 0.
Proof. unfold sign; destruct (Rlt_dec 0 0); lra. Qed.
Lemma tps_pos r : 0 < r -> thin_plate_spline r = r * r * ln r.
Proof. intros H. unfold thin_plate_spline, xlogy. rewrite sign_pos by auto. destruct (Req_EM_T 1 0); lra. Qed.
Lemma tps_0 : thin_plate_spline 0 = 0.
Proof. unfold thin_plate_spline. ring. Qed.
Lemma ln_mono a b : 0 < a -> a <= b -> ln a <= ln b.
Proof. intros H [L| ->]; [left; apply ln_increasing; auto|lra]. Qed.
Lemma ln_nonneg a : 1 <= a -> 0 <= ln a.
Proof. intros H. rewrite <- ln_1. apply ln_mono; lra. Qed.
Lemma cubic_mono r s : 0 <= r -> r <= s -> 0 <= cubic r <= cubic s.
Proof.
  unfold cubic; intros. assert (r * r <= s * s) by nra. split; [apply Rmult_le_pos; nra|].
  apply Rmult_le_compat; nra.
Qed.
Lemma mq_mono g r s : 0 <= r -> r <= s -> Rabs g <= multiquadric g r <= multiquadric g s.
Proof.
  unfold multiquadric; intros. split.
  - rewrite <- sqrt_Rsqr_abs. unfold Rsqr. apply sqrt_le_1_alt. nra.
  - apply sqrt_le_1_alt. nra.
Qed.
Lemma exp_mono a b : a <= b -> exp a <= exp b.
Proof. intros [L| ->]; [left; apply exp_increasing; auto|lra]. Qed.
Lemma gauss_mono g r s : 0 <= g -> 0 <= r -> r <= s -> 0 < gaussian g s <= gaussian g r /\ gaussian g r <= 1.
Proof.
  unfold gaussian; intros. split; [split; [apply exp_pos|apply exp_mono]|].
  - assert (r * r <= s * s) by nra. nra.
  - rewrite <- exp_0. apply exp_mono. assert (0 <= r * r) by nra. nra.
Qed.
Lemma tps_mono r s : 1 <= r -> r <= s -> 0 <= thin_plate_spline r <= thin_plate_spline s.
Proof.
  intros. rewrite !tps_pos by lra. pose proof (ln_nonneg r H). pose proof (ln_mono r s ltac:(lra) H0).
  split; [apply Rmult_le_pos; nra|]. apply Rmult_le_compat; nra.
Qed.
Lemma tps_neg r : 0 < r < 1 -> thin_plate_spline r < 0.
Proof.
  intros. rewrite tps_pos by lra. assert (ln r < 0) by (rewrite <- ln_1; apply ln_increasing; lra).
  assert (0 < r * r) by nra. nra.
Qed.
(** No jump at 0. *)
Lemma ln_le_sub1 y : 0 < y -> ln y <= y - 1.
Proof.
  intros H. destruct (Rle_dec (ln y) (y - 1)); auto.
  assert (L : y - 1 < ln y) by lra. apply exp_increasing in L. rewrite exp_ln in L by auto.
  pose proof (exp_ineq1_le (y - 1)). lra.
Qed.
Lemma tps_small r : 0 <= r <= 1 -> Rabs (thin_plate_spline r) <= r.
Proof.
  intros [[H|<-] H1].
  - rewrite tps_pos by auto.
    assert (ln r <= 0) by (pose proof (ln_le_sub1 r H); lra).
    assert (Hi : - ln r <= / r - 1).
    { rewrite <- ln_Rinv by auto. apply ln_le_sub1. apply Rinv_0_lt_compat; auto. }
    assert (r * / r = 1) by (apply Rinv_r; lra).
    rewrite Rabs_left1 by nra.
    assert (r * r * - ln r <= r * r * (/ r - 1)) by (apply Rmult_le_compat_l; nra).
    nra.
  - rewrite tps_0, Rabs_R0. lra.
Qed.

(** ** Rows of the matrix *)
(** Values at [x] of the polynomial basis: coordinates and 1, just 1, or nothing. *)
Definition ptail (kind : rbf_kind) (x : rpoint) : list R :=
  match kind with Cubic | ThinPlate => x ++ [1] | Linear | Multiquadric => [1] | Gaussian => [] end.
Definition phi_row (kind : rbf_kind) (gamma : R) (x : rpoint) (nodes : list rpoint) : list R :=
  map (fun y => rbf_function kind gamma (distance x y)) nodes.

Lemma tail_length kind n x : length x = n -> length (ptail kind x) = size_P kind n.
Proof. intros H. destruct kind; cbn; rewrite ?app_length; cbn; lia. Qed.

Lemma P_matrix_tail kind n nodes : (forall x, In x nodes -> length x = n) ->
  P_matrix (size_P kind n) n nodes = map (ptail kind) nodes.
Proof.
  intros H. unfold P_matrix. destruct kind; cbn [size_P].
  1,2: rewrite Nat.eqb_refl; reflexivity.
  1,2: destruct (1 =? n + 1)%nat eqn:E; [|reflexivity];
       apply Nat.eqb_eq in E; apply map_ext_in; intros x Hx; specialize (H x Hx);
       destruct x; [reflexivity|cbn in H; lia].
  replace (0 =? n + 1)%nat with false by (symmetry; apply Nat.eqb_neq; lia). reflexivity.
Qed.

Definition exact_rows (kind : rbf_kind) (gamma : R) (n : nat) (nodes : list rpoint) : mat :=
  map (fun x => phi_row kind gamma x nodes ++ ptail kind x) nodes ++
  map (fun j => map (fun x => nth j (ptail kind x) 0) nodes ++ zeros (size_P kind n)) (seq 0 (size_P kind n)).

Lemma map2_map {A B C D E} (f : B -> C -> D) (g : A -> B) (h : A -> C) (l : list A) (E' : E) :
  map2 f (map g l) (map h l) = map (fun x => f (g x) (h x)) l.
Proof. induction l; cbn; congruence. Qed.
Lemma map2_repeat {A B C} (f : A -> B -> C) (l : list A) b m : length l = m ->
  map2 f l (repeat b m) = map (fun a => f a b) l.
Proof. intros <-. induction l; cbn; congruence. Qed.

Lemma rbf_matrix_rows kind gamma n nodes : (forall x, In x nodes -> length x = n) ->
  rbf_matrix_exact kind gamma n nodes = exact_rows kind gamma n nodes.
Proof.
  intros H. unfold rbf_matrix_exact, exact_rows. rewrite (P_matrix_tail kind n nodes H).
  assert (HP : Phi_matrix (rbf_function kind gamma) nodes = map (fun x => phi_row kind gamma x nodes) nodes).
  { unfold Phi_matrix, cdist, cdist_row, phi_row. rewrite map_map. apply map_ext. intros x. apply map_map. }
  rewrite HP. destruct (0 <? size_P kind n)%nat eqn:E.
  - unfold vstack, hstack. rewrite map2_map by exact tt. f_equal.
    unfold transpose. rewrite map2_repeat by (rewrite map_length, seq_length; auto).
    rewrite map_map. apply map_ext. intros j. rewrite map_map. reflexivity.
  - apply Nat.ltb_ge in E. assert (Hz : size_P kind n = 0%nat) by lia. rewrite Hz. cbn [seq map].
    rewrite app_nil_r. apply map_ext. intros x.
    assert (ptail kind x = []) as ->; [|rewrite app_nil_r; auto].
    destruct kind; cbn in *; try lia; auto.
Qed.

Lemma nth_map_in {A B} (f : A -> B) l i da db : (i < length l)%nat -> nth i (map f l) db = f (nth i l da).
Proof. intros H. rewrite (nth_indep _ db (f da)) by (rewrite map_length; auto). apply map_nth. Qed.

Section Matrix.
  Variables (kind : rbf_kind) (gamma : R) (n : nat) (nodes : list rpoint).
  Hypothesis Hn : forall x, In x nodes -> length x = n.
  Let k := length nodes.
  Let p := size_P kind n.
  Let A := rbf_matrix_exact kind gamma n nodes.

  Lemma exact_length : length A = (k + p)%nat.
  Proof. unfold A. rewrite rbf_matrix_rows by auto. unfold exact_rows. rewrite app_length, !map_length, seq_length. reflexivity. Qed.
  Lemma exact_row_top i : (i < k)%nat ->
    nth i A [] = phi_row kind gamma (nth i nodes []) nodes ++ ptail kind (nth i nodes []).
  Proof.
    intros Hi. unfold A. rewrite rbf_matrix_rows by auto. unfold exact_rows.
    rewrite app_nth1 by (rewrite map_length; auto).
    rewrite (nth_map_in _ _ _ ([] : rpoint)) by auto. reflexivity.
  Qed.
  Lemma exact_row_bottom j : (j < p)%nat ->
    nth (k + j) A [] = map (fun x => nth j (ptail kind x) 0) nodes ++ zeros p.
  Proof.
    intros Hj. unfold A. rewrite rbf_matrix_rows by auto. unfold exact_rows.
    rewrite app_nth2 by (rewrite map_length; unfold k; lia). rewrite map_length.
    replace (k + j - length nodes)%nat with j by (unfold k; lia).
    rewrite (nth_map_in _ _ _ 0%nat) by (rewrite seq_length; auto). rewrite seq_nth by auto. reflexivity.
  Qed.
  Lemma node_len i : (i < k)%nat -> length (nth i nodes []) = n.
  Proof. intros H. apply Hn, nth_In, H. Qed.
  Lemma phi_row_length x : length (phi_row kind gamma x nodes) = k.
  Proof. apply map_length. Qed.

  Lemma exact_row_length i : (i < k + p)%nat -> length (nth i A []) = (k + p)%nat.
  Proof.
    intros Hi. destruct (Nat.lt_ge_cases i k).
    - rewrite exact_row_top, app_length, phi_row_length, (tail_length _ n) by (auto; apply node_len; auto). reflexivity.
    - replace i with (k + (i - k))%nat by lia. rewrite exact_row_bottom by lia.
      rewrite app_length, map_length. unfold zeros. rewrite repeat_length. reflexivity.
  Qed.
  Lemma exact_phi i j : (i < k)%nat -> (j < k)%nat ->
    ent A i j = rbf_function kind gamma (distance (nth i nodes []) (nth j nodes [])).
  Proof.
    intros Hi Hj. unfold ent. rewrite exact_row_top, app_nth1 by (rewrite ?phi_row_length; auto).
    unfold phi_row. rewrite (nth_map_in _ _ _ ([] : rpoint)) by auto. reflexivity.
  Qed.
  Lemma exact_right i j : (i < k)%nat -> (j < p)%nat -> ent A i (k + j) = nth j (ptail kind (nth i nodes [])) 0.
  Proof.
    intros Hi Hj. unfold ent. rewrite exact_row_top by auto. rewrite app_nth2; rewrite phi_row_length; [|lia].
    f_equal. lia.
  Qed.
  Lemma exact_bottom i j : (i < p)%nat -> (j < k)%nat -> ent A (k + i) j = nth i (ptail kind (nth j nodes [])) 0.
  Proof.
    intros Hi Hj. unfold ent. rewrite exact_row_bottom, app_nth1 by (rewrite ?map_length; auto).
    rewrite (nth_map_in _ _ _ ([] : rpoint)) by auto. reflexivity.
  Qed.
  Lemma nth_zeros m i : nth i (zeros m) 0 = 0.
  Proof. unfold zeros. destruct (Nat.lt_ge_cases i m); [apply nth_repeat|apply nth_overflow; rewrite repeat_length; auto]. Qed.
  Lemma exact_corner i j : (i < p)%nat -> ent A (k + i) (k + j) = 0.
  Proof.
    intros Hi. unfold ent. rewrite exact_row_bottom by auto. rewrite app_nth2; rewrite map_length; [|unfold k; lia].
    apply nth_zeros.
  Qed.
  Lemma ent_outside i j : (k + p <= i)%nat \/ (k + p <= j)%nat -> ent A i j = 0.
  Proof.
    intros H. unfold ent. destruct (Nat.lt_ge_cases i (k + p)).
    - apply nth_overflow. rewrite exact_row_length by auto. lia.
    - rewrite (nth_overflow A) by (rewrite exact_length; auto). destruct j; auto.
  Qed.
  Lemma exact_symmetric i j : ent A i j = ent A j i.
  Proof.
    destruct (Nat.lt_ge_cases i (k + p)), (Nat.lt_ge_cases j (k + p));
      try (rewrite !ent_outside by lia; reflexivity).
    destruct (Nat.lt_ge_cases i k), (Nat.lt_ge_cases j k).
    - rewrite !exact_phi by auto. rewrite distance_sym. reflexivity.
    - replace j with (k + (j - k))%nat by lia. rewrite exact_right, exact_bottom by lia. reflexivity.
    - replace i with (k + (i - k))%nat by lia. rewrite exact_right, exact_bottom by lia. reflexivity.
    - replace i with (k + (i - k))%nat by lia. replace j with (k + (j - k))%nat by lia.
      rewrite !exact_corner by lia. reflexivity.
  Qed.
End Matrix.

Lemma zero_tiny1_0 eps : zero_tiny1 eps 0 = 0.
Proof. unfold zero_tiny1. destruct (Rltb (Rabs 0) eps); auto. Qed.
Lemma ent_zero_tiny eps A i j : ent (zero_tiny eps A) i j = zero_tiny1 eps (ent A i j).
Proof.
  unfold ent, zero_tiny. rewrite (map_nth (map (zero_tiny1 eps)) A [] i : nth i (map _ A) [] = _).
  rewrite <- (zero_tiny1_0 eps) at 1. apply map_nth.
Qed.
Lemma zero_tiny1_cases eps a : (Rabs a < eps /\ zero_tiny1 eps a = 0) \/ (eps <= Rabs a /\ zero_tiny1 eps a = a).
Proof.
  unfold zero_tiny1. destruct (Rltb (Rabs a) eps) eqn:E.
  - apply Rltb_lt in E. auto.
  - apply Rltb_ge in E. auto.
Qed.
Lemma zero_tiny1_err eps a : 0 < eps -> Rabs (zero_tiny1 eps a - a) < eps.
Proof.
  intros H. destruct (zero_tiny1_cases eps a) as [[H1 ->]|[H1 ->]].
  - replace (0 - a) with (- a) by ring. rewrite Rabs_Ropp. auto.
  - replace (a - a) with 0 by ring. rewrite Rabs_R0. auto.
Qed.

(** ** Evaluation *)
Lemma rsum_map_seq_dot u : forall v m, length u = m -> length v = m ->
  rsum (map (fun i => nth i u 0 * nth i v 0) (seq 0 m)) = rdot u v.
Proof.
  induction u as [|a u IH]; intros [|b v] [|m] H H'; cbn in *; try discriminate; auto.
  rewrite <- seq_shift, map_map. cbn. specialize (IH v m ltac:(lia) ltac:(lia)). unfold rsum in IH.
  rewrite IH. reflexivity.
Qed.
Lemma removelast_len (l : list R) : length (removelast l) = (length l - 1)%nat.
Proof. induction l as [|a [|b l] IH]; cbn in *; auto. rewrite IH. lia. Qed.
Lemma rsum_dot_prefix h x : forall m, (m <= length x)%nat -> length h = S m ->
  rsum (map (fun i => nth i h 0 * nth i x 0) (seq 0 m)) = rdot (firstn m x) (removelast h).
Proof.
  intros m Hm Hh. rewrite rdot_comm.
  rewrite <- (rsum_map_seq_dot (removelast h) (firstn m x) m).
  - apply f_equal. apply map_ext_in. intros i Hi. apply in_seq in Hi.
    assert (E : h = removelast h ++ [last h 0]) by (apply app_removelast_last; destruct h; [cbn in Hh; lia|discriminate]).
    rewrite E at 1. rewrite app_nth1 by (rewrite removelast_len; lia). f_equal.
    rewrite <- (firstn_skipn m x) at 1. rewrite app_nth1 by (rewrite firstn_length; lia). reflexivity.
  - rewrite removelast_len. lia.
  - rewrite firstn_length. lia.
Qed.

Lemma tail_dot (x h : list R) : length h = S (length x) ->
  rdot (x ++ [1]) h = rdot x (removelast h) + last h 0.
Proof.
  intros H. assert (E : h = removelast h ++ [last h 0])
    by (apply app_removelast_last; destruct h; [cbn in H; lia|discriminate]).
  rewrite E at 1. rewrite rdot_app by (rewrite removelast_len; lia). cbn. ring.
Qed.

Lemma evaluate_dot kind gamma x n k nodes lam h :
  length x = n -> length nodes = k -> length lam = k -> length h = size_P kind n ->
  evaluate_rbf kind gamma x n k nodes lam h =
  rdot (phi_row kind gamma x nodes) lam + rdot (ptail kind x) h.
Proof.
  intros Hx Hk Hl Hh. unfold evaluate_rbf.
  assert (E1 : rsum (map (fun i => nth i lam 0 * rbf_function kind gamma (distance x (nth i nodes []))) (seq 0 k))
               = rdot (phi_row kind gamma x nodes) lam).
  { rewrite rdot_comm. rewrite <- (rsum_map_seq_dot lam (phi_row kind gamma x nodes) k); auto;
      [|unfold phi_row; rewrite map_length; auto].
    apply f_equal. apply map_ext_in. intros i Hi. apply in_seq in Hi. f_equal.
    unfold phi_row. rewrite (nth_map_in _ _ _ ([] : rpoint)) by lia. reflexivity. }
  rewrite E1. cbn [rsum fold_right].
  assert (E2 : rsum (map (fun i => nth i h 0 * nth i x 0) (seq 0 (size_P kind n - 1))) +
               ((if (0 <? size_P kind n)%nat then last h 0 else 0) + 0) = rdot (ptail kind x) h).
  { destruct kind; cbn [size_P ptail] in *.
    1,2: replace (0 <? n + 1)%nat with true by (symmetry; apply Nat.ltb_lt; lia);
         replace (n + 1 - 1)%nat with n by lia;
         rewrite rsum_dot_prefix by lia; rewrite firstn_all2 by lia;
         rewrite tail_dot by lia; ring.
    1,2: destruct h as [|a [|b h]]; try discriminate; cbn; ring.
    destruct h; [|discriminate]. cbn. ring. }
  rewrite E2. reflexivity.
Qed.

Lemma bulk_spec kind gamma xs n k nodes lam h :
  (forall x, In x xs -> length x = n) -> length nodes = k -> length lam = k -> length h = size_P kind n ->
  bulk_evaluate_rbf kind gamma xs n k nodes lam h =
  map (fun x => evaluate_rbf kind gamma x n k nodes lam h) xs.
Proof.
  intros Hx Hk Hl Hh. unfold bulk_evaluate_rbf.
  assert (E : forall l, (forall x, In x l -> length x = n) ->
    map2 (fun a b => a + b + (if (0 <? size_P kind n)%nat then last h 0 else 0))
      (mat_vec (map (map (rbf_function kind gamma)) (cdist l nodes)) lam)
      (if (degree_polynomial kind =? 1)%Z then mat_vec l (removelast h) else zeros (length l)) =
    map (fun x => evaluate_rbf kind gamma x n k nodes lam h) l).
  { clear xs Hx. induction l as [|x l IH]; intros Hx.
    - destruct (degree_polynomial kind =? 1)%Z; reflexivity.
    - specialize (IH (fun y Hy => Hx y (or_intror Hy))). specialize (Hx x (or_introl eq_refl)).
      cbn [map]. rewrite <- IH. rewrite (evaluate_dot kind gamma x n k) by auto.
      assert (Ep : rdot (map (rbf_function kind gamma) (cdist_row x nodes)) lam = rdot (phi_row kind gamma x nodes) lam).
      { unfold cdist_row, phi_row. rewrite map_map. reflexivity. }
      destruct kind; cbn [degree_polynomial Z.eqb size_P ptail] in *;
        cbn [mat_vec cdist map zeros repeat length map2]; rewrite Ep; (apply (f_equal2 cons); [|reflexivity]).
      1,2: replace (0 <? n + 1)%nat with true by (symmetry; apply Nat.ltb_lt; lia);
           rewrite tail_dot by lia; ring.
      1,2: destruct h as [|a [|b h]]; try discriminate; cbn; ring.
      destruct h; [|discriminate]. cbn. ring. }
  apply E. exact Hx.
Qed.

(** ** Interpolation *)
Lemma nth_mat_vec A x i : (i < length A)%nat -> nth i (mat_vec A x) 0 = rdot (nth i A []) x.
Proof. intros H. unfold mat_vec. rewrite (nth_map_in _ _ _ ([] : rpoint)) by auto. reflexivity. Qed.

Definition rows_value (kind : rbf_kind) (gamma : R) (nodes : list rpoint) (s : list R) (i : nat) : R :=
  rdot (phi_row kind gamma (nth i nodes []) nodes) (firstn (length nodes) s) +
  rdot (ptail kind (nth i nodes [])) (skipn (length nodes) s).

Lemma split_dot a b s k : length a = k -> (k <= length s)%nat ->
  rdot (a ++ b) s = rdot a (firstn k s) + rdot b (skipn k s).
Proof.
  intros Ha Hs. rewrite <- (firstn_skipn k s) at 1. apply rdot_app. rewrite firstn_length. lia.
Qed.

Lemma exact_top_dot kind gamma n nodes s i : (forall x, In x nodes -> length x = n) ->
  (i < length nodes)%nat -> length s = (length nodes + size_P kind n)%nat ->
  rdot (nth i (rbf_matrix_exact kind gamma n nodes) []) s =
  evaluate_rbf kind gamma (nth i nodes []) n (length nodes) nodes
    (firstn (length nodes) s) (skipn (length nodes) s).
Proof.
  intros Hn Hi Hs. rewrite exact_row_top by auto.
  rewrite (split_dot _ _ s (length nodes)) by (rewrite ?phi_row_length; auto; lia).
  rewrite evaluate_dot; auto; [apply Hn, nth_In; auto|rewrite firstn_length; lia|rewrite skipn_length; lia].
Qed.
Lemma rdot_tiny_bound eps r : forall s, 0 <= eps -> length r = length s ->
  Rabs (rdot (map (zero_tiny1 eps) r) s - rdot r s) <= eps * rsum (map Rabs s).
Proof.
  intros s He. revert s. induction r as [|a r IH]; intros [|b s] H; try discriminate.
  - cbn. replace (0 - 0) with 0 by ring. rewrite Rabs_R0. lra.
  - cbn [map rdot rsum fold_right] in *. specialize (IH s ltac:(cbn in H; lia)).
    replace (zero_tiny1 eps a * b + rdot (map (zero_tiny1 eps) r) s - (a * b + rdot r s))
      with ((zero_tiny1 eps a - a) * b + (rdot (map (zero_tiny1 eps) r) s - rdot r s)) by ring.
    eapply Rle_trans; [apply Rabs_triang|]. rewrite Rabs_mult.
    assert (Rabs (zero_tiny1 eps a - a) <= eps).
    { destruct (zero_tiny1_cases eps a) as [[H1 ->]|[H1 ->]].
      - replace (0 - a) with (- a) by ring. rewrite Rabs_Ropp. lra.
      - replace (a - a) with 0 by ring. rewrite Rabs_R0. auto. }
    pose proof (Rabs_pos b). fold (rsum (map Rabs s)).
    assert (Rabs (zero_tiny1 eps a - a) * Rabs b <= eps * Rabs b) by (apply Rmult_le_compat_r; auto).
    lra.
Qed.
Lemma rdot_tiny_exact eps r : forall s, (forall a, In a r -> a = 0 \/ eps <= Rabs a) ->
  rdot (map (zero_tiny1 eps) r) s = rdot r s.
Proof.
  induction r as [|a r IH]; intros [|b s] H; cbn; auto.
  rewrite IH by (intros; apply H; right; auto). f_equal.
  destruct (zero_tiny1_cases eps a) as [[H1 ->]|[H1 ->]]; auto.
  destruct (H a (or_introl eq_refl)) as [->|]; [auto|lra].
Qed.
Lemma nth_zero_tiny eps A i : nth i (zero_tiny eps A) [] = map (zero_tiny1 eps) (nth i A []).
Proof. exact (map_nth (map (zero_tiny1 eps)) A [] i). Qed.
