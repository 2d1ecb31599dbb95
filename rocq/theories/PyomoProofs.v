(** * Proofs about the optimization problems. *)
From Verif Require Export SpecPyomo AuxProofs.
From Coq Require Import Lra Lia.
Open Scope R_scope.

(** ** Sums *)
Lemma sumn_0 f : sumn 0 f = 0. Proof. reflexivity. Qed.
Lemma rsum_app a b : rsum (a ++ b) = rsum a + rsum b.
Proof. unfold rsum. induction a; cbn; [ring|]. rewrite IHa. ring. Qed.
Lemma sumn_S m f : sumn (S m) f = sumn m f + f m.
Proof. unfold sumn. rewrite seq_S, map_app, rsum_app. cbn. ring. Qed.
Lemma sumn_ext m f g : (forall i, (i < m)%nat -> f i = g i) -> sumn m f = sumn m g.
Proof. induction m; intros H; [reflexivity|]. rewrite !sumn_S, IHm, H by (auto; lia). reflexivity. Qed.
Lemma sumn_plus m f g : sumn m (fun i => f i + g i) = sumn m f + sumn m g.
Proof. induction m; [cbn; ring|]. rewrite !sumn_S, IHm. ring. Qed.
Lemma sumn_scale m a f : sumn m (fun i => a * f i) = a * sumn m f.
Proof. induction m; [cbn; ring|]. rewrite !sumn_S, IHm. ring. Qed.
Lemma sumn_scale_r m a f : sumn m (fun i => f i * a) = sumn m f * a.
Proof. induction m; [cbn; ring|]. rewrite !sumn_S, IHm. ring. Qed.
Lemma sumn_zero m : sumn m (fun _ => 0) = 0.
Proof. induction m; [reflexivity|]. rewrite sumn_S, IHm. ring. Qed.
Lemma sumn_swap m q f : sumn m (fun i => sumn q (fun j => f i j)) = sumn q (fun j => sumn m (fun i => f i j)).
Proof.
  induction m; [cbn; rewrite sumn_zero; reflexivity|]. rewrite sumn_S, IHm.
  rewrite <- sumn_plus. apply sumn_ext. intros. rewrite sumn_S. reflexivity.
Qed.
Lemma sumn_split a b f : sumn (a + b) f = sumn a f + sumn b (fun i => f (a + i)%nat).
Proof.
  induction b; [rewrite Nat.add_0_r; cbn; ring|]. rewrite Nat.add_succ_r, !sumn_S, IHb. ring.
Qed.
Lemma sumn_dot u v m : length u = m -> length v = m -> sumn m (fun i => nth i u 0 * nth i v 0) = rdot u v.
Proof. intros. unfold sumn. apply rsum_map_seq_dot; auto. Qed.
Lemma sumn_le m f g : (forall i, (i < m)%nat -> f i <= g i) -> sumn m f <= sumn m g.
Proof.
  induction m; intros H; [cbn; lra|]. rewrite !sumn_S. pose proof (H m ltac:(lia)).
  pose proof (IHm (fun i Hi => H i ltac:(lia))). lra.
Qed.
Lemma sumn_abs m f : Rabs (sumn m f) <= sumn m (fun i => Rabs (f i)).
Proof.
  induction m; [cbn; rewrite Rabs_R0; lra|]. rewrite !sumn_S. eapply Rle_trans; [apply Rabs_triang|]. lra.
Qed.

(** ** Triangular form *)
Definition full_form (q : nat) (M : nat -> nat -> R) (u : nat -> R) : R :=
  sumn q (fun i => sumn q (fun j => M i j * (u i * u j))).
Lemma full_form_S q M u : full_form (S q) M u =
  full_form q M u + sumn q (fun i => (M i q + M q i) * (u i * u q)) + M q q * (u q * u q).
Proof.
  unfold full_form. rewrite sumn_S.
  rewrite (sumn_ext q _ (fun i => sumn q (fun j => M i j * (u i * u j)) + M i q * (u i * u q))) by (intros; apply sumn_S).
  rewrite sumn_plus, sumn_S.
  rewrite (sumn_ext q (fun i => (M i q + M q i) * (u i * u q)) (fun i => M i q * (u i * u q) + M q i * (u q * u i))) by (intros; ring).
  rewrite sumn_plus. ring.
Qed.
Lemma triangular_eq q (M : mat) u : symmetric_mat q M ->
  full_form q (Ainv_param M) u = full_form q (ent M) u.
Proof.
  induction q; intros H; [reflexivity|]. rewrite !full_form_S. rewrite IHq by (intros i j Hi Hj; apply H; lia).
  f_equal; [f_equal|].
  - apply sumn_ext. intros i Hi. unfold Ainv_param.
    replace (i =? q)%nat with false by (symmetry; apply Nat.eqb_neq; lia).
    replace (q =? i)%nat with false by (symmetry; apply Nat.eqb_neq; lia).
    replace (i <? q)%nat with true by (symmetry; apply Nat.ltb_lt; lia).
    replace (q <? i)%nat with false by (symmetry; apply Nat.ltb_ge; lia).
    rewrite (H q i) by lia. ring.
  - unfold Ainv_param. rewrite Nat.eqb_refl. reflexivity.
Qed.
Definition pick (a b i : nat) : R := if (i =? a)%nat then 1 else if (i =? b)%nat then 1 else 0.
Lemma sumn_pick q a f : (a < q)%nat -> sumn q (fun i => (if (i =? a)%nat then 1 else 0) * f i) = f a.
Proof.
  induction q; intros H; [lia|]. rewrite sumn_S. destruct (Nat.eq_dec a q) as [->|N].
  - rewrite Nat.eqb_refl. rewrite (sumn_ext q _ (fun _ => 0)).
    + rewrite sumn_zero. ring.
    + intros i Hi. replace (i =? q)%nat with false by (symmetry; apply Nat.eqb_neq; lia). ring.
  - rewrite IHq by lia. replace (q =? a)%nat with false by (symmetry; apply Nat.eqb_neq; lia). ring.
Qed.
Lemma pick_form q M a b : (a < q)%nat -> (b < q)%nat -> a <> b ->
  full_form q M (pick a b) = M a a + M a b + M b a + M b b.
Proof.
  intros Ha Hb N.
  assert (P : forall i, pick a b i = (if (i =? a)%nat then 1 else 0) + (if (i =? b)%nat then 1 else 0)).
  { intros i. unfold pick. destruct (Nat.eqb_spec i a), (Nat.eqb_spec i b); try lra. subst. congruence. }
  assert (S1 : forall f, sumn q (fun i => pick a b i * f i) = f a + f b).
  { intros f. rewrite (sumn_ext q _ (fun i => (if (i =? a)%nat then 1 else 0) * f i + (if (i =? b)%nat then 1 else 0) * f i)) by (intros; rewrite P; ring).
    rewrite sumn_plus, !sumn_pick by auto. reflexivity. }
  unfold full_form.
  rewrite (sumn_ext q _ (fun i => pick a b i * (M i a + M i b))).
  - rewrite (S1 (fun i => M i a + M i b)). ring.
  - intros i Hi. rewrite (sumn_ext q _ (fun j => pick a b j * (pick a b i * M i j))) by (intros; ring).
    rewrite (S1 (fun j => pick a b i * M i j)). ring.
Qed.
Lemma triangular_only q (M : mat) : (forall u, full_form q (Ainv_param M) u = full_form q (ent M) u) -> symmetric_mat q M.
Proof.
  intros H. assert (G : forall a b, (a < b)%nat -> (b < q)%nat -> ent M a b = ent M b a).
  { intros a b Hab Hb. specialize (H (pick a b)). rewrite !pick_form in H by lia. unfold Ainv_param in H.
    rewrite !Nat.eqb_refl in H.
    replace (a =? b)%nat with false in H by (symmetry; apply Nat.eqb_neq; lia).
    replace (b =? a)%nat with false in H by (symmetry; apply Nat.eqb_neq; lia).
    replace (a <? b)%nat with true in H by (symmetry; apply Nat.ltb_lt; lia).
    replace (b <? a)%nat with false in H by (symmetry; apply Nat.ltb_ge; lia). lra. }
  intros i j Hi Hj. destruct (Nat.lt_trichotomy i j) as [L|[->|L]]; auto. symmetry; auto.
Qed.

(** ** Radial terms *)
Lemma sq_dist_nonneg x y : 0 <= sq_dist x y.
Proof.
  unfold sq_dist. eapply Rle_trans; [apply Req_le; symmetry; apply (sumn_zero (length x))|].
  apply sumn_le. intros i _. cbv beta.
  pose proof (Rle_0_sqr (nth i x 0 - nth i y 0)) as H. unfold Rsqr in H. exact H.
Qed.
Lemma sq_dist_distance x : forall y, length x = length y -> sq_dist x y = distance x y * distance x y.
Proof.
  intros y H. unfold distance. rewrite sqrt_sqrt by apply rdot_sq_nonneg.
  rewrite <- (sumn_dot _ _ (length x)) by (apply map2_len; auto).
  unfold sq_dist. apply sumn_ext. intros i Hi.
  rewrite (map2_nth Rminus x y i 0 0 0) by auto. reflexivity.
Qed.
Lemma sq_sqrt_dist x y : length x = length y -> sqrt (sq_dist x y) = distance x y.
Proof. intros H. rewrite sq_dist_distance by auto. apply sqrt_square, distance_nonneg. Qed.

Lemma term_exact kind gamma x y : length x = length y ->
  phi_term 0 kind gamma x y = rbf_function kind gamma (distance x y).
Proof.
  intros H. unfold phi_term. cbv zeta. rewrite (sq_dist_distance x y H). pose proof (distance_nonneg x y) as Hd.
  set (r := distance x y) in *. destruct kind; cbn [rbf_function].
  - rewrite Rplus_0_l, sqrt_square by auto. reflexivity.
  - rewrite Rplus_0_r. destruct Hd as [Hd|<-].
    + rewrite tps_pos by auto. rewrite ln_mult by auto. field.
    + rewrite tps_0. ring.
  - rewrite Rplus_0_l, sqrt_square by auto. reflexivity.
  - unfold multiquadric. f_equal. ring.
  - unfold gaussian. f_equal. ring.
Qed.
Lemma product_exact kind gamma x y z :
  phi_product 0 kind gamma x y z = phi_term 0 kind gamma x y * phi_term 0 kind gamma x z.
Proof.
  unfold phi_product, phi_term. cbv zeta. pose proof (sq_dist_nonneg x y). pose proof (sq_dist_nonneg x z).
  destruct kind.
  - rewrite !Rplus_0_l, sqrt_mult by auto. ring.
  - ring.
  - rewrite !Rplus_0_l, sqrt_mult by auto. ring.
  - ring.
  - rewrite <- exp_plus. f_equal. ring.
Qed.

(** ** The shift *)
Definition shift_error (sh : R) (kind : rbf_kind) (d : R) : R :=
  match kind with
  | Cubic => 3/2 * sh * sqrt (sh + d) | ThinPlate => sh / 2 | Linear => sqrt sh
  | Multiquadric | Gaussian => 0
  end.
Lemma term_shift sh kind gamma x y : 0 <= sh ->
  Rabs (phi_term sh kind gamma x y - phi_term 0 kind gamma x y) <= shift_error sh kind (sq_dist x y).
Proof.
  intros Hs. unfold phi_term. cbv zeta. pose proof (sq_dist_nonneg x y) as Hd. set (d := sq_dist x y) in *.
  destruct kind; cbn [shift_error].
  - rewrite Rplus_0_l. set (s := sqrt (sh + d)). set (t := sqrt d).
    assert (Es : s * s = sh + d) by (apply sqrt_sqrt; lra). assert (Et : t * t = d) by (apply sqrt_sqrt; lra).
    assert (0 <= s) by apply sqrt_pos. assert (0 <= t) by apply sqrt_pos.
    assert (t <= s) by (apply sqrt_le_1_alt; lra).
    replace ((sh + d) * s - d * t) with ((s - t) * (s * s + s * t + t * t)) by (rewrite <- Es, <- Et; ring).
    assert (Esh : sh = (s - t) * (s + t)) by nra.
    assert (0 <= s * t) by nra. assert (t * t <= s * t) by nra. assert (s * t <= s * s) by nra.
    rewrite Rabs_right by (apply Rle_ge, Rmult_le_pos; lra).
    replace (3 / 2 * sh * s) with ((s - t) * (3 / 2 * (s * s + s * t))) by (rewrite Esh; field).
    apply Rmult_le_compat_l; lra.
  - rewrite Rplus_0_r. destruct Hd as [Hd| <-].
    2:{ rewrite !Rmult_0_l. replace (0 - 0) with 0 by ring. rewrite Rabs_R0. lra. }
    replace (d * (1 / 2) * ln (d + sh) - d * (1 / 2) * ln d) with (d / 2 * (ln (d + sh) - ln d)) by field.
    assert (L : ln (d + sh) - ln d = ln ((d + sh) / d)).
    { unfold Rdiv. rewrite ln_mult, ln_Rinv by (try lra; apply Rinv_0_lt_compat; lra). ring. }
    assert (0 <= ln (d + sh) - ln d) by (pose proof (ln_mono d (d + sh) Hd ltac:(lra)); lra).
    assert (ln (d + sh) - ln d <= sh / d).
    { rewrite L. eapply Rle_trans; [apply ln_le_sub1|].
      - apply Rmult_lt_0_compat; [lra|apply Rinv_0_lt_compat; lra].
      - right. field. lra. }
    rewrite Rabs_right by (apply Rle_ge, Rmult_le_pos; lra).
    replace (sh / 2) with (d / 2 * (sh / d)) by (field; lra). apply Rmult_le_compat_l; lra.
  - rewrite Rplus_0_l. set (s := sqrt (sh + d)). set (t := sqrt d). set (e := sqrt sh).
    assert (Es : s * s = sh + d) by (apply sqrt_sqrt; lra). assert (Et : t * t = d) by (apply sqrt_sqrt; lra).
    assert (Ee : e * e = sh) by (apply sqrt_sqrt; lra).
    assert (0 <= s) by apply sqrt_pos. assert (0 <= t) by apply sqrt_pos. assert (0 <= e) by apply sqrt_pos.
    assert (t <= s) by (apply sqrt_le_1_alt; lra). rewrite Rabs_right by lra.
    assert (s <= t + e); [|lra]. apply Rsqr_incr_0_var; [|lra]. unfold Rsqr. nra.
  - rewrite Rminus_diag_eq by reflexivity. rewrite Rabs_R0. lra.
  - rewrite Rminus_diag_eq by reflexivity. rewrite Rabs_R0. lra.
Qed.

(** ** Objectives *)
Section Objectives.
  Variables (kind : rbf_kind) (gamma : R) (n : nat) (nodes : list rpoint) (x : rpoint).
  Hypothesis Hd : in_dimension n nodes.
  Hypothesis Hx : length x = n.
  Local Notation k := (length nodes).
  Local Notation p := (size_P kind n).
  Local Notation nd i := (nth i nodes ([] : rpoint)).

  Lemma nd_len i : (i < k)%nat -> length (nd i) = n.
  Proof. intros H. apply Hd, nth_In, H. Qed.
  Lemma nth_phi i : (i < k)%nat -> nth i (phi_row kind gamma x nodes) 0 = phi_term 0 kind gamma x (nd i).
  Proof.
    intros H. unfold phi_row. rewrite (nth_map_in _ _ _ ([] : rpoint)) by auto.
    rewrite term_exact by (rewrite Hx, nd_len by auto; auto). reflexivity.
  Qed.

  (* the polynomial part of the objective *)
  Lemma min_rbf_split sh lam h : length lam = k -> length h = p ->
    min_rbf_obj sh kind gamma n nodes lam h x =
    sumn k (fun i => nth i lam 0 * phi_term sh kind gamma x (nd i)) + rdot (ptail kind x) h.
  Proof.
    intros Hl Hh. unfold min_rbf_obj. cbv zeta.
    assert (R : sumn k (fun i => nth i (lam ++ h) 0 * phi_term sh kind gamma x (nd i)) =
                sumn k (fun i => nth i lam 0 * phi_term sh kind gamma x (nd i))).
    { apply sumn_ext. intros i Hi. rewrite app_nth1 by (rewrite Hl; auto). reflexivity. }
    rewrite R.
    assert (A : forall j, nth (k + j) (lam ++ h) 0 = nth j h 0).
    { intros j. rewrite app_nth2 by lia. f_equal. lia. }
    assert (T : forall m, length h = S m -> length x = m ->
      sumn m (fun i => nth (k + i) (lam ++ h) 0 * nth i x 0) + nth (k + m) (lam ++ h) 0 = rdot (x ++ [1]) h).
    { intros m Hm Hxm. rewrite <- (sumn_dot (x ++ [1]) h (S m)) by (rewrite ?app_length; cbn; lia).
      rewrite sumn_S, A, (app_nth2 x [1] 0 (n:=m)), Hxm, Nat.sub_diag by lia. cbn [nth]. f_equal; [|ring].
      apply sumn_ext. intros i Hi. rewrite A, app_nth1 by lia. ring. }
    destruct kind; cbn [degree_polynomial ptail size_P] in *.
    - rewrite Rplus_assoc, (T n) by lia. reflexivity.
    - rewrite Rplus_assoc, (T n) by lia. reflexivity.
    - replace k with (k + 0)%nat at 2 by lia. rewrite A. destruct h as [|h0 [|]]; cbn in Hh; try lia. cbn. ring.
    - replace k with (k + 0)%nat at 2 by lia. rewrite A. destruct h as [|h0 [|]]; cbn in Hh; try lia. cbn. ring.
    - cbn. ring.
  Qed.
  Lemma min_rbf_exact lam h : length lam = k -> length h = p ->
    min_rbf_obj 0 kind gamma n nodes lam h x = model_at kind gamma nodes lam h x.
  Proof.
    intros Hl Hh. rewrite min_rbf_split by auto. unfold model_at. rewrite monomials_tail. f_equal.
    rewrite rdot_comm. fold (phi_row kind gamma x nodes).
    rewrite <- (sumn_dot _ _ k) by (auto; unfold phi_row; apply map_length).
    apply sumn_ext. intros i Hi. rewrite nth_phi by auto. reflexivity.
  Qed.
  Lemma min_rbf_shift sh lam h : 0 <= sh -> length lam = k -> length h = p ->
    Rabs (min_rbf_obj sh kind gamma n nodes lam h x - model_at kind gamma nodes lam h x) <=
    sumn k (fun i => Rabs (nth i lam 0) * shift_error sh kind (sq_dist x (nd i))).
  Proof.
    intros Hs Hl Hh. rewrite <- min_rbf_exact by auto. rewrite !min_rbf_split by auto.
    replace (_ - _) with (sumn k (fun i => nth i lam 0 * (phi_term sh kind gamma x (nd i) - phi_term 0 kind gamma x (nd i)))).
    - eapply Rle_trans; [apply sumn_abs|]. apply sumn_le. intros i Hi. rewrite Rabs_mult.
      apply Rmult_le_compat_l; [apply Rabs_pos|]. apply term_shift; auto.
    - rewrite (sumn_ext k _ (fun i => nth i lam 0 * phi_term sh kind gamma x (nd i) + -1 * (nth i lam 0 * phi_term 0 kind gamma x (nd i)))) by (intros; ring).
      rewrite sumn_plus, sumn_scale. ring.
  Qed.

  Variable M : mat.
  Hypothesis HM : length M = (k + p)%nat.
  Hypothesis HMr : forall r, In r M -> length r = (k + p)%nat.
  Local Notation u := (u_pi kind gamma nodes x).

  Lemma quad_full : quad_form M u = full_form (k + p) (ent M) (fun i => nth i u 0).
  Proof.
    pose proof (u_pi_length kind gamma n nodes x Hx) as Lu.
    rewrite quad_form_dot by (rewrite Lu; auto).
    rewrite <- (sumn_dot _ _ (k + p)) by (auto; unfold mat_vec; rewrite map_length; auto).
    unfold full_form. apply sumn_ext. intros i Hi. rewrite nth_mat_vec by (rewrite HM; auto).
    rewrite <- (sumn_dot _ _ (k + p)) by (auto; apply HMr, nth_In; rewrite HM; auto).
    rewrite <- sumn_scale. apply sumn_ext. intros j Hj. unfold ent. ring.
  Qed.

  Lemma tri_tail i j : (j < i)%nat -> Ainv_param M i j = 0.
  Proof.
    intros H. unfold Ainv_param. replace (i =? j)%nat with false by (symmetry; apply Nat.eqb_neq; lia).
    replace (i <? j)%nat with false by (symmetry; apply Nat.ltb_ge; lia). reflexivity.
  Qed.
  (* block decomposition of the triangular form *)
  Lemma tri_blocks a b (v : nat -> R) : full_form (a + b) (Ainv_param M) v =
    sumn a (fun i => sumn a (fun j => Ainv_param M i j * (v i * v j))) +
    sumn a (fun i => sumn b (fun j => Ainv_param M i (a + j)%nat * (v i * v (a + j)%nat))) +
    sumn b (fun i => sumn b (fun j => Ainv_param M (a + i)%nat (a + j)%nat * (v (a + i)%nat * v (a + j)%nat))).
  Proof.
    unfold full_form. rewrite sumn_split.
    rewrite (sumn_ext a _ (fun i => sumn a (fun j => Ainv_param M i j * (v i * v j)) + sumn b (fun j => Ainv_param M i (a + j)%nat * (v i * v (a + j)%nat)))) by (intros; apply sumn_split).
    rewrite sumn_plus. f_equal. apply sumn_ext. intros i Hi. rewrite sumn_split.
    rewrite (sumn_ext a _ (fun _ => 0)) by (intros; rewrite tri_tail by lia; ring). rewrite sumn_zero. ring.
  Qed.

  Lemma u_head i : (i < k)%nat -> nth i u 0 = phi_term 0 kind gamma x (nd i).
  Proof. intros H. rewrite u_pi_row, app_nth1 by (unfold phi_row; rewrite map_length; auto). apply nth_phi; auto. Qed.
  Lemma u_rest j : nth (k + j) u 0 = nth j (ptail kind x) 0.
  Proof. rewrite u_pi_row, app_nth2; unfold phi_row; rewrite map_length; [f_equal; lia|lia]. Qed.

  Lemma radial_block : sumn k (fun i => sumn k (fun j => Ainv_param M i j * phi_product 0 kind gamma x (nd i) (nd j))) =
    sumn k (fun i => sumn k (fun j => Ainv_param M i j * (nth i u 0 * nth j u 0))).
  Proof.
    apply sumn_ext. intros i Hi. apply sumn_ext. intros j Hj. rewrite product_exact, !u_head by auto. reflexivity.
  Qed.

  Lemma deg1_expr : p = (n + 1)%nat -> ptail kind x = x ++ [1] ->
    sumn k (fun i => sumn k (fun j => Ainv_param M i j * phi_product 0 kind gamma x (nd i) (nd j))) +
    sumn k (fun i => sumn n (fun j => Ainv_param M i (k + j)%nat * nth j x 0 * phi_term 0 kind gamma x (nd i))) +
    sumn k (fun i => Ainv_param M i (k + n)%nat * phi_term 0 kind gamma x (nd i)) +
    sumn n (fun i => sumn n (fun j => Ainv_param M (k + i)%nat (k + j)%nat * nth i x 0 * nth j x 0)) +
    sumn n (fun i => Ainv_param M (k + i)%nat (k + n)%nat * nth i x 0) +
    Ainv_param M (k + n)%nat (k + n)%nat =
    full_form (k + p) (Ainv_param M) (fun i => nth i u 0).
  Proof.
    intros Hp Ht. rewrite Hp, tri_blocks, radial_block.
    assert (Ux : forall j, (j < n)%nat -> nth (k + j) u 0 = nth j x 0) by (intros; rewrite u_rest, Ht, app_nth1 by lia; auto).
    assert (Un : nth (k + n) u 0 = 1) by (rewrite u_rest, Ht, app_nth2, Hx, Nat.sub_diag by lia; auto).
    rewrite !Rplus_assoc. f_equal. rewrite <- !Rplus_assoc.
    replace (n + 1)%nat with (S n) by lia.
    rewrite (sumn_ext k (fun i => sumn (S n) _) (fun i => sumn n (fun j => Ainv_param M i (k + j)%nat * nth j x 0 * phi_term 0 kind gamma x (nd i)) + Ainv_param M i (k + n)%nat * phi_term 0 kind gamma x (nd i))).
    2:{ intros i Hi. rewrite sumn_S, Un, u_head by auto. f_equal; [|ring]. apply sumn_ext. intros j Hj. rewrite Ux by auto. ring. }
    rewrite sumn_plus. rewrite !Rplus_assoc. do 2 f_equal.
    rewrite sumn_S.
    rewrite (sumn_ext n (fun i => sumn (S n) _) (fun i => sumn n (fun j => Ainv_param M (k + i)%nat (k + j)%nat * nth i x 0 * nth j x 0) + Ainv_param M (k + i)%nat (k + n)%nat * nth i x 0)).
    2:{ intros i Hi. rewrite sumn_S, Un, Ux by auto. f_equal; [|ring]. apply sumn_ext. intros j Hj. rewrite Ux by auto. ring. }
    rewrite sumn_plus, sumn_S, Un.
    rewrite (sumn_ext n (fun j => Ainv_param M (k + n)%nat (k + j)%nat * _) (fun _ => 0)) by (intros; rewrite tri_tail by lia; ring).
    rewrite sumn_zero. ring.
  Qed.
  Lemma deg0_expr : p = 1%nat -> ptail kind x = [1] ->
    sumn k (fun i => sumn k (fun j => Ainv_param M i j * phi_product 0 kind gamma x (nd i) (nd j))) +
    sumn k (fun j => Ainv_param M j k * phi_term 0 kind gamma x (nd j)) + Ainv_param M k k =
    full_form (k + p) (Ainv_param M) (fun i => nth i u 0).
  Proof.
    intros Hp Ht. rewrite Hp, tri_blocks, radial_block.
    assert (Un : nth (k + 0) u 0 = 1) by (rewrite u_rest, Ht; auto).
    rewrite !Rplus_assoc. f_equal. rewrite !sumn_S, !sumn_0, Un, !Rplus_0_l. f_equal.
    - apply sumn_ext. intros i Hi. rewrite sumn_S, sumn_0, Un, u_head by auto. rewrite !Nat.add_0_r. ring.
    - rewrite !Nat.add_0_r. ring.
  Qed.

  Lemma mu_expression_exact : symmetric_mat (k + p) M -> (kind = Multiquadric -> 0 <= gamma) ->
    mu_expression 0 kind gamma n nodes M x = quad_form M u - rbf_function kind gamma 0.
  Proof.
    intros Hsym Hg. rewrite quad_full, <- triangular_eq by auto. rewrite phi_zero. unfold mu_expression. cbv zeta.
    pose proof deg1_expr as D1. pose proof deg0_expr as D0. pose proof radial_block as RB.
    destruct kind; cbn [degree_polynomial phi_0].
    - rewrite D1 by reflexivity. reflexivity.
    - rewrite D1 by reflexivity. reflexivity.
    - rewrite D0 by reflexivity. reflexivity.
    - rewrite D0 by reflexivity. rewrite Rabs_right by (apply Rle_ge; auto). reflexivity.
    - f_equal. rewrite RB. cbn [size_P]. rewrite Nat.add_0_r. reflexivity.
  Qed.
  Lemma one_over_mu_sign : symmetric_mat (k + p) M -> (kind = Multiquadric -> 0 <= gamma) ->
    one_over_mu_obj 0 kind gamma n nodes M x = degree_sign kind * (quad_form M u - rbf_function kind gamma 0).
  Proof.
    intros Hsym Hg. unfold one_over_mu_obj. rewrite mu_expression_exact by auto.
    destruct kind; cbn [degree_polynomial degree_sign]; ring.
  Qed.
End Objectives.
