(** * Proofs about the auxiliary objectives. *)
From Verif Require Export SpecAux RBFSolve.
From Coq Require Import Lra Lia.
Open Scope R_scope.

(** ** Metric SRSM *)
Lemma denom_pos eps l : 0 <= eps -> 0 < scale_denom eps l.
Proof. intros. unfold scale_denom. destruct (Rltb _ _) eqn:E; [apply Rltb_lt in E; lra|lra]. Qed.
Lemma denom_span eps l : 0 <= eps <= 1 -> amax l - amin l <= scale_denom eps l.
Proof. intros. unfold scale_denom. destruct (Rltb _ _) eqn:E; [lra|apply Rltb_ge in E; lra]. Qed.
Lemma frac_unit a d : 0 < d -> 0 <= a <= d -> 0 <= a / d <= 1.
Proof.
  intros Hd [H1 H2]. split; [apply Rmult_le_pos; auto; left; apply Rinv_0_lt_compat; auto|].
  apply Rmult_le_reg_r with d; auto. unfold Rdiv. rewrite Rmult_assoc, Rinv_l by lra. lra.
Qed.

Lemma bulk_objs_length kind gamma points n k nodes lam h : in_dimension n points -> length nodes = k ->
  length lam = k -> length h = size_P kind n -> length (bulk_evaluate_rbf kind gamma points n k nodes lam h) = length points.
Proof. intros. rewrite bulk_spec by auto. apply map_length. Qed.

Section Msrsm.
  Variables (eps min_dist : R) (modified : bool) (w : R) (kind : rbf_kind) (gamma : R) (n k : nat)
            (nodes : list rpoint) (lam h : list R) (points : list rpoint).
  Hypothesis Heps : 0 <= eps <= 1.
  Hypothesis Hw : 0 <= w <= 1.
  Hypothesis Hp : in_dimension n points.
  Hypothesis Hk : length nodes = k.
  Hypothesis Hlam : length lam = k.
  Hypothesis Hh : length h = size_P kind n.
  Hypothesis Hne : nodes <> [].
  Local Notation objs := (bulk_evaluate_rbf kind gamma points n k nodes lam h).
  Local Notation dists := (bulk_min_distances points nodes).
  Local Notation res := (msrsm_evaluate eps min_dist modified w kind gamma n k nodes lam h points).
  Local Notation wo := (obj_weight modified w).

  Lemma dists_length : length dists = length points.
  Proof. unfold bulk_min_distances, cdist. rewrite !map_length. auto. Qed.
  Lemma nth_dists i : (i < length points)%nat -> nth i dists 0 = get_min_distance (nth i points []) nodes.
  Proof.
    intros. unfold bulk_min_distances, cdist. rewrite map_map.
    rewrite (nth_map_in _ _ _ ([] : rpoint)) by auto. reflexivity.
  Qed.
  Lemma nth_objs i : (i < length points)%nat ->
    nth i objs 0 = model_at kind gamma nodes lam h (nth i points []).
  Proof.
    intros. rewrite bulk_spec by auto. rewrite (nth_map_in _ _ _ ([] : rpoint)) by auto.
    apply evaluate_model; auto. apply Hp, nth_In; auto.
  Qed.
  Lemma res_length : length res = length points.
  Proof. unfold msrsm_evaluate. rewrite map2_len; rewrite dists_length; auto. symmetry. apply bulk_objs_length; auto. Qed.
  Lemma nth_res i : (i < length points)%nat ->
    nth i res None = msrsm_score eps min_dist w wo dists objs (nth i dists 0) (nth i objs 0).
  Proof.
    intros. unfold msrsm_evaluate. apply (map2_nth _ _ _ i 0 0); rewrite ?dists_length; auto.
    symmetry; apply bulk_objs_length; auto.
  Qed.
  Lemma min_dist_spec x : (exists y, In y nodes /\ distance x y = get_min_distance x nodes) /\
    forall y, In y nodes -> get_min_distance x nodes <= distance x y.
  Proof.
    assert (E : cdist_row x nodes <> []) by (destruct nodes; [congruence|discriminate]).
    destruct (amin_spec _ E) as [H1 H2]. split.
    - unfold cdist_row in H1. apply in_map_iff in H1. destruct H1 as (y & H1 & Hy). exists y. auto.
    - intros y Hy. apply H2. apply in_map; auto.
  Qed.
  Lemma wo_range : 0 <= wo <= 1.
  Proof. unfold obj_weight. destruct modified; lra. Qed.

  Lemma objs_length : length objs = length points.
  Proof. apply bulk_objs_length; auto. Qed.
  Lemma dist_in i : (i < length points)%nat -> amin dists <= nth i dists 0 <= amax dists.
  Proof.
    intros Hi. assert (E : dists <> []) by (intros E; pose proof dists_length as E1; rewrite E in E1; cbn in E1; lia).
    assert (In (nth i dists 0) dists) by (apply nth_In; rewrite dists_length; auto).
    destruct (amin_spec _ E) as [_ H1]. destruct (amax_spec _ E) as [_ H2]. auto.
  Qed.
  Lemma obj_in i : (i < length points)%nat -> amin objs <= nth i objs 0 <= amax objs.
  Proof.
    intros Hi. assert (E : objs <> []) by (intros E; pose proof objs_length as E1; rewrite E in E1; cbn in E1; lia).
    assert (In (nth i objs 0) objs) by (apply nth_In; rewrite objs_length; auto).
    destruct (amin_spec _ E) as [_ H1]. destruct (amax_spec _ E) as [_ H2]. auto.
  Qed.

  Lemma msrsm_infinite i : (i < length points)%nat ->
    nth i res None = None <-> exists y, In y nodes /\ distance (nth i points []) y <= min_dist.
  Proof.
    intros Hi. rewrite nth_res by auto. unfold msrsm_score. rewrite nth_dists by auto.
    destruct (min_dist_spec (nth i points [])) as [(y & Hy & E) H2].
    destruct (Rleb _ _) eqn:L.
    - apply Rleb_le in L. split; auto. intros _. exists y. split; auto. lra.
    - apply Rleb_gt in L. split; [discriminate|]. intros (z & Hz & Hd). specialize (H2 z Hz). lra.
  Qed.
  Lemma msrsm_range i s : (i < length points)%nat -> nth i res None = Some s -> 0 <= s <= w + wo.
  Proof.
    intros Hi. rewrite nth_res by auto. unfold msrsm_score. destruct (Rleb _ _); [discriminate|].
    intros E; injection E as <-.
    pose proof (dist_in i Hi). pose proof (obj_in i Hi).
    pose proof (denom_pos eps dists ltac:(lra)). pose proof (denom_pos eps objs ltac:(lra)).
    pose proof (denom_span eps dists Heps). pose proof (denom_span eps objs Heps). pose proof wo_range.
    assert (0 <= (amax dists - nth i dists 0) / scale_denom eps dists <= 1) by (apply frac_unit; lra).
    assert (0 <= (nth i objs 0 - amin objs) / scale_denom eps objs <= 1) by (apply frac_unit; lra).
    unfold Rdiv in *. rewrite !(Rmult_assoc w), !(Rmult_assoc wo). nra.
  Qed.

  Lemma far_dist i j : (i < length points)%nat -> (j < length points)%nat ->
    as_far nodes (nth i points []) (nth j points []) -> nth j dists 0 <= nth i dists 0.
  Proof.
    intros Hi Hj H. rewrite !nth_dists by auto. destruct (min_dist_spec (nth i points [])) as [(y & Hy & <-) _].
    destruct (H y Hy) as (b & Hb & L). destruct (min_dist_spec (nth j points [])) as [_ H2]. specialize (H2 b Hb). lra.
  Qed.
  Lemma farther_dist i j : (i < length points)%nat -> (j < length points)%nat ->
    farther nodes (nth i points []) (nth j points []) -> nth j dists 0 < nth i dists 0.
  Proof.
    intros Hi Hj (b & Hb & L). rewrite !nth_dists by auto. destruct (min_dist_spec (nth i points [])) as [(y & Hy & <-) _].
    destruct (min_dist_spec (nth j points [])) as [_ H2]. specialize (H2 b Hb). specialize (L y Hy). lra.
  Qed.
  Lemma msrsm_dominance i j : (i < length points)%nat -> (j < length points)%nat ->
    as_far nodes (nth i points []) (nth j points []) ->
    model_at kind gamma nodes lam h (nth i points []) <= model_at kind gamma nodes lam h (nth j points []) ->
    score_le (nth i res None) (nth j res None).
  Proof.
    intros Hi Hj Hd Ho. pose proof (far_dist i j Hi Hj Hd) as D. rewrite <- !nth_objs in Ho by auto.
    rewrite !nth_res by auto. unfold msrsm_score.
    destruct (Rleb (nth j dists 0) min_dist) eqn:Lj; [destruct (Rleb (nth i dists 0) min_dist); exact Logic.I|].
    destruct (Rleb (nth i dists 0) min_dist) eqn:Li.
    { apply Rleb_le in Li. apply Rleb_gt in Lj. lra. }
    cbn [score_le]. pose proof (Rinv_0_lt_compat _ (denom_pos eps dists ltac:(lra))).
    pose proof (Rinv_0_lt_compat _ (denom_pos eps objs ltac:(lra))). pose proof wo_range. unfold Rdiv.
    apply Rplus_le_compat; (apply Rmult_le_compat_r; [lra|]; apply Rmult_le_compat_l; lra).
  Qed.
  Lemma msrsm_strict i j : (i < length points)%nat -> (j < length points)%nat ->
    nth i res None <> None ->
    (0 < w /\ farther nodes (nth i points []) (nth j points []) /\
       model_at kind gamma nodes lam h (nth i points []) <= model_at kind gamma nodes lam h (nth j points []) \/
     (modified = true \/ w < 1) /\ as_far nodes (nth i points []) (nth j points []) /\
       model_at kind gamma nodes lam h (nth i points []) < model_at kind gamma nodes lam h (nth j points [])) ->
    score_lt (nth i res None) (nth j res None).
  Proof.
    intros Hi Hj Hf H. rewrite !nth_res in * by auto. rewrite <- !nth_objs in H by auto.
    unfold msrsm_score in *.
    destruct (Rleb (nth i dists 0) min_dist) eqn:Li; [congruence|].
    destruct (Rleb (nth j dists 0) min_dist) eqn:Lj; [exact Logic.I|]. cbn [score_lt].
    pose proof (Rinv_0_lt_compat _ (denom_pos eps dists ltac:(lra))).
    pose proof (Rinv_0_lt_compat _ (denom_pos eps objs ltac:(lra))). pose proof wo_range. unfold Rdiv.
    destruct H as [(Hp1 & Hd & Ho)|(Hp1 & Hd & Ho)].
    - pose proof (farther_dist i j Hi Hj Hd). apply Rplus_lt_le_compat.
      + apply Rmult_lt_compat_r; auto. apply Rmult_lt_compat_l; lra.
      + apply Rmult_le_compat_r; [lra|]. apply Rmult_le_compat_l; lra.
    - pose proof (far_dist i j Hi Hj Hd). apply Rplus_le_lt_compat.
      + apply Rmult_le_compat_r; [lra|]. apply Rmult_le_compat_l; lra.
      + apply Rmult_lt_compat_r; auto. apply Rmult_lt_compat_l; [|lra].
        unfold obj_weight. destruct modified; [lra|]. destruct Hp1; [discriminate|lra].
  Qed.
  Lemma msrsm_best i : (i < length points)%nat -> nth i res None <> None ->
    (forall j, (j < length points)%nat -> as_far nodes (nth i points []) (nth j points []) /\
       model_at kind gamma nodes lam h (nth i points []) <= model_at kind gamma nodes lam h (nth j points [])) ->
    nth i res None = Some 0.
  Proof.
    intros Hi Hf H. rewrite nth_res in * by auto. unfold msrsm_score in *. destruct (Rleb _ _); [congruence|].
    f_equal.
    assert (E : dists <> []) by (intros E; pose proof dists_length as E1; rewrite E in E1; cbn in E1; lia).
    assert (E' : objs <> []) by (intros E'; pose proof objs_length as E1; rewrite E' in E1; cbn in E1; lia).
    destruct (amax_spec _ E) as [I1 _]. destruct (amin_spec _ E') as [I2 _].
    apply (In_nth _ _ 0) in I1. destruct I1 as (a & Ha & Ea). rewrite dists_length in Ha.
    apply (In_nth _ _ 0) in I2. destruct I2 as (b & Hb & Eb). rewrite objs_length in Hb.
    destruct (H a Ha) as [F _]. apply far_dist in F; auto.
    destruct (H b Hb) as [_ G]. rewrite <- !nth_objs in G by auto.
    pose proof (dist_in i Hi). pose proof (obj_in i Hi).
    replace (amax dists - nth i dists 0) with 0 by lra. replace (nth i objs 0 - amin objs) with 0 by lra.
    unfold Rdiv. ring.
  Qed.
End Msrsm.

(** ** Quadratic form *)
Lemma rdot_map_plus (f g : nat -> R) l : forall v,
  rdot (map (fun j => f j + g j) l) v = rdot (map f l) v + rdot (map g l) v.
Proof. induction l as [|a l IH]; intros [|b v]; cbn; try ring. rewrite IH. ring. Qed.
Lemma rdot_map_scale (a : R) (f : nat -> R) l : forall v, rdot (map (fun j => a * f j) l) v = a * rdot (map f l) v.
Proof. induction l as [|b l IH]; intros [|c v]; cbn; try ring. rewrite IH. ring. Qed.
Lemma map_nth_seq (r : list R) : map (fun j => nth j r 0) (seq 0 (length r)) = r.
Proof.
  induction r as [|a r IH]; cbn; auto. f_equal. rewrite <- seq_shift, map_map. exact IH.
Qed.
Lemma vec_mat_swap c : forall M u v, (forall r, In r M -> length r = c) -> length M = length u -> length v = c ->
  rdot (map (fun j => rdot u (map (fun r => nth j r 0) M)) (seq 0 c)) v = rdot u (mat_vec M v).
Proof.
  induction M as [|r M IH]; intros [|a u] v HM Hl Hv; cbn in Hl; try discriminate.
  - cbn. assert (G : forall l w, rdot (map (fun _ : nat => 0) l) w = 0)
      by (induction l; intros [|? ?]; cbn; auto; rewrite IHl; ring). apply G.
  - cbn [map rdot mat_vec]. rewrite rdot_map_plus, rdot_map_scale, IH by (auto; try lia; intros; apply HM; right; auto).
    rewrite <- (HM r (or_introl eq_refl)). rewrite map_nth_seq. reflexivity.
Qed.
Lemma rsum_map2_mult u : forall v, rsum (map2 Rmult u v) = rdot u v.
Proof. induction u as [|a u IH]; intros [|b v]; cbn; auto. unfold rsum in IH. rewrite IH. reflexivity. Qed.
Lemma quad_form_dot M u : length M = length u -> (forall r, In r M -> length r = length u) ->
  quad_form M u = rdot u (mat_vec M u).
Proof. intros. unfold quad_form, vec_mat. rewrite rsum_map2_mult. apply vec_mat_swap; auto. Qed.

Lemma mat_vec_scale A a x : mat_vec A (map (Rmult a) x) = map (Rmult a) (mat_vec A x).
Proof.
  unfold mat_vec. rewrite map_map. apply map_ext. intros r. revert x.
  induction r as [|b r IH]; intros [|c x]; cbn; try ring. rewrite IH. ring.
Qed.
Lemma rdot_scale_r a u : forall v, rdot u (map (Rmult a) v) = a * rdot u v.
Proof. induction u as [|b u IH]; intros [|c v]; cbn; try ring. rewrite IH. ring. Qed.

Lemma u_pi_row kind gamma nodes x : u_pi kind gamma nodes x = phi_row kind gamma x nodes ++ ptail kind x.
Proof.
  unfold u_pi, phi_row, cdist_row. rewrite map_map.
  destruct kind; cbn [degree_polynomial Z.eqb ptail Pos.eqb]; try reflexivity. rewrite app_nil_r. reflexivity.
Qed.
Lemma u_pi_length kind gamma n nodes x : length x = n ->
  length (u_pi kind gamma nodes x) = (length nodes + size_P kind n)%nat.
Proof. intros H. rewrite u_pi_row, app_length, (tail_length kind n) by auto. unfold phi_row. rewrite map_length. auto. Qed.

Lemma list_ext (a : list R) : forall b, length a = length b -> (forall i, (i < length a)%nat -> nth i a 0 = nth i b 0) -> a = b.
Proof. intros b H G. apply (nth_ext a b 0 0); auto. Qed.

Lemma interpolates_tail_len kind gamma n nodes vals lam h : interpolates kind gamma n nodes vals lam h ->
  length lam = length nodes /\ length h = size_P kind n.
Proof. intros H. split; apply H. Qed.

Section Gutmann.
  Variables (kind : rbf_kind) (gamma : R) (n : nat) (nodes : list rpoint) (x : rpoint) (M : mat).
  Hypothesis Hd : in_dimension n nodes.
  Hypothesis Hx : length x = n.
  Local Notation A := (rbf_matrix_exact kind gamma n nodes).
  Local Notation k := (length nodes).
  Local Notation p := (size_P kind n).
  Local Notation u := (u_pi kind gamma nodes x).
  Local Notation phi := (rbf_function kind gamma).

  Lemma map_nth_dot (j : nat) (l : list R) (m : R) : length l = k ->
    rdot (map (fun y => nth j (ptail kind y) 0) (nodes ++ [x])) (l ++ [m]) =
    rdot (map (fun y => nth j (ptail kind y) 0) nodes) l + nth j (ptail kind x) 0 * m.
  Proof. intros H. rewrite map_app, rdot_app by (rewrite map_length; auto). cbn. ring. Qed.

  (* the cardinal system: A w = - m u and u.w + m phi(0) = 1 *)
  Lemma cardinal_system lam m h :
    interpolates kind gamma n (nodes ++ [x]) (zeros k ++ [1]) (lam ++ [m]) h ->
    length (lam ++ h) = (k + p)%nat /\ mat_vec A (lam ++ h) = map (Rmult (- m)) u /\ rdot u (lam ++ h) + m * phi 0 = 1.
  Proof.
    intros (Hl & Hh & Hv & Ho). rewrite !app_length in Hl. cbn in Hl. assert (Hlk : length lam = k) by lia.
    assert (Lw : length (lam ++ h) = (k + p)%nat) by (rewrite app_length; lia). split; [exact Lw|].
    assert (HM : forall y, model_at kind gamma (nodes ++ [x]) (lam ++ [m]) h y =
                 rdot (phi_row kind gamma y nodes ++ ptail kind y) (lam ++ h) + m * phi (distance y x)).
    { intros y. unfold model_at. rewrite map_app, rdot_app by (rewrite map_length; auto).
      rewrite rdot_app by (unfold phi_row; rewrite map_length; auto). rewrite monomials_tail. unfold phi_row. cbn. ring. }
    split.
    - apply list_ext.
      { unfold mat_vec. rewrite !map_length. rewrite exact_length by auto. rewrite (u_pi_length kind gamma n) by auto. reflexivity. }
      intros i Hi. unfold mat_vec in Hi. rewrite map_length in Hi. rewrite nth_mat_vec by auto.
      rewrite exact_length in Hi by auto.
      rewrite (nth_map_in (Rmult (- m)) u i 0 0) by (rewrite (u_pi_length kind gamma n) by auto; auto).
      rewrite u_pi_row. destruct (Nat.lt_ge_cases i k) as [H|H].
      + rewrite exact_row_top by auto. specialize (Hv i). rewrite app_length in Hv. specialize (Hv ltac:(lia)).
        rewrite (app_nth1 nodes) in Hv by auto. rewrite app_nth1 in Hv by (unfold zeros; rewrite repeat_length; auto).
        rewrite nth_zeros, HM in Hv.
        rewrite (app_nth1 (phi_row _ _ _ _)) by (unfold phi_row; rewrite map_length; auto).
        unfold phi_row at 2. rewrite (nth_map_in _ _ _ ([] : rpoint)) by auto.
        rewrite (distance_sym x). lra.
      + replace i with (k + (i - k))%nat by lia. rewrite exact_row_bottom by (auto; lia).
        specialize (Ho (i - k)%nat ltac:(lia)).
        rewrite (map_ext _ (fun y => nth (i - k) (ptail kind y) 0)) in Ho by (intros; rewrite monomials_tail; auto).
        rewrite map_nth_dot in Ho by auto.
        rewrite rdot_app by (rewrite map_length; auto). unfold zeros. rewrite rdot_zeros.
        rewrite (app_nth2 (phi_row _ _ _ _)); unfold phi_row; rewrite map_length; [|lia].
        replace (k + (i - k) - k)%nat with (i - k)%nat by lia. lra.
    - specialize (Hv k). rewrite app_length in Hv. cbn [length] in Hv. specialize (Hv ltac:(lia)).
      rewrite (app_nth2 nodes), Nat.sub_diag in Hv by auto. cbn [nth] in Hv.
      rewrite app_nth2 in Hv by (unfold zeros; rewrite repeat_length; auto).
      unfold zeros in Hv at 1. rewrite repeat_length, Nat.sub_diag in Hv. cbn [nth] in Hv.
      rewrite HM, distance_self in Hv. rewrite u_pi_row. exact Hv.
  Qed.

  Hypothesis HM : undoes M A.
  Lemma undo_shape : length M = length u /\ forall r, In r M -> length r = length u.
  Proof.
    destruct HM as (H1 & H2 & _). rewrite exact_length in * by auto. rewrite (u_pi_length kind gamma n) by auto. auto.
  Qed.
  Lemma cardinal_quad lam m h :
    interpolates kind gamma n (nodes ++ [x]) (zeros k ++ [1]) (lam ++ [m]) h ->
    m * (phi 0 - quad_form M u) = 1.
  Proof.
    intros H. destruct (cardinal_system lam m h H) as (Lw & E1 & E2).
    destruct HM as (_ & _ & H3). destruct undo_shape as [S1 S2].
    specialize (H3 (lam ++ h)). rewrite exact_length in H3 by auto. specialize (H3 Lw).
    rewrite E1, mat_vec_scale in H3. rewrite <- H3 in E2. rewrite rdot_scale_r in E2.
    rewrite quad_form_dot by auto. lra.
  Qed.

  Lemma rdot_unit r : forall i, (i < length r)%nat -> rdot r (unit_vector (length r) i) = nth i r 0.
  Proof.
    unfold unit_vector. induction r as [|a r IH]; intros i H; cbn in H; [lia|]. destruct i; cbn.
    - unfold zeros. rewrite rdot_comm, rdot_zeros. ring.
    - unfold zeros in *. rewrite IH by lia. ring.
  Qed.
  Lemma node_quad i : (i < k)%nat -> x = nth i nodes [] -> quad_form M u = phi 0.
  Proof.
    intros Hi E. destruct HM as (_ & _ & H3). destruct undo_shape as [S1 S2].
    set (e := unit_vector (k + p) i).
    assert (Le : length e = (k + p)%nat) by (unfold e, unit_vector; rewrite set_at_length; apply repeat_length).
    assert (Eu : mat_vec A e = u).
    { apply list_ext.
      - unfold mat_vec. rewrite map_length, exact_length, (u_pi_length kind gamma n) by auto. auto.
      - intros j Hj. unfold mat_vec in Hj. rewrite map_length in Hj. rewrite nth_mat_vec by auto. rewrite exact_length in Hj by auto.
        unfold e. rewrite <- (exact_row_length kind gamma n nodes Hd j Hj) at 1.
        rewrite rdot_unit by (rewrite exact_row_length by auto; lia).
        change (ent A j i = nth j u 0). rewrite exact_symmetric by auto. unfold ent. rewrite exact_row_top by auto.
        rewrite u_pi_row, E. reflexivity. }
    rewrite quad_form_dot by auto. specialize (H3 e). rewrite exact_length in H3 by auto. specialize (H3 Le).
    rewrite Eu in H3. rewrite H3. unfold e. rewrite <- (u_pi_length kind gamma n nodes x) by auto.
    rewrite rdot_unit by (rewrite (u_pi_length kind gamma n) by auto; lia).
    rewrite u_pi_row, app_nth1 by (unfold phi_row; rewrite map_length; auto).
    unfold phi_row. rewrite (nth_map_in _ _ _ ([] : rpoint)) by auto. rewrite <- E, distance_self. reflexivity.
  Qed.
End Gutmann.

Lemma hk_values eps kind gamma n k nodes lam h M target points i : in_dimension n points -> length nodes = k ->
  length lam = k -> length h = size_P kind n -> (i < length points)%nat ->
  nth i (hk_evaluate eps kind gamma n nodes lam h M target points) 0 =
  let x := nth i points [] in let v := model_at kind gamma nodes lam h x in
  - ((degree_sign kind * (quad_form M (u_pi kind gamma nodes x) - rbf_function kind gamma 0)) /
     Rmax ((v - target) * (v - target)) eps).
Proof.
  intros Hp Hk Hl Hh Hi.
  change (hk_evaluate eps kind gamma n nodes lam h M target points) with
    (map2 (fun x v => - ((degree_sign kind * (quad_form M (u_pi kind gamma nodes x) - rbf_function kind gamma 0)) /
       Rmax ((v - target) * (v - target)) eps)) points (bulk_evaluate_rbf kind gamma points n k nodes lam h)).
  rewrite (map2_nth _ _ _ i ([] : rpoint) 0) by (auto; rewrite bulk_objs_length by auto; auto).
  rewrite (nth_objs kind gamma n k nodes lam h points) by auto. reflexivity.
Qed.
Lemma hk_length eps kind gamma n k nodes lam h M target points : in_dimension n points -> length nodes = k ->
  length lam = k -> length h = size_P kind n ->
  length (hk_evaluate eps kind gamma n nodes lam h M target points) = length points.
Proof.
  intros Hp Hk Hl Hh.
  change (hk_evaluate eps kind gamma n nodes lam h M target points) with
    (map2 (fun x v => - ((degree_sign kind * (quad_form M (u_pi kind gamma nodes x) - rbf_function kind gamma 0)) /
       Rmax ((v - target) * (v - target)) eps)) points (bulk_evaluate_rbf kind gamma points n k nodes lam h)).
  apply map2_len. rewrite bulk_objs_length by auto. auto.
Qed.
Lemma muk_values kind gamma nodes M points i : (i < length points)%nat ->
  nth i (muk_evaluate kind gamma nodes M points) 0 =
  - (degree_sign kind * (quad_form M (u_pi kind gamma nodes (nth i points [])) + rbf_function kind gamma 0)).
Proof. intros. unfold muk_evaluate. rewrite (nth_map_in _ _ _ ([] : rpoint)) by auto. reflexivity. Qed.

Lemma sign_cases kind : degree_sign kind = 1 \/ degree_sign kind = -1.
Proof. destruct kind; cbn; auto. Qed.
Lemma mu_sign kind m : gutmann_mu kind m = - degree_sign kind * m.
Proof. destruct kind; cbn; ring. Qed.

Lemma phi_zero kind gamma : rbf_function kind gamma 0 =
  match kind with Multiquadric => Rabs gamma | Gaussian => 1 | _ => 0 end.
Proof.
  destruct kind; cbn.
  - unfold cubic; ring.
  - apply tps_0.
  - reflexivity.
  - unfold multiquadric. replace (0 * 0 + gamma * gamma) with (gamma²) by (unfold Rsqr; ring). apply sqrt_Rsqr_abs.
  - unfold gaussian. replace (- gamma * 0 * 0) with 0 by ring. apply exp_0.
Qed.

(** ** Sampling *)
Lemma xleb_le a b : xleb a b = true <-> score_le a b.
Proof. destruct a, b; cbn; try tauto; try (split; [discriminate|tauto]). apply Rleb_le. Qed.
Lemma score_le_refl a : score_le a a.
Proof. destruct a; cbn; auto; lra. Qed.
Lemma score_le_trans a b c : score_le a b -> score_le b c -> score_le a c.
Proof. destruct a, b, c; cbn; try tauto. lra. Qed.
Lemma score_total a b : score_le a b \/ score_lt b a.
Proof. destruct a, b; cbn; try tauto. destruct (Rle_dec r r0); [auto|right; lra]. Qed.
Lemma score_lt_le a b : score_lt a b -> score_le a b.
Proof. destruct a, b; cbn; try tauto. lra. Qed.
Lemma score_lt_le_trans a b c : score_lt a b -> score_le b c -> score_lt a c.
Proof. destruct a, b, c; cbn; try tauto. lra. Qed.
Lemma score_le_lt_trans a b c : score_le a b -> score_lt b c -> score_lt a c.
Proof. destruct a, b, c; cbn; try tauto. lra. Qed.

Lemma xargmin_aux_spec l : forall pre best bi, (bi < length pre)%nat -> nth bi pre None = best ->
  (forall j, (j < length pre)%nat -> score_le best (nth j pre None)) ->
  (forall j, (j < bi)%nat -> score_lt best (nth j pre None)) ->
  let r := xargmin_aux best bi (length pre) l in
  (r < length (pre ++ l))%nat /\
  (forall j, (j < length (pre ++ l))%nat -> score_le (nth r (pre ++ l) None) (nth j (pre ++ l) None)) /\
  (forall j, (j < r)%nat -> score_lt (nth r (pre ++ l) None) (nth j (pre ++ l) None)).
Proof.
  induction l as [|s l IH]; intros pre best bi Hbi Eb Hall Hlt; cbn [xargmin_aux].
  - rewrite app_nil_r. rewrite Eb. auto.
  - replace (pre ++ s :: l) with ((pre ++ [s]) ++ l) by (rewrite <- app_assoc; reflexivity).
    assert (Els : S (length pre) = length (pre ++ [s])) by (rewrite app_length; cbn; lia). rewrite Els.
    destruct (xleb best s) eqn:E.
    + apply xleb_le in E. apply IH.
      * lia.
      * rewrite app_nth1 by auto. auto.
      * intros j Hj. destruct (Nat.lt_ge_cases j (length pre)); [rewrite app_nth1 by auto; auto|].
        rewrite app_nth2 by auto. replace (j - length pre)%nat with 0%nat by lia. auto.
      * intros j Hj. rewrite app_nth1 by lia. auto.
    + assert (L : score_lt s best).
      { destruct (score_total best s) as [H|H]; auto. apply xleb_le in H. congruence. }
      apply IH.
      * lia.
      * rewrite app_nth2, Nat.sub_diag by auto. reflexivity.
      * intros j Hj. destruct (Nat.lt_ge_cases j (length pre)).
        -- rewrite app_nth1 by auto. apply score_lt_le. apply score_lt_le_trans with best; auto.
        -- rewrite app_nth2 by auto. replace (j - length pre)%nat with 0%nat by lia. apply score_le_refl.
      * intros j Hj. rewrite app_nth1 by auto. apply score_lt_le_trans with best; auto.
Qed.
Lemma xargmin_spec l : l <> [] ->
  (xargmin l < length l)%nat /\
  (forall j, (j < length l)%nat -> score_le (nth (xargmin l) l None) (nth j l None)) /\
  (forall j, (j < xargmin l)%nat -> score_lt (nth (xargmin l) l None) (nth j l None)).
Proof.
  destruct l as [|s l]; [congruence|]. intros _. apply (xargmin_aux_spec l [s] s 0%nat); cbn; auto.
  - intros [|j] H; [apply score_le_refl|lia].
  - intros j H; lia.
Qed.
