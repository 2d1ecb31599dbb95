(** * Positive forms of the other kernels, from the Gaussian one by growing families
    (no integration: monotone functions with a known limit).  Proof library. *)
From Coq Require Import Reals Lra Lia List Ranalysis Ratan.
From Verif Require Import KernelSum.
From Verif Require Import ModelGeom.
Import ListNotations.
Open Scope R_scope.

Lemma derivable_psum {A} (f f' : R -> A -> R) (l : list A) b :
  (forall p, In p l -> derivable_pt_lim (fun b => f b p) b (f' b p)) ->
  derivable_pt_lim (fun b => psum (f b) l) b (psum (f' b) l).
Proof.
  induction l as [|a l IH]; intros H; cbn.
  - apply (derivable_pt_lim_const 0).
  - apply (derivable_pt_lim_plus (fun b => f b a) (fun b => psum (f b) l)); [apply H; left; auto|apply IH; intros; apply H; right; auto].
Qed.
Lemma psum_near {A} (f g C : A -> R) (l : list A) b : 0 < b -> (forall p, In p l -> f p <= g p + C p / b) ->
  psum f l <= psum g l + psum C l / b.
Proof.
  intros Hb H. apply Rle_trans with (psum (fun p => g p + C p / b) l); [apply psum_le; auto|].
  rewrite psum_plus. unfold Rdiv. rewrite psum_scal_r. lra.
Qed.
Lemma grow {A} (f f' : R -> A -> R) (g C : A -> R) (l : list A) :
  psum (f 0) l = 0 ->
  (forall p b, In p l -> 0 <= b -> derivable_pt_lim (fun b => f b p) b (f' b p)) ->
  (forall b, 0 < b -> 0 < psum (f' b) l) ->
  (forall p b, In p l -> 1 <= b -> f b p <= g p + C p / b) ->
  0 < psum g l.
Proof.
  intros H0 Hd Hp Hn.
  assert (D : forall b, 0 <= b -> derivable_pt_lim (fun b => psum (f b) l) b (psum (f' b) l))
    by (intros; apply derivable_psum; intros; auto).
  destruct (MVT_cor2 (fun b => psum (f b) l) (fun b => psum (f' b) l) 0 1 Rlt_0_1) as (c & Ec & Hc); [intros; apply D; lra|].
  cbn beta in Ec. pose proof (Hp c (proj1 Hc)).
  set (F1 := psum (f 1) l) in *. assert (P1 : 0 < F1) by nra.
  assert (M : forall b, 1 < b -> F1 <= psum (f b) l).
  { intros b Hb. destruct (MVT_cor2 (fun b => psum (f b) l) (fun b => psum (f' b) l) 1 b Hb) as (d & Ed & Hd'); [intros; apply D; lra|].
    cbn beta in Ed. pose proof (Hp d ltac:(lra)). fold F1 in Ed. nra. }
  set (K := Rabs (psum C l)). set (b := 2 * K / F1 + 2).
  assert (0 <= K) by apply Rabs_pos. assert (0 <= 2 * K / F1) by (apply Rmult_le_pos; [lra|left; apply Rinv_0_lt_compat; auto]).
  assert (Hb : 1 < b) by (unfold b; lra).
  pose proof (M b Hb) as G. pose proof (psum_near (f b) g C l b ltac:(lra) (fun p Hin => Hn p b Hin ltac:(lra))) as G2.
  assert (psum C l / b <= F1 / 2).
  { apply Rmult_le_reg_r with b; [lra|]. unfold Rdiv at 1. rewrite Rmult_assoc, Rinv_l, Rmult_1_r by lra.
    apply Rle_trans with K; [apply Rle_abs|]. unfold b.
    replace (F1 / 2 * (2 * K / F1 + 2)) with (K + F1) by (field; lra). lra. }
  lra.
Qed.
(** The same for a quadratic form. *)
Lemma grow_qf (f f' : R -> rpoint -> rpoint -> R) (g C : rpoint -> rpoint -> R) (l : list wpoint) :
  qf (f 0) l = 0 ->
  (forall p q b, In p l -> In q l -> 0 <= b -> derivable_pt_lim (fun b => f b (snd p) (snd q)) b (f' b (snd p) (snd q))) ->
  (forall b, 0 < b -> 0 < qf (f' b) l) ->
  (forall p q b, In p l -> In q l -> 1 <= b -> Rabs (f b (snd p) (snd q) - g (snd p) (snd q)) <= C (snd p) (snd q) / b) ->
  0 < qf g l.
Proof.
  intros H0 Hd Hp Hn. rewrite qf_prod.
  apply (grow (fun b pq => fst (fst pq) * fst (snd pq) * f b (snd (fst pq)) (snd (snd pq)))
    (fun b pq => fst (fst pq) * fst (snd pq) * f' b (snd (fst pq)) (snd (snd pq)))
    _ (fun pq => Rabs (fst (fst pq) * fst (snd pq)) * C (snd (fst pq)) (snd (snd pq)))).
  - rewrite <- qf_prod. auto.
  - intros (p & q) b Hpq Hb. apply in_prod_iff in Hpq. cbn [fst snd].
    apply (derivable_pt_lim_scal (fun b => f b (snd p) (snd q))). apply Hd; tauto.
  - intros b Hb. rewrite <- qf_prod. auto.
  - intros (p & q) b Hpq Hb. apply in_prod_iff in Hpq. cbn [fst snd].
    pose proof (Hn p q b (proj1 Hpq) (proj2 Hpq) Hb) as H.
    set (w := fst p * fst q). set (u := f b (snd p) (snd q)) in *. set (v := g (snd p) (snd q)) in *.
    set (c := C (snd p) (snd q)) in *. unfold Rdiv in *.
    assert (w * (u - v) <= Rabs w * (c * / b)).
    { apply Rle_trans with (Rabs (w * (u - v))); [apply Rle_abs|]. rewrite Rabs_mult.
      apply Rmult_le_compat_l; [apply Rabs_pos|auto]. }
    lra.
Qed.

(** ** 1 / (s + c) *)
Lemma exp_le_inv z : 0 < z -> exp (- z) <= / z.
Proof.
  intros. rewrite exp_Ropp. apply Rinv_le_contravar; auto. pose proof (exp_ineq1 z ltac:(lra)). lra.
Qed.
Lemma inv_spd n c l : 0 < c -> dim n l -> distinct l -> active l -> 0 < qf (fun x y => / (sqd x y + c)) l.
Proof.
  intros Hc Hl Hd Ha.
  assert (S : forall p q, In p l -> In q l -> 0 < sqd (snd p) (snd q) + c).
  { intros p q Hp Hq. pose proof (sqd_nonneg (snd p) (snd q) ltac:(rewrite (Hl p), (Hl q); auto)). lra. }
  apply (grow_qf (fun b x y => (1 - exp (- (b * (sqd x y + c)))) / (sqd x y + c)) (fun b x y => exp (- (b * (sqd x y + c))))
    _ (fun x y => / (sqd x y + c) * / (sqd x y + c))).
  - rewrite (qf_ext _ (fun _ _ => 0)); [rewrite qf_const; ring|]. intros. rewrite Rmult_0_l, Ropp_0, exp_0. unfold Rdiv. ring.
  - intros p q b Hp Hq Hb. pose proof (S p q Hp Hq). set (d := sqd (snd p) (snd q) + c) in *.
    replace (exp (- (b * d))) with (/ d * (0 - (exp (- (b * d)) * (- d)))) by (field; lra).
    apply derivable_pt_lim_ext with (fun b => / d * (1 - exp (- (b * d)))); [intros; unfold Rdiv; ring|].
    apply (derivable_pt_lim_scal (fun b => 1 - exp (- (b * d)))).
    apply (derivable_pt_lim_minus (fun _ => 1) (fun b => exp (- (b * d)))); [apply derivable_pt_lim_const|].
    apply (derivable_pt_lim_comp (fun b => - (b * d)) exp); [|apply derivable_pt_lim_exp].
    replace (- d) with (- (1 * d + b * 0)) by ring.
    apply (derivable_pt_lim_opp (fun b => b * d)). apply (derivable_pt_lim_mult (fun b => b) (fun _ => d)); [apply derivable_pt_lim_id|apply derivable_pt_lim_const].
  - intros b Hb.
    rewrite (qf_ext _ (fun x y => exp (- (b * c)) * exp (- (b * sqd x y)))).
    + rewrite qf_scal. apply Rmult_lt_0_compat; [apply exp_pos|apply (gauss_spd n); auto].
    + intros. rewrite <- exp_plus. f_equal. ring.
  - intros p q b Hp Hq Hb. pose proof (S p q Hp Hq). set (d := sqd (snd p) (snd q) + c) in *.
    replace ((1 - exp (- (b * d))) / d - / d) with (- (exp (- (b * d)) / d)) by (field; lra).
    rewrite Rabs_Ropp, Rabs_right by (apply Rle_ge, Rmult_le_pos; [left; apply exp_pos|left; apply Rinv_0_lt_compat; auto]).
    pose proof (exp_le_inv (b * d) ltac:(nra)). unfold Rdiv.
    replace (/ d * / d * / b) with (/ (b * d) * / d) by (field; lra).
    apply Rmult_le_compat_r; auto. left. apply Rinv_0_lt_compat; auto.
Qed.

(** ** Arctangents *)
Lemma atan_le z : 0 <= z -> atan z <= z.
Proof.
  intros [H|<-]; [|rewrite atan_0; lra].
  destruct (MVT_cor2 atan (fun x => / (1 + x ^ 2)) 0 z H) as (c & E & Hc).
  - intros. apply derivable_pt_lim_atan.
  - rewrite atan_0 in E. assert (0 < / (1 + c ^ 2) <= 1).
    { cbn [pow]. split; [apply Rinv_0_lt_compat; nra|]. apply Rle_trans with (/ 1); [|rewrite Rinv_1; lra]. apply Rinv_le_contravar; nra. }
    nra.
Qed.
Lemma atan_nonneg z : 0 <= z -> 0 <= atan z.
Proof. intros [H|<-]; [|rewrite atan_0; lra]. left. rewrite <- atan_0. apply atan_increasing; auto. Qed.
Lemma atan_far r b : 0 < r -> 0 < b -> Rabs (atan (b / r) - PI / 2) <= r / b.
Proof.
  intros Hr Hb. replace (b / r) with (/ (r / b)) by (field; lra).
  assert (0 < r / b) by (apply Rmult_lt_0_compat; auto; apply Rinv_0_lt_compat; auto).
  rewrite atan_inv by auto. replace (PI / 2 - atan (r / b) - PI / 2) with (- atan (r / b)) by ring.
  rewrite Rabs_Ropp, Rabs_right by (apply Rle_ge, atan_nonneg; lra). apply atan_le. lra.
Qed.
Lemma derive_atan k r b : r <> 0 -> derivable_pt_lim (fun b => k * atan (b / r)) b (k * r / (r * r + b * b)).
Proof.
  intros Hr. replace (k * r / (r * r + b * b)) with (k * (/ (1 + (b / r) ^ 2) * (1 * / r + b * 0))).
  - apply (derivable_pt_lim_scal (fun b => atan (b / r))).
    apply (derivable_pt_lim_comp (fun b => b / r) atan); [|apply derivable_pt_lim_atan].
    apply (derivable_pt_lim_mult (fun b => b) (fun _ => / r)); [apply derivable_pt_lim_id|apply derivable_pt_lim_const].
  - assert (0 < r * r) by nra. assert (0 < r * r + b * b) by nra. field. repeat split; auto; nra.
Qed.

(** ** Distances and multiquadrics: negative on weights that sum to 0 *)
Lemma dist_neg n g2 l : 0 <= g2 -> dim n l -> distinct l -> active l -> psum fst l = 0 ->
  qf (fun x y => sqrt (sqd x y + g2)) l < 0.
Proof.
  intros Hg Hl Hd Ha H0.
  set (r := fun x y => sqrt (sqd x y + g2)).
  assert (Rn : forall x y, 0 <= r x y) by (intros; apply sqrt_pos).
  assert (Sq : forall p q, In p l -> In q l -> r (snd p) (snd q) * r (snd p) (snd q) = sqd (snd p) (snd q) + g2).
  { intros p q Hp Hq. apply sqrt_sqrt. pose proof (sqd_nonneg (snd p) (snd q) ltac:(rewrite (Hl p), (Hl q); auto)). lra. }
  assert (G : 0 < qf (fun x y => - (PI / 2) * r x y) l).
  { apply (grow_qf (fun b x y => - r x y * atan (b / r x y)) (fun b x y => - r x y * r x y / (r x y * r x y + b * b))
      _ (fun x y => r x y * r x y)).
    - rewrite (qf_ext _ (fun _ _ => 0)); [rewrite qf_const; ring|]. intros. unfold Rdiv. rewrite Rmult_0_l, atan_0. ring.
    - intros p q b Hp Hq Hb. destruct (Req_dec (r (snd p) (snd q)) 0) as [E|E].
      + rewrite E. replace (- 0 * 0 / (0 * 0 + b * b)) with 0 by (unfold Rdiv; ring).
        apply derivable_pt_lim_ext with (fun _ => 0); [intros; ring|apply derivable_pt_lim_const].
      + apply derive_atan; auto.
    - intros b Hb.
      rewrite (qf_ext _ (fun x y => b * b * / (sqd x y + (g2 + b * b)) + (-1))).
      + rewrite qf_plus, qf_scal, qf_const, H0. pose proof (inv_spd n (g2 + b * b) l ltac:(nra) Hl Hd Ha) as I.
        assert (0 < b * b) by nra. pose proof (Rmult_lt_0_compat _ _ H I). lra.
      + intros p q Hp Hq. rewrite <- Ropp_mult_distr_l, Sq by auto.
        pose proof (sqd_nonneg (snd p) (snd q) ltac:(rewrite (Hl p), (Hl q); auto)). field. nra.
    - intros p q b Hp Hq Hb. pose proof (Rn (snd p) (snd q)). set (z := r (snd p) (snd q)) in *.
      replace (- z * atan (b / z) - - (PI / 2) * z) with (- (z * (atan (b / z) - PI / 2))) by ring.
      rewrite Rabs_Ropp, Rabs_mult, (Rabs_right z) by lra.
      destruct H as [H|<-]; [|unfold Rdiv; rewrite !Rmult_0_l; lra].
      replace (z * z / b) with (z * (z / b)) by (unfold Rdiv; ring).
      apply Rmult_le_compat_l; [lra|]. apply atan_far; lra. }
  rewrite qf_scal in G. pose proof PI_RGT_0. fold r. set (z := qf r l) in *.
  change (0 < - (PI / 2) * z) in G. assert (0 < PI / 2) by lra. nra.
Qed.

(** ** Second-order side conditions *)
Definition balanced (n : nat) (l : list wpoint) : Prop :=
  psum fst l = 0 /\ forall d, (d < n)%nat -> psum (fun p => fst p * nth d (snd p) 0) l = 0.
Lemma qf_dot_balanced n l : dim n l -> balanced n l -> qf rdot l = 0.
Proof.
  intros Hl [_ Hb]. rewrite (qf_ext _ (fun x y => psum (fun d => nth d x 0 * nth d y 0) (seq 0 n))).
  - rewrite (qf_sum (fun d x y => nth d x 0 * nth d y 0)). apply psum_zero. intros d Hd. apply in_seq in Hd.
    rewrite (qf_ext _ (fun x y => nth d x 0 * nth d y 0 * 1)) by (intros; ring).
    rewrite <- (qf_reweight (fun x => nth d x 0) (fun _ _ => 1)), qf_const. unfold reweight. rewrite psum_map. cbn [fst].
    rewrite Hb by lia. ring.
  - intros p q Hp Hq. apply rdot_psum; apply Hl; auto.
Qed.
Lemma qf_sqd_balanced n l : dim n l -> balanced n l -> qf sqd l = 0.
Proof.
  intros Hl Hb. rewrite (qf_ext _ (fun x y => (rdot x x + rdot y y) + (-2) * rdot x y)) by (intros; unfold sqd; ring).
  rewrite qf_plus, qf_plus, (qf_left (fun x => rdot x x)), (qf_right (fun x => rdot x x)), qf_scal, (qf_dot_balanced n) by (auto; apply Hb). ring.
Qed.
Lemma cubic_pos n l : dim n l -> distinct l -> active l -> balanced n l ->
  0 < qf (fun x y => sqrt (sqd x y) * sqrt (sqd x y) * sqrt (sqd x y)) l.
Proof.
  intros Hl Hd Ha Hb.
  set (r := fun x y => sqrt (sqd x y)).
  assert (Rn : forall x y, 0 <= r x y) by (intros; apply sqrt_pos).
  assert (Sq : forall p q, In p l -> In q l -> r (snd p) (snd q) * r (snd p) (snd q) = sqd (snd p) (snd q)).
  { intros p q Hp Hq. apply sqrt_sqrt. apply sqd_nonneg. rewrite (Hl p), (Hl q); auto. }
  assert (G : 0 < qf (fun x y => (PI / 2) * (r x y * r x y * r x y)) l).
  { apply (grow_qf (fun b x y => (r x y * r x y * r x y) * atan (b / r x y))
      (fun b x y => r x y * r x y * r x y * r x y / (r x y * r x y + b * b))
      _ (fun x y => r x y * r x y * r x y * r x y)).
    - rewrite (qf_ext _ (fun _ _ => 0)); [rewrite qf_const; ring|]. intros. unfold Rdiv. rewrite Rmult_0_l, atan_0. ring.
    - intros p q b Hp Hq Hb'. destruct (Req_dec (r (snd p) (snd q)) 0) as [E|E].
      + rewrite E. replace (0 * 0 * 0 * 0 / (0 * 0 + b * b)) with 0 by (unfold Rdiv; ring).
        apply derivable_pt_lim_ext with (fun _ => 0); [intros; ring|apply derivable_pt_lim_const].
      + apply (derive_atan (r (snd p) (snd q) * r (snd p) (snd q) * r (snd p) (snd q))); auto.
    - intros b Hb'.
      rewrite (qf_ext _ (fun x y => (b * b * (b * b)) * / (sqd x y + b * b) + (sqd x y + - (b * b)))).
      + rewrite !qf_plus, qf_scal, qf_const, (qf_sqd_balanced n), (proj1 Hb) by auto.
        pose proof (inv_spd n (b * b) l ltac:(nra) Hl Hd Ha) as I.
        assert (0 < b * b * (b * b)) by (assert (0 < b * b) by nra; nra). pose proof (Rmult_lt_0_compat _ _ H I). lra.
      + intros p q Hp Hq. rewrite (Rmult_assoc (r _ _ * r _ _)), Sq by auto.
        pose proof (sqd_nonneg (snd p) (snd q) ltac:(rewrite (Hl p), (Hl q); auto)). field. nra.
    - intros p q b Hp Hq Hb'. pose proof (Rn (snd p) (snd q)). set (z := r (snd p) (snd q)) in *.
      replace (z * z * z * atan (b / z) - PI / 2 * (z * z * z)) with ((z * z * z) * (atan (b / z) - PI / 2)) by ring.
      assert (0 <= z * z) by nra. assert (0 <= z * z * z) by nra.
      rewrite Rabs_mult, (Rabs_right (z * z * z)) by lra.
      destruct H as [H|<-]; [|unfold Rdiv; rewrite !Rmult_0_l; lra].
      replace (z * z * z * z / b) with (z * z * z * (z / b)) by (unfold Rdiv; ring).
      apply Rmult_le_compat_l; [lra|]. apply atan_far; lra. }
  rewrite qf_scal in G. pose proof PI_RGT_0. change (0 < qf (fun x y => r x y * r x y * r x y) l).
  set (z := qf (fun x y => r x y * r x y * r x y) l) in *. assert (0 < PI / 2) by lra. nra.
Qed.

(** ** Thin plate spline *)
Lemma ln_below z : 0 < z -> ln z <= z - 1.
Proof.
  intros H. destruct (Req_dec (ln z) 0) as [E|E].
  - rewrite <- (exp_ln z) at 2 by auto. rewrite E, exp_0. lra.
  - pose proof (exp_ineq1 (ln z) E). rewrite exp_ln in H0 by auto. lra.
Qed.
Lemma ln_div' a b : 0 < a -> 0 < b -> ln (a / b) = ln a - ln b.
Proof. intros. unfold Rdiv. rewrite ln_mult, ln_Rinv by (auto; apply Rinv_0_lt_compat; auto). ring. Qed.
Lemma ln_gap s b : 0 <= s -> 1 <= b -> Rabs (ln (1 + b) - ln (s + b)) <= (1 + s) / b.
Proof.
  intros Hs Hb. rewrite <- ln_div' by lra.
  assert (I : 0 < / b) by (apply Rinv_0_lt_compat; lra).
  assert (A : (1 + b) / (s + b) - 1 <= (1 + s) / b).
  { replace ((1 + b) / (s + b) - 1) with ((1 - s) * / (s + b)) by (field; lra).
    assert (0 < / (s + b) <= / b) by (split; [apply Rinv_0_lt_compat; lra|apply Rinv_le_contravar; lra]). unfold Rdiv. nra. }
  assert (B : (s + b) / (1 + b) - 1 <= (1 + s) / b).
  { replace ((s + b) / (1 + b) - 1) with ((s - 1) * / (1 + b)) by (field; lra).
    assert (0 < / (1 + b) <= / b) by (split; [apply Rinv_0_lt_compat; lra|apply Rinv_le_contravar; lra]). unfold Rdiv. nra. }
  pose proof (ln_below ((1 + b) / (s + b)) ltac:(apply Rmult_lt_0_compat; [lra|apply Rinv_0_lt_compat; lra])).
  pose proof (ln_below ((s + b) / (1 + b)) ltac:(apply Rmult_lt_0_compat; [lra|apply Rinv_0_lt_compat; lra])).
  assert (ln ((s + b) / (1 + b)) = - ln ((1 + b) / (s + b))) by (rewrite !ln_div' by lra; ring).
  apply Rabs_le. lra.
Qed.
Lemma derive_ln s b : 0 < s + b -> derivable_pt_lim (fun b => ln (s + b)) b (/ (s + b)).
Proof.
  intros H. replace (/ (s + b)) with (/ (s + b) * (0 + 1)) by ring.
  apply (derivable_pt_lim_comp (fun b => s + b) ln); [|apply derivable_pt_lim_ln; auto].
  apply (derivable_pt_lim_plus (fun _ => s) (fun b => b)); [apply derivable_pt_lim_const|apply derivable_pt_lim_id].
Qed.
Lemma spline_pos n l : dim n l -> distinct l -> active l -> balanced n l ->
  0 < qf (fun x y => sqd x y * ln (sqd x y)) l.
Proof.
  intros Hl Hd Ha Hb.
  assert (Sn : forall p q, In p l -> In q l -> 0 <= sqd (snd p) (snd q)).
  { intros p q Hp Hq. apply sqd_nonneg. rewrite (Hl p), (Hl q); auto. }
  apply (grow_qf (fun b x y => sqd x y * ln (sqd x y) + sqd x y * (ln (1 + b) - ln (sqd x y + b)))
    (fun b x y => 0 + sqd x y * (/ (1 + b) - / (sqd x y + b))) _ (fun x y => sqd x y * (1 + sqd x y))).
  - rewrite (qf_ext _ (fun _ _ => 0)); [rewrite qf_const; ring|]. intros. rewrite !Rplus_0_r, ln_1. ring.
  - intros p q b Hp Hq Hb'. pose proof (Sn p q Hp Hq) as S. set (s := sqd (snd p) (snd q)) in *.
    apply (derivable_pt_lim_plus (fun _ => s * ln s) (fun b => s * (ln (1 + b) - ln (s + b)))); [apply derivable_pt_lim_const|].
    destruct S as [S|<-].
    + apply (derivable_pt_lim_scal (fun b => ln (1 + b) - ln (s + b))).
      apply (derivable_pt_lim_minus (fun b => ln (1 + b)) (fun b => ln (s + b))); apply derive_ln; lra.
    + apply derivable_pt_lim_ext with (fun _ => 0); [intros; ring|]. rewrite Rmult_0_l. apply derivable_pt_lim_const.
  - intros b Hb'.
    rewrite (qf_ext _ (fun x y => b * / (sqd x y + b) + (-1 + / (1 + b) * sqd x y))).
    + rewrite !qf_plus, !qf_scal, qf_const, (qf_sqd_balanced n), (proj1 Hb) by auto.
      pose proof (inv_spd n b l Hb' Hl Hd Ha) as I. pose proof (Rmult_lt_0_compat _ _ Hb' I). lra.
    + intros p q Hp Hq. pose proof (Sn p q Hp Hq). field. lra.
  - intros p q b Hp Hq Hb'. pose proof (Sn p q Hp Hq) as S. set (s := sqd (snd p) (snd q)) in *.
    replace (s * ln s + s * (ln (1 + b) - ln (s + b)) - s * ln s) with (s * (ln (1 + b) - ln (s + b))) by ring.
    rewrite Rabs_mult, (Rabs_right s) by lra. unfold Rdiv. rewrite Rmult_assoc.
    apply Rmult_le_compat_l; [auto|]. apply ln_gap; auto.
Qed.
