(** * Definiteness of the basis functions on distinct nodes; well-posed interpolation. *)
From Coq Require Import Reals Lra Lia List.
From Verif Require Import KernelSum KernelAna LinAlg.
From Verif Require Import RBFProofs RBFSolve AuxProofs AuxInverse SpecAux SpecLinear.
Import ListNotations.
Open Scope R_scope.

Definition weighted (lam : list R) (nodes : list rpoint) : list wpoint := combine lam nodes.
Lemma weighted_dim n lam nodes : in_dimension n nodes -> dim n (weighted lam nodes).
Proof. intros H (a & x) Hp. apply in_combine_r in Hp. apply H. auto. Qed.
Lemma combine_snd (lam : list R) : forall nodes : list rpoint, length lam = length nodes -> map snd (combine lam nodes) = nodes.
Proof. induction lam as [|a lam IH]; intros [|x nodes] H; cbn in *; try discriminate; auto. f_equal. apply IH. lia. Qed.
Lemma weighted_distinct lam nodes : length lam = length nodes -> NoDup nodes -> distinct (weighted lam nodes).
Proof. intros H Hd. unfold distinct, weighted. rewrite combine_snd; auto. Qed.
Lemma weighted_active lam : forall nodes, length lam = length nodes -> lam <> zeros (length nodes) -> active (weighted lam nodes).
Proof.
  induction lam as [|a lam IH]; intros [|x nodes] H E; cbn in *; try discriminate; [tauto|].
  destruct (Req_dec a 0) as [->|Ha].
  - destruct (IH nodes ltac:(lia)) as (p & Hp & Hn); [intros ->; apply E; auto|]. exists p. split; [right; auto|auto].
  - exists (a, x). split; [left; auto|auto].
Qed.
Lemma rdot_psum_nodes (f : rpoint -> R) nodes : forall lam, rdot (map f nodes) lam = psum (fun p => fst p * f (snd p)) (weighted lam nodes).
Proof. induction nodes as [|x nodes IH]; intros [|a lam]; cbn; auto. rewrite IH. unfold weighted. ring. Qed.
Lemma quad_qf (K : rpoint -> rpoint -> R) nodes lam : length lam = length nodes ->
  rdot (map (fun x => rdot (map (K x) nodes) lam) nodes) lam = qf K (weighted lam nodes).
Proof.
  intros H. rewrite rdot_psum_nodes. unfold qf. apply psum_ext. intros p _. rewrite rdot_psum_nodes, <- psum_scal.
  apply psum_ext. intros. ring.
Qed.

Lemma distance_sqd x y : length x = length y -> distance x y = sqrt (sqd x y).
Proof. intros H. unfold distance. rewrite sqd_dot by auto. reflexivity. Qed.

(** The side conditions. *)
Definition side (kind : rbf_kind) (n : nat) (nodes : list rpoint) (lam : list R) : Prop :=
  forall j, (j < size_P kind n)%nat -> rdot (map (fun x => nth j (monomials (degree_polynomial kind) x) 0) nodes) lam = 0.
Lemma side_sum kind n nodes lam : in_dimension n nodes -> (0 <= degree_polynomial kind)%Z -> side kind n nodes lam ->
  psum fst (weighted lam nodes) = 0.
Proof.
  intros Hn Hk Hs.
  assert (G : rdot (map (fun _ => 1) nodes) lam = 0).
  { rewrite <- (Hs (size_P kind n - 1)%nat) by (destruct kind; cbn in *; lia). f_equal. apply map_ext_in. intros x Hx.
    destruct kind; cbn in *; try lia; try reflexivity.
    all: rewrite app_nth2; rewrite (Hn x Hx); [|lia]; replace (n + 1 - 1 - n)%nat with 0%nat by lia; reflexivity. }
  rewrite rdot_psum_nodes in G. rewrite <- G. apply psum_ext. intros. ring.
Qed.
Lemma side_balanced kind n nodes lam : in_dimension n nodes -> degree_polynomial kind = 1%Z -> side kind n nodes lam ->
  balanced n (weighted lam nodes).
Proof.
  intros Hn Hk Hs. split; [apply (side_sum kind n); auto; lia|]. intros d Hd.
  assert (Hp : size_P kind n = (n + 1)%nat) by (destruct kind; cbn in *; lia).
  rewrite <- (rdot_psum_nodes (fun x => nth d x 0)). etransitivity; [|apply (Hs d); lia]. f_equal. apply map_ext_in. intros x Hx.
  rewrite Hk. cbn. symmetry. apply app_nth1. rewrite (Hn x Hx). auto.
Qed.

(** Sign of the form: (-1) to the degree + 1. *)
Definition form (kind : rbf_kind) (gamma : R) (nodes : list rpoint) (lam : list R) : R :=
  rdot (map (fun x => rdot (map (fun y => rbf_function kind gamma (distance x y)) nodes) lam) nodes) lam.
Lemma kernel_definite kind gamma n nodes lam : in_dimension n nodes -> NoDup nodes -> shape_ok kind gamma ->
  length lam = length nodes -> side kind n nodes lam -> lam <> zeros (length nodes) ->
  0 < (if (degree_polynomial kind =? 0)%Z then -1 else 1) * form kind gamma nodes lam.
Proof.
  intros Hn Hd Hg Hl Hs Hz. unfold form.
  rewrite (quad_qf (fun x y => rbf_function kind gamma (distance x y))) by auto.
  pose proof (weighted_dim n lam nodes Hn) as D. pose proof (weighted_distinct lam nodes Hl Hd) as E.
  pose proof (weighted_active lam nodes Hl Hz) as A.
  rewrite (qf_ext _ (fun x y => rbf_function kind gamma (sqrt (sqd x y))))
    by (intros p q Hp Hq; rewrite distance_sqd; auto; rewrite (D p), (D q); auto).
  assert (Sn : forall p q, In p (weighted lam nodes) -> In q (weighted lam nodes) -> 0 <= sqd (snd p) (snd q))
    by (intros p q Hp Hq; apply sqd_nonneg; rewrite (D p), (D q); auto).
  destruct kind; cbn [degree_polynomial Z.eqb rbf_function].
  - pose proof (cubic_pos n _ D E A (side_balanced Cubic n nodes lam Hn eq_refl Hs)). unfold cubic. lra.
  - pose proof (spline_pos n _ D E A (side_balanced ThinPlate n nodes lam Hn eq_refl Hs)) as P.
    rewrite (qf_ext _ (fun x y => / 2 * (sqd x y * ln (sqd x y)))).
    + rewrite qf_scal. lra.
    + intros p q Hp Hq. pose proof (Sn p q Hp Hq) as S. set (s := sqd (snd p) (snd q)) in *.
      destruct S as [S|<-].
      * pose proof (sqrt_lt_R0 s S). rewrite RBFProofs.tps_pos by auto. rewrite sqrt_sqrt by lra.
        assert (ln s = 2 * ln (sqrt s)) as ->; [|field]. rewrite <- (sqrt_sqrt s) at 1 by lra. rewrite ln_mult by auto. ring.
      * rewrite sqrt_0, tps_0. ring.
  - pose proof (dist_neg n 0 _ ltac:(lra) D E A (side_sum Linear n nodes lam Hn ltac:(cbn; lia) Hs)) as P.
    rewrite (qf_ext _ (fun x y => linear (sqrt (sqd x y)))) in P by (intros; rewrite Rplus_0_r; reflexivity). lra.
  - pose proof (dist_neg n (gamma * gamma) _ ltac:(nra) D E A (side_sum Multiquadric n nodes lam Hn ltac:(cbn; lia) Hs)) as P.
    rewrite (qf_ext _ (fun x y => multiquadric gamma (sqrt (sqd x y)))) in P; [lra|].
    intros p q Hp Hq. unfold multiquadric. rewrite sqrt_sqrt by auto. reflexivity.
  - pose proof (gauss_spd n gamma _ (Hg eq_refl) D E A) as P.
    rewrite (qf_ext _ (fun x y => gaussian gamma (sqrt (sqd x y)))) in P; [lra|].
    intros p q Hp Hq. unfold gaussian. f_equal. rewrite Rmult_assoc, sqrt_sqrt by auto. ring.
Qed.
Lemma kernel_null kind gamma n nodes lam : in_dimension n nodes -> NoDup nodes -> shape_ok kind gamma ->
  length lam = length nodes -> side kind n nodes lam -> form kind gamma nodes lam = 0 -> lam = zeros (length nodes).
Proof.
  intros Hn Hd Hg Hl Hs H0. destruct (zeros_or_not lam) as [E|(p & Hp & Hnz)]; [rewrite E; f_equal; auto|].
  exfalso. pose proof (kernel_definite kind gamma n nodes lam Hn Hd Hg Hl Hs) as P.
  rewrite H0 in P. assert (lam <> zeros (length nodes)) as Z by (intros ->; rewrite nth_zeros in Hnz; auto).
  specialize (P Z). lra.
Qed.

(** ** Solutions of the homogeneous problem *)
Lemma poly_part kind n nodes lam h : in_dimension n nodes -> length h = size_P kind n ->
  side kind n nodes lam ->
  rdot (map (fun x => rdot (monomials (degree_polynomial kind) x) h) nodes) lam = 0.
Proof.
  intros Hn Hh Hs.
  assert (E : rdot (map (fun x => rdot (monomials (degree_polynomial kind) x) h) nodes) lam =
    psum (fun j => nth j h 0 * rdot (map (fun x => nth j (monomials (degree_polynomial kind) x) 0) nodes) lam) (seq 0 (size_P kind n))).
  { rewrite rdot_psum_nodes.
    rewrite (psum_ext _ (fun p => psum (fun j => fst p * (nth j h 0 * nth j (monomials (degree_polynomial kind) (snd p)) 0)) (seq 0 (size_P kind n)))).
    - rewrite psum_swap. apply psum_ext. intros j _. rewrite rdot_psum_nodes, <- psum_scal. apply psum_ext. intros. ring.
    - intros (a & x) Hp. cbn [fst snd]. rewrite psum_scal. f_equal. rewrite KernelSum.rdot_comm. apply rdot_psum; auto.
      rewrite monomials_tail. apply tail_length. apply in_combine_r in Hp. apply Hn; auto. }
  rewrite E. apply psum_zero. intros j Hj. apply in_seq in Hj. rewrite (Hs j) by lia. ring.
Qed.
Lemma map_plus_dot (f g : rpoint -> R) nodes lam :
  rdot (map (fun x => f x + g x) nodes) lam = rdot (map f nodes) lam + rdot (map g nodes) lam.
Proof. rewrite !rdot_psum_nodes, <- psum_plus. apply psum_ext. intros. ring. Qed.
Lemma homogeneous kind gamma n nodes lam h : in_dimension n nodes -> NoDup nodes -> shape_ok kind gamma ->
  length lam = length nodes -> length h = size_P kind n -> side kind n nodes lam ->
  (forall x, In x nodes -> model_at kind gamma nodes lam h x = 0) ->
  lam = zeros (length nodes) /\ forall x, In x nodes -> rdot (monomials (degree_polynomial kind) x) h = 0.
Proof.
  intros Hn Hd Hg Hl Hh Hs H0.
  assert (Z : lam = zeros (length nodes)).
  { apply (kernel_null kind gamma n); auto.
    assert (E : rdot (map (model_at kind gamma nodes lam h) nodes) lam = 0).
    { rewrite rdot_psum_nodes. apply psum_zero. intros (a & x) Hp. apply in_combine_r in Hp. cbn. rewrite H0 by auto. ring. }
    unfold model_at in E. rewrite map_plus_dot, (poly_part kind n) in E by auto. unfold form. lra. }
  split; auto. intros x Hx. pose proof (H0 x Hx) as E. unfold model_at in E. rewrite Z, rdot_zeros_r in E. lra.
Qed.

(** ** Uniqueness *)
Lemma model_at_sub kind gamma nodes lam h lam' h' x : length lam = length lam' -> length h = length h' ->
  model_at kind gamma nodes (vsub lam lam') (vsub h h') x = model_at kind gamma nodes lam h x - model_at kind gamma nodes lam' h' x.
Proof. intros. unfold model_at. rewrite !rdot_vsub by auto. ring. Qed.
Lemma weights_unique kind gamma n nodes vals lam h lam' h' : in_dimension n nodes -> NoDup nodes -> shape_ok kind gamma ->
  interpolates kind gamma n nodes vals lam h -> interpolates kind gamma n nodes vals lam' h' ->
  lam = lam' /\ forall x, In x nodes -> rdot (monomials (degree_polynomial kind) x) (vsub h h') = 0.
Proof.
  intros Hn Hd Hg (L1 & L2 & L3 & L4) (M1 & M2 & M3 & M4).
  destruct (homogeneous kind gamma n nodes (vsub lam lam') (vsub h h')) as [Z1 Z2]; auto.
  - unfold vsub. rewrite map2_len; lia.
  - unfold vsub. rewrite map2_len; lia.
  - intros j Hj. rewrite rdot_vsub by lia. rewrite L4, M4 by auto. ring.
  - intros x Hx. rewrite model_at_sub by lia. apply (In_nth _ _ []) in Hx. destruct Hx as (j & Hj & <-). rewrite L3, M3 by auto. ring.
  - split; auto. apply vsub_zero; [lia|]. rewrite Z1. f_equal. auto.
Qed.
Lemma model_unique kind gamma n dropped nodes vals lam h lam' h' : in_dimension n nodes -> NoDup nodes -> shape_ok kind gamma ->
  unisolvent kind n dropped nodes -> (forall j, In j dropped -> nth j h 0 = nth j h' 0) ->
  interpolates kind gamma n nodes vals lam h -> interpolates kind gamma n nodes vals lam' h' ->
  lam = lam' /\ h = h'.
Proof.
  intros Hn Hd Hg Hu Hdr H H'. destruct (weights_unique kind gamma n nodes vals lam h lam' h') as [E Z]; auto.
  split; auto. destruct H as (_ & L & _), H' as (_ & L' & _). apply vsub_zero; [lia|]. rewrite L. apply Hu; auto.
  - unfold vsub. rewrite map2_len; lia.
  - intros j Hj. unfold vsub. assert (G : forall a b i, length a = length b -> nth i (map2 Rminus a b) 0 = nth i a 0 - nth i b 0).
    { clear. induction a as [|u a IH]; intros [|v b] [|i] H; cbn in *; try discriminate; try ring. apply IH. lia. }
    rewrite G by lia. rewrite Hdr by auto. ring.
Qed.

(** ** The system *)
Definition Amat := rbf_matrix_exact.
Lemma exact_is_rows kind gamma n nodes : in_dimension n nodes -> rows_of (length nodes + size_P kind n) (Amat kind gamma n nodes).
Proof.
  intros Hn r Hr. apply (In_nth _ _ []) in Hr. destruct Hr as (i & Hi & <-). apply exact_row_length; auto.
  unfold Amat in Hi. rewrite exact_length in Hi by auto. exact Hi.
Qed.
Lemma system_interpolates kind gamma n nodes vals lam h : in_dimension n nodes -> length vals = length nodes ->
  length lam = length nodes -> length h = size_P kind n ->
  mat_vec (Amat kind gamma n nodes) (lam ++ h) = rbf_rhs (size_P kind n) vals <-> interpolates kind gamma n nodes vals lam h.
Proof.
  intros Hn Hv Hl Hh. unfold Amat.
  assert (Top : forall i, (i < length nodes)%nat -> nth i (mat_vec (rbf_matrix_exact kind gamma n nodes) (lam ++ h)) 0 =
     model_at kind gamma nodes lam h (nth i nodes [])).
  { intros i Hi. rewrite nth_mat_vec by (rewrite exact_length by auto; lia). rewrite exact_row_top by auto.
    rewrite rdot_app by (rewrite phi_row_length; auto). unfold model_at. rewrite monomials_tail. reflexivity. }
  assert (Bot : forall j, (j < size_P kind n)%nat -> nth (length nodes + j) (mat_vec (rbf_matrix_exact kind gamma n nodes) (lam ++ h)) 0 =
     rdot (map (fun x => nth j (monomials (degree_polynomial kind) x) 0) nodes) lam).
  { intros j Hj. rewrite nth_mat_vec by (rewrite exact_length by auto; lia). rewrite exact_row_bottom by auto.
    rewrite rdot_app by (rewrite map_length; auto). rewrite rdot_zeros_l, Rplus_0_r. f_equal. apply map_ext. intros x.
    rewrite monomials_tail. reflexivity. }
  split.
  - intros E. repeat split; auto.
    + intros i Hi. rewrite <- Top by auto. rewrite E. unfold rbf_rhs. rewrite app_nth1 by lia. reflexivity.
    + intros j Hj. rewrite <- Bot by auto. rewrite E. unfold rbf_rhs. rewrite app_nth2 by lia. apply nth_zeros.
  - intros (_ & _ & H3 & H4). apply nth_ext with 0 0.
    + rewrite mat_vec_length, exact_length by auto. unfold rbf_rhs. rewrite app_length, zeros_length. lia.
    + intros i Hi. rewrite mat_vec_length, exact_length in Hi by auto. destruct (Nat.lt_ge_cases i (length nodes)) as [L|L].
      * rewrite Top, H3 by auto. unfold rbf_rhs. rewrite app_nth1 by lia. reflexivity.
      * replace i with (length nodes + (i - length nodes))%nat by lia. rewrite Bot, H4 by lia.
        unfold rbf_rhs. rewrite app_nth2 by lia. symmetry. apply nth_zeros.
Qed.
Lemma zeros_app a b : zeros a ++ zeros b = zeros (a + b).
Proof. symmetry. apply repeat_app. Qed.
Lemma rhs_zero kind n k : rbf_rhs (size_P kind n) (zeros k) = zeros (k + size_P kind n).
Proof. unfold rbf_rhs. apply zeros_app. Qed.
Lemma kernel_vector kind gamma n nodes lam h : in_dimension n nodes -> NoDup nodes -> shape_ok kind gamma ->
  length lam = length nodes -> length h = size_P kind n ->
  mat_vec (Amat kind gamma n nodes) (lam ++ h) = zeros (length nodes + size_P kind n) ->
  lam = zeros (length nodes) /\ forall x, In x nodes -> rdot (monomials (degree_polynomial kind) x) h = 0.
Proof.
  intros Hn Hd Hg Hl Hh E. rewrite <- rhs_zero in E. apply system_interpolates in E; auto; [|apply zeros_length].
  destruct E as (_ & _ & E1 & E2). apply (homogeneous kind gamma n); auto.
  intros x Hx. apply (In_nth _ _ []) in Hx. destruct Hx as (j & Hj & <-). rewrite E1 by auto. apply nth_zeros.
Qed.
Lemma system_injective kind gamma n nodes : in_dimension n nodes -> NoDup nodes -> shape_ok kind gamma ->
  unisolvent kind n [] nodes -> injective (length nodes + size_P kind n) (Amat kind gamma n nodes).
Proof.
  intros Hn Hd Hg Hu x Lx E. unfold Amat in E. rewrite exact_length in E by auto.
  set (u := firstn (length nodes) x). set (v := skipn (length nodes) x).
  assert (Lu : length u = length nodes) by (unfold u; rewrite firstn_length; lia).
  assert (Lv : length v = size_P kind n) by (unfold v; rewrite skipn_length; lia).
  assert (Ex : x = u ++ v) by (symmetry; apply firstn_skipn). rewrite Ex in E.
  destruct (kernel_vector kind gamma n nodes u v Hn Hd Hg Lu Lv E) as [E1 E2].
  apply Hu in E2; [|auto|intros ? []]. rewrite Ex, E1, E2. apply zeros_app.
Qed.
Lemma model_exists kind gamma n nodes vals : in_dimension n nodes -> NoDup nodes -> shape_ok kind gamma ->
  unisolvent kind n [] nodes -> length vals = length nodes -> exists lam h, interpolates kind gamma n nodes vals lam h.
Proof.
  intros Hn Hd Hg Hu Hv.
  destruct (square_surjective (length nodes + size_P kind n) (Amat kind gamma n nodes) (rbf_rhs (size_P kind n) vals)) as (x & Lx & Ex).
  - apply exact_is_rows; auto.
  - apply exact_length; auto.
  - apply system_injective; auto.
  - unfold rbf_rhs. rewrite app_length, zeros_length. lia.
  - exists (firstn (length nodes) x), (skipn (length nodes) x).
    apply system_interpolates; auto; [rewrite firstn_length; lia|rewrite skipn_length; lia|rewrite firstn_skipn; auto].
Qed.
