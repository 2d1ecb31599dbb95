(** * Finite sums and quadratic forms; powers, exponentials and Gaussians of inner products
    (weights on distinct points give a positive form).  Proof library. *)
From Coq Require Import Reals Lra Lia List.
From Verif Require Import ModelGeom.
Import ListNotations.
Open Scope R_scope.

Fixpoint psum {A} (f : A -> R) (l : list A) : R :=
  match l with [] => 0 | a :: r => f a + psum f r end.

Lemma psum_ext {A} (f g : A -> R) l : (forall a, In a l -> f a = g a) -> psum f l = psum g l.
Proof. induction l as [|a l IH]; intros H; cbn; auto. rewrite IH, H by (cbn; auto; intros; apply H; right; auto). auto. Qed.
Lemma psum_plus {A} (f g : A -> R) l : psum (fun a => f a + g a) l = psum f l + psum g l.
Proof. induction l as [|a l IH]; cbn; [ring|rewrite IH; ring]. Qed.
Lemma psum_minus {A} (f g : A -> R) l : psum (fun a => f a - g a) l = psum f l - psum g l.
Proof. induction l as [|a l IH]; cbn; [ring|rewrite IH; ring]. Qed.
Lemma psum_scal {A} c (f : A -> R) l : psum (fun a => c * f a) l = c * psum f l.
Proof. induction l as [|a l IH]; cbn; [ring|rewrite IH; ring]. Qed.
Lemma psum_scal_r {A} c (f : A -> R) l : psum (fun a => f a * c) l = psum f l * c.
Proof. induction l as [|a l IH]; cbn; [ring|rewrite IH; ring]. Qed.
Lemma psum_0 {A} (l : list A) : psum (fun _ => 0) l = 0.
Proof. induction l as [|a l IH]; cbn; [ring|rewrite IH; ring]. Qed.
Lemma psum_zero {A} (f : A -> R) l : (forall a, In a l -> f a = 0) -> psum f l = 0.
Proof. intros H. rewrite (psum_ext _ (fun _ => 0)) by auto. apply psum_0. Qed.
Lemma psum_swap {A B} (f : A -> B -> R) l m :
  psum (fun a => psum (f a) m) l = psum (fun b => psum (fun a => f a b) l) m.
Proof. induction l as [|a l IH]; cbn; [rewrite psum_0; auto|]. rewrite psum_plus, IH. ring. Qed.
Lemma psum_map {A B} (g : A -> B) (f : B -> R) l : psum f (map g l) = psum (fun a => f (g a)) l.
Proof. induction l; cbn; congruence. Qed.
Lemma psum_app {A} (f : A -> R) l m : psum f (l ++ m) = psum f l + psum f m.
Proof. induction l as [|a l IH]; cbn; [ring|rewrite IH; ring]. Qed.
Lemma psum_nonneg {A} (f : A -> R) l : (forall a, In a l -> 0 <= f a) -> 0 <= psum f l.
Proof.
  induction l as [|a l IH]; cbn; intros H; [lra|].
  pose proof (H a (or_introl eq_refl)). assert (0 <= psum f l) by (apply IH; auto). lra.
Qed.
Lemma psum_le {A} (f g : A -> R) l : (forall a, In a l -> f a <= g a) -> psum f l <= psum g l.
Proof.
  induction l as [|a l IH]; cbn; intros H; [lra|].
  pose proof (H a (or_introl eq_refl)). assert (psum f l <= psum g l) by (apply IH; auto). lra.
Qed.
Lemma psum_pos {A} (f : A -> R) l a : (forall b, In b l -> 0 <= f b) -> In a l -> 0 < f a -> 0 < psum f l.
Proof.
  intros H Ha Hp. destruct (in_split _ _ Ha) as (u & v & ->). rewrite psum_app. cbn.
  assert (0 <= psum f u) by (apply psum_nonneg; intros; apply H, in_or_app; auto).
  assert (0 <= psum f v) by (apply psum_nonneg; intros; apply H, in_or_app; right; right; auto). lra.
Qed.
Lemma psum_prod {A B} (f : A * B -> R) (l : list A) (m : list B) :
  psum f (list_prod l m) = psum (fun a => psum (fun b => f (a, b)) m) l.
Proof. induction l as [|a l IH]; cbn; auto. rewrite psum_app, psum_map, IH. auto. Qed.

Lemma Un_cv_psum {A} (f : nat -> A -> R) g (l : list A) : (forall a, In a l -> Un_cv (fun n => f n a) (g a)) ->
  Un_cv (fun n => psum (f n) l) (psum g l).
Proof.
  induction l as [|a l IH]; intros H; cbn.
  - intros e He. exists 0%nat. intros. unfold R_dist. rewrite Rminus_eq_0, Rabs_R0. auto.
  - apply CV_plus; [apply H; left; auto|apply IH; intros; apply H; right; auto].
Qed.

(** Weighted points; quadratic form of a kernel. *)
Definition wpoint := (R * rpoint)%type.
Definition qf (K : rpoint -> rpoint -> R) (l : list wpoint) : R :=
  psum (fun p => psum (fun q => fst p * fst q * K (snd p) (snd q)) l) l.

Lemma qf_ext K K' l : (forall p q, In p l -> In q l -> K (snd p) (snd q) = K' (snd p) (snd q)) -> qf K l = qf K' l.
Proof. intros H. apply psum_ext. intros p Hp. apply psum_ext. intros q Hq. rewrite H; auto. Qed.
Lemma qf_plus K K' l : qf (fun x y => K x y + K' x y) l = qf K l + qf K' l.
Proof.
  unfold qf. rewrite <- psum_plus. apply psum_ext. intros. rewrite <- psum_plus. apply psum_ext. intros. ring.
Qed.
Lemma qf_scal c K l : qf (fun x y => c * K x y) l = c * qf K l.
Proof.
  unfold qf. rewrite <- psum_scal. apply psum_ext. intros. rewrite <- psum_scal. apply psum_ext. intros. ring.
Qed.
Lemma qf_prod K l : qf K l = psum (fun pq => fst (fst pq) * fst (snd pq) * K (snd (fst pq)) (snd (snd pq))) (list_prod l l).
Proof. rewrite psum_prod. reflexivity. Qed.
Lemma qf_const c l : qf (fun _ _ => c) l = c * psum fst l * psum fst l.
Proof.
  unfold qf. rewrite (psum_ext _ (fun p => fst p * (c * psum fst l))).
  - rewrite psum_scal_r. ring.
  - intros p _. rewrite (psum_ext _ (fun q => (fst p * c) * fst q)) by (intros; ring). rewrite psum_scal. ring.
Qed.
(** A kernel depending on one point only. *)
Lemma qf_left (g : rpoint -> R) l : psum fst l = 0 -> qf (fun x _ => g x) l = 0.
Proof.
  intros H. unfold qf. apply psum_zero. intros p _.
  rewrite (psum_ext _ (fun q => (fst p * g (snd p)) * fst q)) by (intros; ring). rewrite psum_scal, H. ring.
Qed.
Lemma qf_right (g : rpoint -> R) l : psum fst l = 0 -> qf (fun _ y => g y) l = 0.
Proof.
  intros H. unfold qf. rewrite psum_swap. apply psum_zero. intros p _.
  rewrite (psum_ext _ (fun q => (fst p * g (snd p)) * fst q)) by (intros; ring). rewrite psum_scal, H. ring.
Qed.

(** ** Inner products *)
Definition dim (n : nat) (l : list wpoint) : Prop := forall p, In p l -> length (snd p) = n.
Lemma rdot_psum n : forall x y, length x = n -> length y = n -> rdot x y = psum (fun d => nth d x 0 * nth d y 0) (seq 0 n).
Proof.
  induction n as [|n IH]; intros [|a x] [|b y] Hx Hy; cbn in *; try discriminate; auto.
  rewrite (IH x y) by lia. rewrite <- seq_shift, psum_map. cbn. auto.
Qed.
(** Multiplying the weights. *)
Definition reweight (g : rpoint -> R) (l : list wpoint) : list wpoint := map (fun p => (fst p * g (snd p), snd p)) l.
Lemma qf_reweight g K l : qf K (reweight g l) = qf (fun x y => g x * g y * K x y) l.
Proof.
  unfold qf, reweight. rewrite psum_map. apply psum_ext. intros. rewrite psum_map. apply psum_ext. intros. cbn. ring.
Qed.
Lemma qf_sum {B} (K : B -> rpoint -> rpoint -> R) l (m : list B) :
  qf (fun x y => psum (fun d => K d x y) m) l = psum (fun d => qf (K d) l) m.
Proof.
  induction m as [|d m IH]; cbn.
  - rewrite qf_const. ring.
  - rewrite qf_plus, IH. auto.
Qed.

Lemma dotpow_psd n m : forall l, dim n l -> 0 <= qf (fun x y => rdot x y ^ m) l.
Proof.
  induction m as [|m IH]; intros l Hl; cbn [pow].
  - rewrite qf_const. nra.
  - rewrite (qf_ext _ (fun x y => psum (fun d => nth d x 0 * nth d y 0 * rdot x y ^ m) (seq 0 n))).
    + rewrite qf_sum. apply psum_nonneg. intros d _. rewrite <- (qf_reweight (fun x => nth d x 0)).
      apply IH. intros p Hp. unfold reweight in Hp. apply in_map_iff in Hp. destruct Hp as (q & <- & Hq). cbn. apply Hl; auto.
    + intros p q Hp Hq. rewrite (rdot_psum n) at 1 by (apply Hl; auto). rewrite psum_scal_r. auto.
Qed.

(** ** Exponentials *)
Lemma E1_pow N t x : E1 (t * x) N = psum (fun k => / INR (fact k) * t ^ k * x ^ k) (seq 0 (S N)).
Proof.
  unfold E1. induction N as [|N IH].
  - cbn. ring.
  - rewrite seq_S, psum_app. cbn [plus]. rewrite <- IH. cbn [sum_f_R0 psum]. rewrite Rpow_mult_distr. ring.
Qed.
Lemma qf_E1 N t l : qf (fun x y => E1 (t * rdot x y) N) l =
  psum (fun k => / INR (fact k) * t ^ k * qf (fun x y => rdot x y ^ k) l) (seq 0 (S N)).
Proof.
  rewrite (qf_ext _ (fun x y => psum (fun k => / INR (fact k) * t ^ k * rdot x y ^ k) (seq 0 (S N)))) by (intros; apply E1_pow).
  rewrite (qf_sum (fun k x y => / INR (fact k) * t ^ k * rdot x y ^ k)). apply psum_ext. intros k _. apply qf_scal.
Qed.
Lemma qf_E1_cv t l : Un_cv (fun N => qf (fun x y => E1 (t * rdot x y) N) l) (qf (fun x y => exp (t * rdot x y)) l).
Proof.
  unfold qf. apply Un_cv_psum. intros p _. apply (Un_cv_psum (fun N q => fst p * fst q * E1 (t * rdot (snd p) (snd q)) N)
    (fun q => fst p * fst q * exp (t * rdot (snd p) (snd q)))). intros q _.
  apply CV_mult; [|apply E1_cvg].
  intros e He. exists 0%nat. intros. unfold R_dist. rewrite Rminus_eq_0, Rabs_R0. auto.
Qed.
Lemma qf_E1_growing n t l : 0 <= t -> dim n l -> Un_growing (fun N => qf (fun x y => E1 (t * rdot x y) N) l).
Proof.
  intros Ht Hl N. rewrite !qf_E1. rewrite (seq_S (S N)), psum_app. cbn [psum].
  pose proof (dotpow_psd n (0 + S N) l Hl). pose proof (pow_le t (0 + S N) Ht).
  pose proof (Rlt_le _ _ (Rinv_0_lt_compat _ (INR_fact_lt_0 (0 + S N)))).
  assert (0 <= / INR (fact (0 + S N)) * t ^ (0 + S N) * qf (fun x y => rdot x y ^ (0 + S N)) l)
    by (apply Rmult_le_pos; auto; apply Rmult_le_pos; auto). lra.
Qed.
Lemma exp_psd n t l : 0 <= t -> dim n l -> 0 <= qf (fun x y => exp (t * rdot x y)) l.
Proof.
  intros Ht Hl. pose proof (growing_ineq _ _ (qf_E1_growing n t l Ht Hl) (qf_E1_cv t l) 0%nat) as H. cbn beta in H.
  apply Rle_trans with (2 := H). rewrite qf_E1. cbn [seq psum fact pow INR]. rewrite qf_const.
  rewrite Rinv_1. nra.
Qed.
(** If the form of one exponential kernel vanishes then all do. *)
Lemma exp_null n t t' l : 0 < t -> dim n l -> qf (fun x y => exp (t * rdot x y)) l = 0 ->
  qf (fun x y => exp (t' * rdot x y)) l = 0.
Proof.
  intros Ht Hl H0.
  assert (P : forall k, qf (fun x y => rdot x y ^ k) l = 0).
  { intros k. pose proof (growing_ineq _ _ (qf_E1_growing n t l (Rlt_le _ _ Ht) Hl) (qf_E1_cv t l) k) as H. cbn beta in H.
    rewrite H0, qf_E1, seq_S, psum_app in H. cbn [psum plus] in H.
    assert (G : 0 <= psum (fun k => / INR (fact k) * t ^ k * qf (fun x y => rdot x y ^ k) l) (seq 0 k)).
    { apply psum_nonneg. intros j _. apply Rmult_le_pos; [|apply (dotpow_psd n); auto].
      apply Rmult_le_pos; [left; apply Rinv_0_lt_compat, INR_fact_lt_0|apply pow_le; lra]. }
    pose proof (dotpow_psd n k l Hl). pose proof (pow_lt t k Ht).
    pose proof (Rinv_0_lt_compat _ (INR_fact_lt_0 k)).
    assert (0 < / INR (fact k) * t ^ k) by (apply Rmult_lt_0_compat; auto).
    destruct (Req_dec (qf (fun x y => rdot x y ^ k) l) 0) as [E|E]; auto. exfalso.
    assert (0 < / INR (fact k) * t ^ k * qf (fun x y => rdot x y ^ k) l) by (apply Rmult_lt_0_compat; lra). lra. }
  apply UL_sequence with (fun _ : nat => 0).
  - intros e He. destruct (qf_E1_cv t' l e He) as [N HN]. exists N. intros m Hm. specialize (HN m Hm).
    rewrite qf_E1, psum_zero in HN by (intros k _; rewrite P; ring). auto.
  - intros e He. exists 0%nat. intros. unfold R_dist. rewrite Rminus_eq_0, Rabs_R0. auto.
Qed.

(** ** Tails of exponential sums *)
Lemma exp_decay c d e : 0 < d -> 0 < e -> forall t, Rabs c / (e * d) <= t -> 0 <= t -> - e <= c * exp (- (t * d)).
Proof.
  intros Hd He t Ht H0.
  assert (E : 1 + t * d <= exp (t * d)). { destruct (Req_dec (t * d) 0) as [Z|Z]; [rewrite Z, exp_0; lra|left; apply exp_ineq1; nra]. }
  assert (P : 0 < exp (t * d)) by apply exp_pos.
  rewrite exp_Ropp. apply Rmult_le_reg_r with (exp (t * d)); auto. rewrite Rmult_assoc, Rinv_l, Rmult_1_r by lra.
  assert (C : Rabs c <= e * (t * d)).
  { apply Rmult_le_compat_r with (r := e * d) in Ht; [|nra]. unfold Rdiv in Ht. rewrite Rmult_assoc, Rinv_l, Rmult_1_r in Ht by nra. nra. }
  pose proof (Rle_abs (- c)). rewrite Rabs_Ropp in *. nra.
Qed.
Lemma exp_tail (l : list (R * R)) : (forall p, In p l -> 0 <= fst p \/ 0 < snd p) -> forall e, 0 < e ->
  exists T, forall t, T <= t -> 0 <= t -> - e <= psum (fun p => fst p * exp (- (t * snd p))) l.
Proof.
  induction l as [|[c d] l IH]; intros H e He.
  - exists 0. intros. cbn. lra.
  - destruct (IH (fun p Hp => H p (or_intror Hp)) (e/2) ltac:(lra)) as [T HT].
    destruct (H (c, d) (or_introl eq_refl)) as [Hc|Hd]; cbn [fst snd] in *.
    + exists T. intros t Ht H0. cbn [psum fst snd]. specialize (HT t Ht H0).
      pose proof (exp_pos (- (t * d))). nra.
    + exists (Rmax T (Rabs c / (e/2 * d))). intros t Ht H0. cbn [psum fst snd].
      pose proof (HT t (Rle_trans _ _ _ (Rmax_l _ _) Ht) H0).
      pose proof (exp_decay c d (e/2) Hd ltac:(lra) t (Rle_trans _ _ _ (Rmax_r _ _) Ht) H0). lra.
Qed.

Lemma max_weighted (h : wpoint -> R) (l : list wpoint) :
  (forall p, In p l -> fst p = 0) \/
  exists p, In p l /\ fst p <> 0 /\ forall q, In q l -> fst q <> 0 -> h q <= h p.
Proof.
  induction l as [|a l [IH|(b & Hb & Hbn & Hm)]]; [left; intros p []| |].
  - destruct (Req_dec (fst a) 0) as [Ea|Ea]; [left; intros p [<-|Hp]; auto|right].
    exists a. repeat split; auto; [left; auto|]. intros q [<-|Hq] Hqn; [lra|]. rewrite IH in Hqn; tauto.
  - right. destruct (Req_dec (fst a) 0) as [Ea|Ea].
    + exists b. repeat split; auto; [right; auto|]. intros q [<-|Hq] Hqn; [tauto|auto].
    + destruct (Rle_dec (h a) (h b)) as [Hle|Hle].
      * exists b. repeat split; auto; [right; auto|]. intros q [<-|Hq] Hqn; auto.
      * exists a. repeat split; auto; [left; auto|]. intros q [<-|Hq] Hqn; [lra|]. pose proof (Hm q Hq Hqn). lra.
Qed.

(** ** Squared distances *)
Definition sqd (x y : rpoint) : R := rdot x x + rdot y y - 2 * rdot x y.
Lemma rdot_comm x : forall y, rdot x y = rdot y x.
Proof. induction x as [|a x IH]; intros [|b y]; cbn; auto. rewrite IH. ring. Qed.
Lemma rdot_self_nonneg x : 0 <= rdot x x.
Proof. induction x as [|a x IH]; cbn; [lra|nra]. Qed.
Lemma sqd_dot x : forall y, length x = length y -> sqd x y = rdot (map2 Rminus x y) (map2 Rminus x y).
Proof.
  unfold sqd. induction x as [|a x IH]; intros [|b y] H; cbn in *; try discriminate; [ring|].
  rewrite <- IH by lia. ring.
Qed.
Lemma rdot_self_zero x : rdot x x = 0 -> x = repeat 0 (length x).
Proof.
  induction x as [|a x IH]; cbn; auto. intros H. pose proof (rdot_self_nonneg x).
  assert (a = 0) by nra. subst. f_equal. apply IH. nra.
Qed.
Lemma minus_zero x : forall y, length x = length y -> map2 Rminus x y = repeat 0 (length (map2 Rminus x y)) -> x = y.
Proof.
  induction x as [|a x IH]; intros [|b y] H E; cbn in *; try discriminate; auto.
  injection E as E1 E2. f_equal; [lra|apply IH; auto].
Qed.
Lemma sqd_nonneg x y : length x = length y -> 0 <= sqd x y.
Proof. intros. rewrite sqd_dot by auto. apply rdot_self_nonneg. Qed.
Lemma sqd_zero x y : length x = length y -> sqd x y = 0 -> x = y.
Proof. intros H E. rewrite sqd_dot in E by auto. apply rdot_self_zero in E. apply minus_zero; auto. Qed.
Lemma sqd_self x : sqd x x = 0.
Proof. unfold sqd. ring. Qed.

Definition active (l : list wpoint) : Prop := exists p, In p l /\ fst p <> 0.
Definition distinct (l : list wpoint) : Prop := NoDup (map snd l).
Lemma distinct_eq l p q : distinct l -> In p l -> In q l -> snd p = snd q -> p = q.
Proof.
  unfold distinct. induction l as [|a l IH]; cbn; intros Hd Hp Hq E; [tauto|]. inversion_clear Hd.
  destruct Hp as [<-|Hp], Hq as [<-|Hq]; auto.
  - exfalso. apply H. rewrite E. apply in_map; auto.
  - exfalso. apply H. rewrite <- E. apply in_map; auto.
Qed.

(** Exponential kernel: the form is positive. *)
Lemma exp_spd n t l : 0 < t -> dim n l -> distinct l -> active l -> 0 < qf (fun x y => exp (t * rdot x y)) l.
Proof.
  intros Ht Hl Hd (w & Hw & Hwn). destruct (Rle_lt_or_eq_dec _ _ (exp_psd n t l (Rlt_le _ _ Ht) Hl)) as [|E]; auto. exfalso.
  pose proof (fun t' => exp_null n t t' l Ht Hl (eq_sym E)) as Z.
  destruct (max_weighted (fun p => rdot (snd p) (snd p)) l) as [N|(p & Hp & Hpn & Hm)]; [apply Hwn, N; auto|].
  set (M := rdot (snd p) (snd p)) in *.
  set (L := map (fun pq : wpoint * wpoint => (fst (fst pq) * fst (snd pq), M - rdot (snd (fst pq)) (snd (snd pq)))) (list_prod l l)).
  assert (S1 : forall t, psum (fun q => fst q * exp (- (t * snd q))) L = 0).
  { intros s. unfold L. rewrite psum_map. cbn [fst snd].
    rewrite (psum_ext _ (fun pq => exp (- (s * M)) * (fst (fst pq) * fst (snd pq) * exp (s * rdot (snd (fst pq)) (snd (snd pq)))))).
    - rewrite psum_scal, <- (qf_prod (fun x y => exp (s * rdot x y))), Z. ring.
    - intros ((a & x) & (b & y)) _. cbn [fst snd]. replace (- (s * (M - rdot x y))) with (- (s * M) + s * rdot x y) by ring. rewrite exp_plus. ring. }
  assert (In (fst p * fst p, M - rdot (snd p) (snd p)) L) as HI.
  { unfold L. apply in_map_iff. exists (p, p). split; auto. apply in_prod; auto. }
  destruct (in_split _ _ HI) as (u & v & EL).
  assert (C : forall q, In q L -> 0 <= fst q \/ 0 < snd q).
  { intros q Hq. unfold L in Hq. apply in_map_iff in Hq. destruct Hq as ((a & b) & <- & Hab). cbn [fst snd].
    apply in_prod_iff in Hab. destruct Hab as [Ha Hb].
    destruct (Req_dec (fst a) 0) as [Ea|Ea]; [left; rewrite Ea; lra|].
    destruct (Req_dec (fst b) 0) as [Eb|Eb]; [left; rewrite Eb; lra|].
    pose proof (Hm a Ha Ea). pose proof (Hm b Hb Eb).
    assert (Len : length (snd a) = length (snd b)) by (rewrite (Hl a), (Hl b); auto).
    pose proof (sqd_nonneg _ _ Len). unfold sqd in *.
    destruct (Req_dec (sqd (snd a) (snd b)) 0) as [Es|Es].
    - apply sqd_zero in Es; auto. rewrite (distinct_eq l a b) by auto. left. nra.
    - unfold sqd in Es. right. lra. }
  assert (0 < fst p * fst p) by nra.
  destruct (exp_tail (u ++ v)) with (e := fst p * fst p / 2) as [T HT]; [|lra|].
  { intros q Hq. apply C. rewrite EL. apply in_or_app. apply in_app_or in Hq. destruct Hq; auto. right; right; auto. }
  specialize (HT (Rmax T 0) (Rmax_l _ _) (Rmax_r _ _)). specialize (S1 (Rmax T 0)). rewrite EL, psum_app in S1. cbn [psum fst snd] in S1.
  rewrite psum_app in HT. fold M in S1. replace (- (Rmax T 0 * (M - M))) with 0 in S1 by ring. rewrite exp_0 in S1. lra.
Qed.

(** Gaussian kernel. *)
Lemma gauss_form g l : qf (fun x y => exp (- (g * sqd x y))) l =
  qf (fun x y => exp ((2 * g) * rdot x y)) (reweight (fun x => exp (- (g * rdot x x))) l).
Proof.
  rewrite qf_reweight. apply qf_ext. intros. rewrite <- !exp_plus. f_equal. unfold sqd. ring.
Qed.
Lemma reweight_dim n g l : dim n l -> dim n (reweight g l).
Proof. intros H p Hp. apply in_map_iff in Hp. destruct Hp as (q & <- & Hq). apply (H q); auto. Qed.
Lemma reweight_distinct g l : distinct l -> distinct (reweight g l).
Proof. unfold distinct, reweight. rewrite map_map. auto. Qed.
Lemma reweight_active g l : (forall x, g x <> 0) -> active l -> active (reweight g l).
Proof.
  intros H (p & Hp & Hn). exists (fst p * g (snd p), snd p). split; [apply in_map_iff; eauto|]. cbn.
  apply Rmult_integral_contrapositive_currified; auto.
Qed.
Lemma gauss_psd n g l : 0 <= g -> dim n l -> 0 <= qf (fun x y => exp (- (g * sqd x y))) l.
Proof. intros. rewrite gauss_form. apply (exp_psd n); [lra|apply reweight_dim; auto]. Qed.
Lemma gauss_spd n g l : 0 < g -> dim n l -> distinct l -> active l -> 0 < qf (fun x y => exp (- (g * sqd x y))) l.
Proof.
  intros. rewrite gauss_form. apply (exp_spd n); [lra|apply reweight_dim|apply reweight_distinct|apply reweight_active]; auto.
  intros x. pose proof (exp_pos (- (g * rdot x x))). lra.
Qed.
