(** * Symmetries of the surrogate (C155). *)
From Verif Require Import LinAlg KernelNodes SystemProofs GeomProofs RBFProofs RBFSolve RBFGlue AuxProofs LinearGlue.
From Verif Require PropertiesLinear PropertiesRBF KernelMore BaseLemmas RefineProofs.
From Verif Require Export SpecSymmetry.
From Coq Require Import Reals Lra Lia List Permutation.
Import ListNotations.
Open Scope R_scope.

Section Fit.
  Variables (solve : mat -> list R -> option (list R)) (kind : rbf_kind) (gamma eps : R) (n : nat).
  Hypothesis Hc : complete_solver solve.
  Hypothesis Hs : correct_solver solve.

  Lemma wp_unisolvent nodes vals : well_posed kind gamma eps n nodes vals -> unisolvent kind n [] nodes.
  Proof. intros (A & B & D & E & F & G & H). apply PropertiesLinear.C121_unisolvence; auto. Qed.
  Lemma fitted nodes vals lam h x : well_posed kind gamma eps n nodes vals ->
    interpolates kind gamma n nodes vals lam h -> length x = n ->
    surrogate solve kind gamma eps n nodes vals x = Some (model_at kind gamma nodes lam h x).
  Proof.
    intros W I Lx. pose proof (wp_unisolvent _ _ W) as U. destruct W as (A & B & D & E & F & G & H).
    destruct (PropertiesLinear.C121_never_fails solve kind gamma eps n nodes vals []) as (lam' & h' & I' & Q); auto; try congruence.
    unfold surrogate. rewrite Q.
    destruct (PropertiesLinear.C121_unique kind gamma n nodes vals lam h lam' h') as (-> & V); auto. rewrite (V U).
    destruct I' as (L1 & L2 & _). rewrite evaluate_model by auto. reflexivity.
  Qed.
  Lemma fits nodes vals : well_posed kind gamma eps n nodes vals ->
    exists lam h, interpolates kind gamma n nodes vals lam h.
  Proof.
    intros W. pose proof (wp_unisolvent _ _ W) as U. destruct W as (A & B & D & E & F & G & H).
    apply PropertiesLinear.C121_exists; auto.
  Qed.
End Fit.

(** ** Sums *)
Lemma rdot_map_add {A} (f g : A -> R) l : forall v, rdot (map (fun x => f x + g x) l) v = rdot (map f l) v + rdot (map g l) v.
Proof. induction l as [|a l IH]; intros [|b v]; cbn; try lra. rewrite IH. lra. Qed.
Lemma rdot_map_mult {A} a (f : A -> R) l : forall v, rdot (map (fun x => a * f x) l) v = a * rdot (map f l) v.
Proof. induction l as [|b l IH]; intros [|w v]; cbn; try lra. rewrite IH. lra. Qed.
Lemma rdot_map_ext {A} (f g : A -> R) l v : (forall x, In x l -> f x = g x) -> rdot (map f l) v = rdot (map g l) v.
Proof. intros H. rewrite (map_ext_in f g); auto. Qed.
Lemma rdot_map_zero {A} (l : list A) v : rdot (map (fun _ => 0) l) v = 0.
Proof. revert v. induction l as [|a l IH]; intros [|b v]; cbn; try lra. rewrite IH. lra. Qed.
Lemma rdot_scaled a u : forall v, rdot u (map (Rmult a) v) = a * rdot u v.
Proof. induction u as [|b u IH]; intros [|w v]; cbn; try lra. rewrite IH. lra. Qed.

Lemma exchange {A} (fs : list (A -> R)) nodes lam : forall g,
  rdot (map (fun x => rdot (map (fun f => f x) fs) g) nodes) lam = rdot (map (fun f => rdot (map f nodes) lam) fs) g.
Proof.
  induction fs as [|f fs IH]; intros g; [cbn; apply rdot_map_zero|]. destruct g as [|b g].
  - cbn [map rdot]. apply rdot_map_zero.
  - cbn [map rdot]. rewrite rdot_map_add. rewrite IH. f_equal.
    rewrite (rdot_map_ext _ (fun x => b * f x)) by (intros; ring). rewrite rdot_map_mult. ring.
Qed.

Lemma monomials_len kind n x : length x = n -> length (monomials (degree_polynomial kind) x) = size_P kind n.
Proof. intros H. rewrite monomials_tail. apply tail_length. exact H. Qed.

(** All moments of the weights against the polynomial part vanish. *)
Lemma moments kind n nodes lam g : in_dimension n nodes ->
  (forall j, (j < size_P kind n)%nat ->
     rdot (map (fun x => nth j (monomials (degree_polynomial kind) x) 0) nodes) lam = 0) ->
  rdot (map (fun x => rdot (monomials (degree_polynomial kind) x) g) nodes) lam = 0.
Proof.
  intros Hn H. set (mono := monomials (degree_polynomial kind)) in *.
  assert (E : forall x, In x nodes -> rdot (mono x) g =
    rdot (map (fun f => f x) (map (fun j y => nth j (mono y) 0) (seq 0 (size_P kind n)))) g).
  { intros x Hx. f_equal. rewrite map_map. rewrite <- (monomials_len kind n x) by auto. fold mono.
    symmetry. apply map_nth_seq. }
  rewrite (rdot_map_ext _ _ _ _ E), exchange, map_map.
  rewrite (map_ext_in _ (fun _ => 0)); [apply rdot_map_zero|]. intros j Hj. apply H. apply in_seq in Hj. lia.
Qed.

Lemma transfer kind gamma gamma' n nodes vals lam h (T : rpoint -> rpoint) (A : list R -> list R) w h2 (F : R -> R) :
  in_dimension n nodes -> length vals = length nodes -> interpolates kind gamma n nodes vals lam h ->
  (forall x, length x = n -> length (T x) = n) ->
  (forall x g, length x = n -> length g = size_P kind n ->
     rdot (monomials (degree_polynomial kind) (T x)) g = rdot (monomials (degree_polynomial kind) x) (A g)) ->
  length h2 = size_P kind n ->
  (forall x, length x = n -> model_at kind gamma' (map T nodes) (map (Rmult w) lam) h2 (T x) = F (model_at kind gamma nodes lam h x)) ->
  interpolates kind gamma' n (map T nodes) (map F vals) (map (Rmult w) lam) h2.
Proof.
  intros Hn Hv (L1 & L2 & L3 & L4) HT HA Hh HM. split; [rewrite !map_length; exact L1|]. split; [exact Hh|]. split.
  - intros j Hj. rewrite map_length in Hj.
    assert (E : nth j (map T nodes) [] = T (nth j nodes [])).
    { rewrite (nth_indep _ [] (T [])) by (rewrite map_length; exact Hj). apply map_nth. }
    rewrite E, HM by (apply Hn, nth_In, Hj). rewrite L3 by exact Hj.
    symmetry. rewrite (nth_indep (map F vals) 0 (F 0)) by (rewrite map_length; unfold rpoint in *; lia). apply map_nth.
  - intros j Hj. rewrite map_map, rdot_scaled.
    rewrite (rdot_map_ext _ (fun x => rdot (monomials (degree_polynomial kind) x) (A (unit_vector (size_P kind n) j)))).
    + rewrite (moments kind n); auto. ring.
    + intros x Hx. rewrite <- HA; auto.
      * rewrite GeomProofs.rdot_comm. symmetry. apply KernelMore.rdot_unit_l; [exact Hj|]. apply monomials_len; auto.
      * unfold unit_vector. rewrite BaseLemmas.set_at_length. unfold zeros. apply repeat_length.
Qed.

(** ** The polynomial part, split into linear coefficients and constant *)
Definition lin (g : list R) : list R := removelast g.
Definition cst (g : list R) : R := last g 0.
Lemma split_tail (g : list R) n : length g = (n + 1)%nat -> g = lin g ++ [cst g] /\ length (lin g) = n.
Proof.
  intros H. assert (N : g <> []) by (destruct g; cbn in H; [lia|discriminate]).
  pose proof (app_removelast_last 0 N) as E. split; [exact E|]. unfold lin.
  apply (f_equal (@length R)) in E. rewrite app_length in E. cbn in E. lia.
Qed.
Lemma tail_value x g n : length x = n -> length g = (n + 1)%nat -> rdot (x ++ [1]) g = rdot x (lin g) + cst g.
Proof.
  intros H Hg. destruct (split_tail g n Hg) as (E & L). rewrite E at 1. rewrite rdot_snoc by lia. lra.
Qed.
Lemma lin_app a b : lin (a ++ [b]) = a.
Proof. apply removelast_last. Qed.
Lemma cst_app a b : cst (a ++ [b]) = b.
Proof. apply last_last. Qed.

(** A change of the polynomial coefficients, only for models with a linear part. *)
Definition for_linear (kind : rbf_kind) (f : list R -> R -> list R) (g : list R) : list R :=
  if (degree_polynomial kind =? 1)%Z then f (lin g) (cst g) else g.
Lemma for_linear_len kind n f g : (forall a b, length a = n -> length (f a b) = (n + 1)%nat) ->
  length g = size_P kind n -> length (for_linear kind f g) = size_P kind n.
Proof.
  intros Hf Hg. unfold for_linear. destruct kind; cbn in *; auto; apply Hf, (split_tail g n Hg).
Qed.
Lemma poly_change kind n (T : rpoint -> rpoint) f g x : length x = n -> length (T x) = n ->
  length g = size_P kind n ->
  (forall a b, length a = n -> length (f a b) = (n + 1)%nat) ->
  (forall a b, length a = n -> rdot (T x) (lin (f a b)) + cst (f a b) = rdot x a + b) ->
  rdot (monomials (degree_polynomial kind) (T x)) (for_linear kind f g) = rdot (monomials (degree_polynomial kind) x) g.
Proof.
  intros Hx HT Hg Hl Hf. unfold for_linear, monomials. destruct kind; cbn [degree_polynomial Z.eqb Pos.eqb] in *; auto; cbn [size_P] in Hg;
    destruct (split_tail g n Hg) as (E & L);
    rewrite (tail_value (T x) _ n), (tail_value x g n) by auto; apply Hf; exact L.
Qed.

(** ** Moving the space *)
Lemma move_len t x : length t = length x -> length (move t x) = length x.
Proof. intros H. unfold move. apply LinAlg.map2_len. lia. Qed.
Lemma move_distance t : forall x y, length x = length t -> length y = length t ->
  distance (move t x) (move t y) = distance x y.
Proof.
  intros x y Hx Hy. unfold distance. cbv zeta. f_equal.
  assert (E : map2 Rminus (move t x) (move t y) = map2 Rminus x y).
  { unfold move. revert x y Hx Hy. induction t as [|a t IH]; intros [|b x] [|c y] Hx Hy; cbn in *; try discriminate; auto.
    f_equal; [ring|]. apply IH; lia. }
  rewrite E. reflexivity.
Qed.
Lemma move_dot t g : forall x, length x = length t -> length g = length t -> rdot (move t x) g = rdot x g + rdot t g.
Proof.
  revert g. unfold move. induction t as [|a t IH]; intros [|c g] [|b x] Hx Hg; cbn in *; try discriminate; try lra.
  rewrite IH by lia. ring.
Qed.

Section Move.
  Variables (kind : rbf_kind) (gamma : R) (n : nat) (nodes : list rpoint) (vals lam h : list R) (t : rpoint).
  Hypothesis Hn : in_dimension n nodes.
  Hypothesis Hv : length vals = length nodes.
  Hypothesis Hi : interpolates kind gamma n nodes vals lam h.
  Hypothesis Ht : length t = n.
  Let h2 := for_linear kind (fun a b => a ++ [b - rdot t a]) h.

  Lemma move_model x : length x = n -> model_at kind gamma (map (move t) nodes) (map (Rmult 1) lam) h2 (move t x) = model_at kind gamma nodes lam h x.
  Proof.
    intros Hx. unfold model_at. f_equal.
    - rewrite map_map, rdot_scaled, Rmult_1_l. apply rdot_map_ext. intros y Hy.
      rewrite move_distance; auto; [lia|]. rewrite (Hn y Hy). auto.
    - unfold h2. apply (poly_change kind n (move t)); auto.
      + rewrite move_len; lia.
      + apply Hi.
      + intros a b La. rewrite app_length. cbn. lia.
      + intros a b La. rewrite lin_app, cst_app, move_dot by lia. lra.
  Qed.
  Lemma move_fit : interpolates kind gamma n (map (move t) nodes) vals (map (Rmult 1) lam) h2.
  Proof.
    rewrite <- (map_id vals).
    apply (transfer kind gamma gamma n nodes vals lam h (move t) (for_linear kind (fun a b => a ++ [b + rdot t a])) 1 h2 (fun v => v)); auto.
    - intros x Hx. rewrite move_len; lia.
    - intros x g Hx Hg. symmetry.
      replace x with (move (map Ropp t) (move t x)) at 1.
      + apply (poly_change kind n (move (map Ropp t))); auto.
        * rewrite move_len; lia.
        * rewrite move_len; rewrite ?map_length; rewrite move_len; lia.
        * intros a b La. rewrite app_length. cbn. lia.
        * intros a b La. rewrite lin_app, cst_app, !move_dot; rewrite ?map_length, ?move_len; try lia.
          assert (E : forall u v, rdot (map Ropp u) v = - rdot u v).
          { clear. induction u as [|c u IH]; intros [|d v]; cbn; try lra. rewrite IH. lra. }
          rewrite E. lra.
      + unfold move. assert (L : length x = length t) by lia. clear - L. revert x L.
        induction t as [|a u IH]; intros [|b x] L; cbn in *; try discriminate; auto. f_equal; [ring|]. apply IH. lia.
    - unfold h2. apply (for_linear_len kind n); [intros a b La; rewrite app_length; cbn; lia|]. apply Hi.
    - intros x Hx. apply move_model; auto.
  Qed.
End Move.

(** ** Another unit of length *)
Lemma rescale_distance s x y : 0 <= s -> distance (rescale s x) (rescale s y) = s * distance x y.
Proof.
  intros Hs. unfold distance. cbv zeta.
  assert (E : forall x y, map2 Rminus (rescale s x) (rescale s y) = map (fun a => s * a) (map2 Rminus x y)).
  { clear. unfold rescale. induction x as [|a x IH]; intros [|b y]; cbn; auto. rewrite IH. f_equal. ring. }
  rewrite E, RefineProofs.rdot_scale_sq, sqrt_mult by (try (apply Rle_0_sqr); try nra; apply rdot_sq_nonneg).
  f_equal. apply sqrt_square. exact Hs.
Qed.
Lemma rescale_dot s x : forall g, rdot (rescale s x) g = s * rdot x g.
Proof. unfold rescale. induction x as [|a x IH]; intros [|b g]; cbn; try lra. rewrite IH. ring. Qed.

(** Squared distances, weighted with weights orthogonal to the linear functions, sum to a constant. *)
Lemma square_expand x y : length x = length y -> distance x y * distance x y = rdot x x - 2 * rdot y x + rdot y y.
Proof.
  intros H. unfold distance. cbv zeta. rewrite sqrt_sqrt by apply rdot_sq_nonneg.
  revert y H. induction x as [|a x IH]; intros [|b y] H; cbn in *; try discriminate; try lra.
  rewrite IH by lia. ring.
Qed.
Lemma weighted_squares n nodes lam x : in_dimension n nodes -> length x = n ->
  (forall g, rdot (map (fun y => rdot (y ++ [1]) g) nodes) lam = 0) ->
  rdot (map (fun y => distance x y * distance x y) nodes) lam = rdot (map (fun y => rdot y y) nodes) lam.
Proof.
  intros Hn Hx M.
  rewrite (rdot_map_ext _ (fun y => rdot (y ++ [1]) (map (Rmult (-2)) x ++ [rdot x x]) + rdot y y)).
  - rewrite rdot_map_add, M. lra.
  - intros y Hy. rewrite square_expand by (rewrite (Hn y Hy); auto).
    rewrite rdot_snoc by (rewrite map_length, (Hn y Hy); auto). rewrite rdot_scaled. lra.
Qed.
Lemma thin_plate_scale s r : 0 < s -> 0 <= r -> thin_plate_spline (s * r) = s * s * (thin_plate_spline r + ln s * (r * r)).
Proof.
  intros Hs Hr. destruct (Req_dec r 0) as [->|Hne].
  - rewrite Rmult_0_r. unfold thin_plate_spline. ring.
  - assert (Hp : 0 < r) by lra. assert (Hsr : 0 < s * r) by nra.
    assert (V : forall u, 0 < u -> thin_plate_spline u = u ^ 2 * ln u).
    { intros u Hu. apply (PropertiesRBF.C49_values u); lra. }
    rewrite !V by auto. rewrite ln_mult by auto. ring.
Qed.

(** Kinds for which the unit of length does not matter. *)
Notation homogeneous_kind := scale_free.
Definition kind_power (kind : rbf_kind) (s : R) : R :=
  match kind with Cubic => s * s * s | ThinPlate => s * s | _ => s end.
Section Rescale.
  Variables (kind : rbf_kind) (gamma gamma' : R) (n : nat) (nodes : list rpoint) (vals lam h : list R) (s : R).
  Hypothesis Hk : homogeneous_kind kind.
  Hypothesis Hn : in_dimension n nodes.
  Hypothesis Hv : length vals = length nodes.
  Hypothesis Hi : interpolates kind gamma n nodes vals lam h.
  Hypothesis Hs : 0 < s.
  Let K := match kind with ThinPlate => ln s * rdot (map (fun y => rdot y y) nodes) lam | _ => 0 end.
  Let w := / kind_power kind s.
  Let h2 := for_linear kind (fun a b => map (Rmult (/ s)) a ++ [b - K]) h.

  Lemma power_pos : 0 < kind_power kind s.
  Proof. destruct kind; cbn; try assumption; repeat apply Rmult_lt_0_compat; assumption. Qed.
  Lemma rescale_len x : length (rescale s x) = length x.
  Proof. apply map_length. Qed.
  Lemma poly_rescale x k : length x = n ->
    rdot (monomials (degree_polynomial kind) (rescale s x)) (for_linear kind (fun a b => map (Rmult (/ s)) a ++ [b - k]) h) =
    rdot (monomials (degree_polynomial kind) x) h - (if (degree_polynomial kind =? 1)%Z then k else 0).
  Proof.
    intros Hx. destruct Hi as (_ & Hh & _).
    unfold for_linear, monomials. destruct Hk as [->|[->| ->]]; cbn [degree_polynomial Z.eqb Pos.eqb] in *; try lra; cbn [size_P] in Hh;
      destruct (split_tail h n Hh) as (E & L).
    1,2: rewrite (tail_value (rescale s x) _ n), (tail_value x h n), lin_app, cst_app by
         (rewrite ?rescale_len, ?app_length, ?map_length; cbn; lia); rewrite rescale_dot, rdot_scaled; field; lra.
  Qed.
  Lemma rescale_model x : length x = n ->
    model_at kind gamma' (map (rescale s) nodes) (map (Rmult w) lam) h2 (rescale s x) = model_at kind gamma nodes lam h x.
  Proof.
    intros Hx. unfold model_at. unfold h2. rewrite poly_rescale by auto.
    rewrite map_map, rdot_scaled. pose proof power_pos as Hp. destruct Hi as (_ & _ & _ & Mo).
    pose proof (fun g => moments kind n nodes lam g Hn Mo) as M. unfold w, K.
    destruct Hk as [-> |[-> | ->]]; cbn [degree_polynomial Z.eqb Pos.eqb monomials rbf_function kind_power] in *.
    - rewrite (rdot_map_ext _ (fun y => (s * s * s) * cubic (distance x y))).
      + rewrite rdot_map_mult. field. lra.
      + intros y _. rewrite rescale_distance by lra. unfold cubic. ring.
    - rewrite (rdot_map_ext _ (fun y => (s * s) * (thin_plate_spline (distance x y) + ln s * (distance x y * distance x y)))).
      + rewrite rdot_map_mult, rdot_map_add, rdot_map_mult. rewrite (weighted_squares n); auto. field. lra.
      + intros y _. rewrite rescale_distance by lra. apply thin_plate_scale; [lra|apply distance_nonneg].
    - rewrite (rdot_map_ext _ (fun y => s * ModelRBF.linear (distance x y))).
      + rewrite rdot_map_mult. field. lra.
      + intros y _. rewrite rescale_distance by lra. reflexivity.
  Qed.
  Lemma rescale_fit : interpolates kind gamma' n (map (rescale s) nodes) vals (map (Rmult w) lam) h2.
  Proof.
    rewrite <- (map_id vals).
    apply (transfer kind gamma gamma' n nodes vals lam h (rescale s) (for_linear kind (fun a b => map (Rmult s) a ++ [b])) w h2 (fun v => v)); auto.
    - intros x Hx. rewrite rescale_len. exact Hx.
    - intros x g Hx Hg. unfold for_linear, monomials. destruct Hk as [->|[->| ->]]; cbn [degree_polynomial Z.eqb Pos.eqb] in *; auto; cbn [size_P] in Hg;
        destruct (split_tail g n Hg) as (E & L);
        rewrite (tail_value (rescale s x) _ n), (tail_value x _ n), lin_app, cst_app by
          (rewrite ?rescale_len, ?app_length, ?map_length; cbn; lia); rewrite rescale_dot, rdot_scaled; ring.
    - unfold h2. apply (for_linear_len kind n); [intros a b La; rewrite app_length, map_length; cbn; lia|]. apply Hi.
    - intros x Hx. apply rescale_model; auto.
  Qed.
End Rescale.

(** ** Variables in another order *)
Fixpoint place (j : nat) (p : list nat) : nat :=
  match p with [] => 0 | a :: r => if Nat.eqb a j then 0 else S (place j r) end.
Lemma place_nth p : NoDup p -> forall k, (k < length p)%nat -> place (nth k p 0%nat) p = k.
Proof.
  induction 1 as [|a r Ha Hr IH]; intros k Hk; cbn in Hk; [lia|]. destruct k; cbn.
  - now rewrite Nat.eqb_refl.
  - destruct (Nat.eqb_spec a (nth k r 0%nat)) as [->|]; [exfalso; apply Ha, nth_In; lia|]. rewrite IH by lia. reflexivity.
Qed.
Lemma rsum_perm l l' : Permutation l l' -> rsum l = rsum l'.
Proof. unfold rsum. induction 1; cbn; lra. Qed.
Lemma rdot_reorder n p x y : Permutation p (seq 0 n) -> length x = n -> length y = n ->
  rdot (reorder p x) (reorder p y) = rdot x y.
Proof.
  intros P Hx Hy. unfold reorder.
  assert (E : forall q, rdot (map (fun j => nth j x 0) q) (map (fun j => nth j y 0) q) = rsum (map (fun j => nth j x 0 * nth j y 0) q)).
  { induction q as [|a q IH]; [reflexivity|]. cbn [map rdot]. rewrite IH. reflexivity. }
  rewrite E, (rsum_perm _ _ (Permutation_map _ P)), <- E.
  rewrite <- Hx at 1. rewrite map_nth_seq. rewrite <- Hy. rewrite map_nth_seq. reflexivity.
Qed.
Section Reorder.
  Variables (kind : rbf_kind) (gamma : R) (n : nat) (nodes : list rpoint) (vals lam h : list R) (p : list nat).
  Hypothesis Hn : in_dimension n nodes.
  Hypothesis Hv : length vals = length nodes.
  Hypothesis Hi : interpolates kind gamma n nodes vals lam h.
  Hypothesis Hp : Permutation p (seq 0 n).
  Let q := map (fun j => place j p) (seq 0 n).
  Let h2 := for_linear kind (fun a b => reorder p a ++ [b]) h.

  Lemma p_length : length p = n.
  Proof. rewrite (Permutation_length Hp). apply seq_length. Qed.
  Lemma p_nodup : NoDup p.
  Proof. apply (Permutation_NoDup (Permutation_sym Hp)), seq_NoDup. Qed.
  Lemma reorder_len x : length (reorder p x) = n.
  Proof. unfold reorder. rewrite map_length. apply p_length. Qed.
  Lemma reorder_back g : length g = n -> reorder p (reorder q g) = g.
  Proof.
    intros Hg. apply (nth_ext _ _ 0 0); [rewrite reorder_len; auto|]. intros k Hk. rewrite reorder_len in Hk.
    pose proof p_length as Lp. unfold reorder at 1.
    rewrite (nth_indep _ 0 ((fun j => nth j (reorder q g) 0) 0%nat)) by (rewrite map_length; lia). rewrite (map_nth (fun j => nth j (reorder q g) 0)).
    assert (Hr : (nth k p 0 < n)%nat).
    { assert (X : In (nth k p 0%nat) p) by (apply nth_In; lia). apply (Permutation_in _ Hp) in X. apply in_seq in X. lia. }
    unfold reorder, q. rewrite map_map. rewrite (nth_indep _ 0 ((fun j => nth (place j p) g 0) 0%nat)) by (rewrite map_length, seq_length; lia).
    rewrite (map_nth (fun j => nth (place j p) g 0)). rewrite seq_nth by exact Hr. cbn [plus].
    rewrite place_nth by (try apply p_nodup; lia). reflexivity.
  Qed.
  Lemma reorder_distance x y : length x = n -> length y = n -> distance (reorder p x) (reorder p y) = distance x y.
  Proof.
    intros Hx Hy. unfold distance. cbv zeta. f_equal.
    assert (E : map2 Rminus (reorder p x) (reorder p y) = reorder p (map2 Rminus x y)).
    { unfold reorder. clear - Hx Hy Hp.
      assert (B : forall j, In j p -> (j < length x)%nat).
      { intros j Hj. apply (Permutation_in _ Hp), in_seq in Hj. lia. }
      clear Hp. induction p as [|a r IH]; [reflexivity|]. cbn [map map2]. f_equal.
      - symmetry. rewrite (GeomProofs.map2_nth Rminus x y a 0 0 0); auto; [lia|]. apply B. left. reflexivity.
      - apply IH. intros j Hj. apply B. right. exact Hj. }
    rewrite E. apply (rdot_reorder n); auto; rewrite LinAlg.map2_len; lia.
  Qed.
  Lemma reorder_model x : length x = n -> model_at kind gamma (map (reorder p) nodes) (map (Rmult 1) lam) h2 (reorder p x) = model_at kind gamma nodes lam h x.
  Proof.
    intros Hx. unfold model_at. f_equal.
    - rewrite map_map, rdot_scaled, Rmult_1_l. apply rdot_map_ext. intros y Hy. rewrite reorder_distance; auto.
    - unfold h2. apply (poly_change kind n (reorder p)); auto.
      + apply reorder_len.
      + apply Hi.
      + intros a b La. rewrite app_length, reorder_len. cbn. lia.
      + intros a b La. rewrite lin_app, cst_app, (rdot_reorder n) by auto. reflexivity.
  Qed.
  Lemma reorder_fit : interpolates kind gamma n (map (reorder p) nodes) vals (map (Rmult 1) lam) h2.
  Proof.
    rewrite <- (map_id vals).
    assert (Lq : length q = n) by (unfold q; rewrite map_length, seq_length; reflexivity).
    apply (transfer kind gamma gamma n nodes vals lam h (reorder p) (for_linear kind (fun a b => reorder q a ++ [b])) 1 h2 (fun v => v)); auto.
    - intros x Hx. apply reorder_len.
    - intros x g Hx Hg. unfold for_linear, monomials. destruct kind; cbn [degree_polynomial Z.eqb Pos.eqb] in *; auto; cbn [size_P] in Hg;
        destruct (split_tail g n Hg) as (E & L);
        rewrite (tail_value (reorder p x) _ n), (tail_value x _ n), lin_app, cst_app by
          (rewrite ?reorder_len, ?app_length; unfold reorder; rewrite ?map_length; cbn; lia);
        rewrite <- (reorder_back (lin g)) at 1 by exact L;
        rewrite (rdot_reorder n); auto; unfold reorder; rewrite map_length; exact Lq.
    - unfold h2. apply (for_linear_len kind n); [intros a b La; rewrite app_length, reorder_len; cbn; lia|]. apply Hi.
    - intros x Hx. apply reorder_model; auto.
  Qed.
End Reorder.

(** ** Points in another order *)
Lemma rdot_triples {A} (f : A -> R) (L : list (A * R)) :
  rdot (map f (map fst L)) (map snd L) = rsum (map (fun t => f (fst t) * snd t) L).
Proof. induction L as [|t L IH]; [reflexivity|]. cbn [map rdot]. rewrite IH. reflexivity. Qed.
Lemma combine_fst {A B} (l : list A) : forall m : list B, length m = length l -> map fst (combine l m) = l.
Proof. induction l as [|a l IH]; intros [|b m] H; cbn in *; try discriminate; auto. f_equal. apply IH. lia. Qed.
Lemma combine_snd' {A B} (l : list A) : forall m : list B, length m = length l -> map snd (combine l m) = m.
Proof. induction l as [|a l IH]; intros [|b m] H; cbn in *; try discriminate; auto. f_equal. apply IH. lia. Qed.

Lemma perm_fit kind gamma n nodes vals lam h nodes2 vals2 : length vals = length nodes -> length vals2 = length nodes2 ->
  interpolates kind gamma n nodes vals lam h -> Permutation (combine nodes vals) (combine nodes2 vals2) ->
  exists lam2, interpolates kind gamma n nodes2 vals2 lam2 h /\
    forall x, model_at kind gamma nodes2 lam2 h x = model_at kind gamma nodes lam h x.
Proof.
  intros Hv Hv2 (L1 & L2 & L3 & L4) P.
  set (L := combine (combine nodes vals) lam).
  assert (E1 : map fst L = combine nodes vals).
  { apply combine_fst. rewrite combine_length. lia. }
  assert (E2 : map snd L = lam).
  { apply combine_snd'. rewrite combine_length. lia. }
  rewrite <- E1 in P. apply Permutation_sym, Permutation_map_inv in P as (M & EM & P).
  assert (N1 : map fst (map fst L) = nodes) by (rewrite E1; apply combine_fst; exact Hv).
  assert (N2 : map fst (map fst M) = nodes2) by (rewrite <- EM; apply combine_fst; exact Hv2).
  assert (V2 : map snd (map fst M) = vals2) by (rewrite <- EM; apply combine_snd'; exact Hv2).
  assert (S : forall f : rpoint -> R, rdot (map f nodes2) (map snd M) = rdot (map f nodes) lam).
  { intros f. rewrite <- N2, <- N1, <- E2.
    assert (G : forall Q : list (rpoint * R * R), rdot (map f (map fst (map fst Q))) (map snd Q) =
       rsum (map (fun t => f (fst (fst t)) * snd t) Q)).
    { intros Q. rewrite <- (rdot_triples (fun u => f (fst u)) Q), map_map. reflexivity. }
    rewrite !G. apply rsum_perm, Permutation_map, Permutation_sym, P. }
  assert (Mx : forall x, model_at kind gamma nodes2 (map snd M) h x = model_at kind gamma nodes lam h x).
  { intros x. unfold model_at. rewrite (S (fun y => rbf_function kind gamma (distance x y))). reflexivity. }
  exists (map snd M). split; [|exact Mx]. split; [rewrite <- N2, !map_length; reflexivity|]. split; [exact L2|]. split.
  - intros j Hj. rewrite Mx.
    assert (X : In (nth j nodes2 [], nth j vals2 0) (combine nodes vals)).
    { rewrite <- E1. apply (Permutation_in _ (Permutation_sym (Permutation_map fst P))). rewrite <- EM.
      rewrite <- combine_nth by auto. apply nth_In. rewrite combine_length. unfold rpoint in *. lia. }
    apply (In_nth _ _ ([], 0)) in X as (k & Hk & X). rewrite combine_nth in X by auto. injection X as X1 X2.
    rewrite combine_length in Hk. unfold rpoint in *. rewrite <- X1, <- X2. apply L3. lia.
  - intros j Hj. rewrite (S (fun x => nth j (monomials (degree_polynomial kind) x) 0)). apply L4. exact Hj.
Qed.

(** ** Values *)
Definition shifted (a b : R) (h : list R) : list R := map (Rmult a) (lin h) ++ [a * cst h + b].
Lemma affine_fit kind gamma n nodes vals lam h a b : in_dimension n nodes -> length vals = length nodes ->
  interpolates kind gamma n nodes vals lam h -> (degree_polynomial kind = (-1)%Z -> b = 0) ->
  exists lam2 h2, interpolates kind gamma n nodes (map (fun v => a * v + b) vals) lam2 h2 /\
    forall x, length x = n -> model_at kind gamma nodes lam2 h2 x = a * model_at kind gamma nodes lam h x + b.
Proof.
  intros Hn Hv I Hb.
  set (h2 := if (degree_polynomial kind =? -1)%Z then h else shifted a b h).
  pose proof I as (L1 & L2 & _).
  assert (G : length h2 = size_P kind n /\ forall x, length x = n ->
     rdot (monomials (degree_polynomial kind) x) h2 = a * rdot (monomials (degree_polynomial kind) x) h + b).
  { unfold h2. destruct kind; cbn [degree_polynomial Z.eqb Pos.eqb monomials size_P] in *; unfold shifted.
    1,2: destruct (split_tail h n L2) as (E & L); split; [rewrite app_length, map_length; cbn; lia|]; intros x Hx;
         rewrite (tail_value x _ n), (tail_value x h n), lin_app, cst_app by (rewrite ?app_length, ?map_length; cbn; lia);
         rewrite rdot_scaled; ring.
    1,2: destruct h as [|c [|]]; try discriminate; split; [reflexivity|]; intros x Hx; cbn; ring.
    destruct h; try discriminate. rewrite Hb by reflexivity. split; [reflexivity|]. intros x Hx. cbn. ring. }
  destruct G as (G1 & G2).
  assert (Mx : forall x, length x = n -> model_at kind gamma nodes (map (Rmult a) lam) h2 x = a * model_at kind gamma nodes lam h x + b).
  { intros x Hx. unfold model_at. rewrite rdot_scaled, G2 by auto. ring. }
  exists (map (Rmult a) lam), h2. split; [|exact Mx].
  pose proof (transfer kind gamma gamma n nodes vals lam h (fun x => x) (fun g => g) a h2 (fun v => a * v + b)) as Tr.
  rewrite map_id in Tr. apply Tr; auto.
Qed.

Lemma rdot_map_vadd {A} (f : A -> R) l u v : length u = length v -> rdot (map f l) (vadd u v) = rdot (map f l) u + rdot (map f l) v.
Proof. intros H. apply rdot_vadd. exact H. Qed.
Lemma sum_fit kind gamma n nodes vals vals' lam h lam' h' : length vals = length nodes -> length vals' = length nodes ->
  interpolates kind gamma n nodes vals lam h -> interpolates kind gamma n nodes vals' lam' h' ->
  interpolates kind gamma n nodes (map2 Rplus vals vals') (vadd lam lam') (vadd h h') /\
  forall x, model_at kind gamma nodes (vadd lam lam') (vadd h h') x =
    model_at kind gamma nodes lam h x + model_at kind gamma nodes lam' h' x.
Proof.
  intros Hv Hv' (L1 & L2 & L3 & L4) (M1 & M2 & M3 & M4).
  assert (Mx : forall x, model_at kind gamma nodes (vadd lam lam') (vadd h h') x =
    model_at kind gamma nodes lam h x + model_at kind gamma nodes lam' h' x).
  { intros x. unfold model_at. rewrite !rdot_vadd by (unfold rpoint in *; lia). ring. }
  split; [|exact Mx]. split; [unfold vadd; rewrite LinAlg.map2_len; unfold rpoint in *; lia|].
  split; [unfold vadd; rewrite LinAlg.map2_len; lia|]. split.
  - intros j Hj. rewrite Mx, L3, M3 by auto. symmetry. apply GeomProofs.map2_nth; unfold rpoint in *; lia.
  - intros j Hj. rewrite rdot_vadd by (unfold rpoint in *; lia). rewrite L4, M4 by auto. ring.
Qed.

Lemma poly_fit kind gamma n nodes g : length g = size_P kind n ->
  interpolates kind gamma n nodes (map (fun x => rdot (monomials (degree_polynomial kind) x) g) nodes) (zeros (length nodes)) g /\
  forall x, model_at kind gamma nodes (zeros (length nodes)) g x = rdot (monomials (degree_polynomial kind) x) g.
Proof.
  intros Hg.
  assert (Mx : forall x, model_at kind gamma nodes (zeros (length nodes)) g x = rdot (monomials (degree_polynomial kind) x) g).
  { intros x. unfold model_at. rewrite LinAlg.rdot_zeros_r. lra. }
  split; [|exact Mx]. split; [unfold zeros; apply repeat_length|]. split; [exact Hg|]. split.
  - intros j Hj. rewrite Mx. symmetry.
    set (f := fun x => rdot (monomials (degree_polynomial kind) x) g).
    rewrite (nth_indep _ 0 (f [])) by (rewrite map_length; exact Hj). rewrite map_nth. reflexivity.
  - intros j Hj. apply LinAlg.rdot_zeros_r.
Qed.

(** ** The surrogate *)
Section Symmetry.
  Variables (solve : mat -> list R -> option (list R)) (kind : rbf_kind) (gamma eps : R) (n : nat).
  Hypothesis Hc : complete_solver solve.
  Hypothesis Hs : correct_solver solve.
  Notation s := (surrogate solve kind gamma eps n).
  Notation good := (well_posed kind gamma eps n).

  (** The order in which the points were evaluated. *)
  Lemma order_of_points nodes vals nodes2 vals2 x : good nodes vals -> good nodes2 vals2 -> length x = n ->
    Permutation (combine nodes vals) (combine nodes2 vals2) -> s nodes2 vals2 x = s nodes vals x.
  Proof.
    intros W W2 Lx P. destruct (fits kind gamma eps n _ _ W) as (lam & h & I).
    destruct (perm_fit kind gamma n nodes vals lam h nodes2 vals2) as (lam2 & I2 & E); auto; try apply W; try apply W2.
    rewrite (fitted solve kind gamma eps n Hc Hs _ _ _ _ x W2 I2 Lx), (fitted solve kind gamma eps n Hc Hs _ _ _ _ x W I Lx), E. reflexivity.
  Qed.
  Lemma good_vals nodes vals vals2 : good nodes vals -> length vals2 = length vals -> good nodes vals2.
  Proof. intros (A & B & D & E & F & G & H) L. do 3 (split; [assumption|]). split; [lia|]. tauto. Qed.
  Lemma values nodes vals x a b : good nodes vals -> length x = n -> (degree_polynomial kind = (-1)%Z -> b = 0) ->
    s nodes (map (fun v => a * v + b) vals) x = option_map (fun v => a * v + b) (s nodes vals x).
  Proof.
    intros W Lx Hb. destruct (fits kind gamma eps n _ _ W) as (lam & h & I).
    destruct (affine_fit kind gamma n nodes vals lam h a b) as (lam2 & h2 & I2 & E); auto; try apply W.
    rewrite (fitted solve kind gamma eps n Hc Hs nodes _ _ _ x (good_vals _ _ _ W ltac:(apply map_length)) I2 Lx),
      (fitted solve kind gamma eps n Hc Hs _ _ _ _ x W I Lx), E by auto. reflexivity.
  Qed.
  Lemma superposition nodes vals vals' x : good nodes vals -> length vals' = length vals -> length x = n ->
    exists u u', s nodes vals x = Some u /\ s nodes vals' x = Some u' /\ s nodes (map2 Rplus vals vals') x = Some (u + u').
  Proof.
    intros W L Lx. pose proof (good_vals _ _ _ W L) as W'.
    assert (W2 : good nodes (map2 Rplus vals vals')) by (apply (good_vals _ vals); auto; apply LinAlg.map2_len; auto).
    destruct (fits kind gamma eps n _ _ W) as (lam & h & I). destruct (fits kind gamma eps n _ _ W') as (lam' & h' & I').
    destruct (sum_fit kind gamma n nodes vals vals' lam h lam' h') as (I2 & E); auto; try apply W; try apply W'.
    exists (model_at kind gamma nodes lam h x), (model_at kind gamma nodes lam' h' x).
    rewrite <- E. repeat split; apply fitted; auto.
  Qed.
  Lemma reproduces nodes g x : good nodes (map (fun y => rdot (monomials (degree_polynomial kind) y) g) nodes) ->
    length g = size_P kind n -> length x = n ->
    s nodes (map (fun y => rdot (monomials (degree_polynomial kind) y) g) nodes) x = Some (rdot (monomials (degree_polynomial kind) x) g).
  Proof.
    intros W Lg Lx. destruct (poly_fit kind gamma n nodes g Lg) as (I & E).
    rewrite (fitted solve kind gamma eps n Hc Hs _ _ _ _ x W I Lx), E. reflexivity.
  Qed.
  Lemma moved nodes vals t x : good nodes vals -> good (map (move t) nodes) vals -> length t = n -> length x = n ->
    s (map (move t) nodes) vals (move t x) = s nodes vals x.
  Proof.
    intros W W2 Lt Lx. destruct (fits kind gamma eps n _ _ W) as (lam & h & I).
    pose proof (proj1 W) as Hn. assert (Hv : length vals = length nodes) by apply W.
    rewrite (fitted solve kind gamma eps n Hc Hs _ _ _ _ (move t x) W2 (move_fit kind gamma n nodes vals lam h t Hn Hv I Lt))
      by (rewrite move_len; lia).
    rewrite (fitted solve kind gamma eps n Hc Hs _ _ _ _ x W I Lx). f_equal. apply (move_model kind gamma n nodes vals); auto.
  Qed.
  Lemma variables nodes vals p x : good nodes vals -> good (map (reorder p) nodes) vals -> Permutation p (seq 0 n) -> length x = n ->
    s (map (reorder p) nodes) vals (reorder p x) = s nodes vals x.
  Proof.
    intros W W2 P Lx. destruct (fits kind gamma eps n _ _ W) as (lam & h & I).
    pose proof (proj1 W) as Hn. assert (Hv : length vals = length nodes) by apply W.
    rewrite (fitted solve kind gamma eps n Hc Hs _ _ _ _ (reorder p x) W2 (reorder_fit kind gamma n nodes vals lam h p Hn Hv I P))
      by (apply (reorder_len n p P)).
    rewrite (fitted solve kind gamma eps n Hc Hs _ _ _ _ x W I Lx). f_equal. apply (reorder_model kind gamma n nodes vals); auto.
  Qed.
  Lemma unit_of_length gamma' nodes vals c x : scale_free kind -> good nodes vals -> well_posed kind gamma' eps n (map (rescale c) nodes) vals ->
    0 < c -> length x = n ->
    surrogate solve kind gamma' eps n (map (rescale c) nodes) vals (rescale c x) = s nodes vals x.
  Proof.
    intros K W W2 P Lx. destruct (fits kind gamma eps n _ _ W) as (lam & h & I).
    pose proof (proj1 W) as Hn. assert (Hv : length vals = length nodes) by apply W.
    rewrite (fitted solve kind gamma' eps n Hc Hs _ _ _ _ (rescale c x) W2 (rescale_fit kind gamma gamma' n nodes vals lam h c K Hn Hv I P))
      by (unfold rescale; rewrite map_length; auto).
    rewrite (fitted solve kind gamma eps n Hc Hs _ _ _ _ x W I Lx). f_equal. apply (rescale_model kind gamma gamma' n nodes vals); auto.
  Qed.
End Symmetry.
