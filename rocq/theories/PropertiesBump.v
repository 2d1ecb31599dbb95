(** * C95 for every set of nodes. *)
From Verif Require Import SpecLinear SpecSteps KernelNodes KernelMore WitnessRBF.
From Verif Require PropertiesPyomo WitnessLinear PropertiesLinear.
From Coq Require Import Lra Lia.
Open Scope R_scope.

Lemma bump_form kind gamma nodes lam : length lam = length nodes ->
  rdot lam (mat_vec (Phi_matrix (rbf_function kind gamma) nodes) lam) = form kind gamma nodes lam.
Proof.
  intros H. unfold form. rewrite KernelSum.rdot_comm. f_equal. unfold mat_vec, Phi_matrix, cdist, cdist_row. rewrite !map_map.
  apply map_ext. intros x. rewrite map_map. reflexivity.
Qed.
Lemma bump_sign kind gamma n nodes vals lam h : in_dimension n nodes -> NoDup nodes -> shape_ok kind gamma ->
  length vals = length nodes -> interpolates kind gamma n nodes vals lam h ->
  let b := rdot lam (mat_vec (Phi_matrix (rbf_function kind gamma) nodes) lam) in
  let s := if (degree_polynomial kind =? 0)%Z then -1 else 1 in
  0 <= s * b /\ (b = 0 -> lam = zeros (length nodes)).
Proof.
  intros Hn Hd Hg Hv (L & Lh & V & S) b s.
  assert (Eb : b = form kind gamma nodes lam) by (apply bump_form; auto).
  split.
  - destruct (list_eq_dec Req_EM_T lam (zeros (length nodes))) as [E|E].
    + replace b with 0; [lra|]. unfold b. rewrite E. clear. generalize (mat_vec (Phi_matrix (rbf_function kind gamma) nodes) (zeros (length nodes))).
      intros l. generalize (length nodes). intros m. revert l. unfold zeros. induction m as [|m IH]; intros [|y l]; cbn; auto.
      rewrite <- IH. lra.
    + left. rewrite Eb. apply (kernel_definite kind gamma n); auto.
  - intros H. apply (kernel_null kind gamma n); auto. congruence.
Qed.
Lemma zero_weights_values kind gamma n nodes vals h j : interpolates kind gamma n nodes vals (zeros (length nodes)) h ->
  (j < length nodes)%nat -> nth j vals 0 = rdot (monomials (degree_polynomial kind) (nth j nodes [])) h.
Proof.
  intros (L & Lh & V & S) Hj. rewrite <- (V j Hj). unfold model_at.
  match goal with |- ?a + ?b = _ => replace a with 0; [lra|] end.
  generalize (nth j nodes []). intros x. clear. induction nodes as [|y l IH]; cbn; auto. unfold zeros in *. cbn. rewrite <- IH. lra.
Qed.

(** ** C95 *)
(** Any distinct nodes, values and error bounds, linear or multiquadric basis: the number compared by the re-evaluation rule
    is never positive, and negative unless some constant fits all the error intervals. *)
Theorem C95_negative_everywhere_refuted : forall kind gamma n nodes vals errs b,
  kind = Linear \/ kind = Multiquadric -> in_dimension n nodes -> NoDup nodes -> length vals = length nodes ->
  bumpiness_of_fit kind gamma n nodes vals errs b ->
  b <= 0 /\ ((forall v, ~ within_errors vals errs (repeat v (length vals))) -> b < 0).
Proof.
  intros kind gamma n nodes vals errs b Hk Hn Hd Hv (f & lam & h & (Lf & W) & HI & ->).
  assert (Dg : degree_polynomial kind = 0%Z) by (destruct Hk as [->| ->]; reflexivity).
  destruct (bump_sign kind gamma n nodes f lam h Hn Hd) as (P & Z); auto.
  { destruct Hk as [->| ->]; discriminate. } { congruence. }
  rewrite Dg in P. cbn [Z.eqb] in P. cbv zeta in *. split; [lra|].
  intros HN. apply Rnot_le_lt. intros H. assert (E : lam = zeros (length nodes)) by (apply Z; lra). subst lam.
  assert (Lh : length h = 1%nat) by (destruct HI as (_ & -> & _); destruct Hk as [->| ->]; reflexivity).
  destruct h as [|w [|? ?]]; try discriminate Lh.
  apply (HN w). split; [now rewrite repeat_length|]. intros i Hi. specialize (W i Hi).
  rewrite (zero_weights_values kind gamma n nodes f [w] i HI) in W by lia.
  rewrite Dg in W. cbn in W.
  assert (nth i (repeat w (length vals)) 0 = w) as ->; [|lra].
  apply (repeat_spec (length vals) w). apply nth_In. now rewrite repeat_length.
Qed.
Print Assumptions C95_negative_everywhere_refuted.
(** With the other bases it is what it should be: nonnegative, and 0 only for a model without radial part. *)
Theorem C95_nonnegative : forall kind gamma n nodes vals errs b,
  kind = Cubic \/ kind = ThinPlate \/ kind = Gaussian /\ 0 < gamma -> in_dimension n nodes -> NoDup nodes -> length vals = length nodes ->
  bumpiness_of_fit kind gamma n nodes vals errs b ->
  0 <= b /\ (b = 0 -> exists h, length h = size_P kind n /\
    forall i, (i < length nodes)%nat ->
      nth i vals 0 + fst (nth i errs (0, 0)) <= rdot (monomials (degree_polynomial kind) (nth i nodes [])) h <=
      nth i vals 0 + snd (nth i errs (0, 0))).
Proof.
  intros kind gamma n nodes vals errs b Hk Hn Hd Hv (f & lam & h & (Lf & W) & HI & ->).
  destruct (bump_sign kind gamma n nodes f lam h Hn Hd) as (P & Z); auto.
  { intros ->. destruct Hk as [H|[H|[_ H]]]; try discriminate H; auto. } { congruence. }
  assert ((degree_polynomial kind =? 0)%Z = false) as E by (destruct Hk as [->|[->|[-> _]]]; reflexivity).
  rewrite E in P. cbv zeta in *. split; [lra|].
  intros H. specialize (Z H). subst lam. exists h. split; [apply HI|]. intros i Hi.
  rewrite <- (zero_weights_values kind gamma n nodes f h i HI Hi). apply W. lia.
Qed.
Print Assumptions C95_nonnegative.
(** Three nodes, two of them noisy, no constant fits. *)
Example C95_everywhere_case : in_dimension 1 xs3 /\ NoDup xs3 /\ length vals3 = length xs3 /\
  (exists b, bumpiness_of_fit Linear 1 1 xs3 vals3 [(0, 0); (0, 0); (-1, 1)] b) /\
  forall v, ~ within_errors vals3 [(0, 0); (0, 0); (-1, 1)] (repeat v (length vals3)).
Proof.
  split; [exact in_dim3|]. split; [exact WitnessLinear.xs3_distinct|]. split; [reflexivity|]. split.
  - eexists. exists vals3, lam3, h3. split; [|split; [exact PropertiesPyomo.interp3|reflexivity]].
    split; [reflexivity|]. intros [|[|[|i]]] Hi; unfold vals3 in *; cbn in *; try lia; lra.
  - intros v (_ & W). pose proof (W 0%nat ltac:(cbn; lia)) as W0. pose proof (W 1%nat ltac:(cbn; lia)) as W1.
    unfold vals3 in *. cbn in W0, W1. lra.
Qed.
Example C95_nonnegative_case : exists b, bumpiness_of_fit Gaussian 1 1 xs3 vals3 [(0, 0); (0, 0); (-1, 1)] b.
Proof.
  destruct (PropertiesLinear.C121_exists Gaussian 1 1 xs3 vals3) as (lam & h & HI).
  - exact in_dim3.
  - exact WitnessLinear.xs3_distinct.
  - intros _. lra.
  - reflexivity.
  - apply PropertiesLinear.C121_unisolvence; [exact in_dim3|discriminate|discriminate].
  - eexists. exists vals3, lam, h. split; [|split; [exact HI|reflexivity]].
    split; [reflexivity|]. intros [|[|[|i]]] Hi; unfold vals3 in *; cbn in *; try lia; lra.
Qed.
