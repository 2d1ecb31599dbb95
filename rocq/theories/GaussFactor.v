(** * A factorization that meets the hypotheses of the theorems about model quality. *)
From Coq Require Import Reals Lra Lia List.
From Verif Require Import LinAlg KernelNodes RBFProofs SpecLinear GaussSolver SpecQuality.
Import ListNotations.
Open Scope R_scope.

Lemma eliminations_kernel m : forall es x, (forall e, In e es -> length (fst e) = m) ->
  eliminations m es = Some x -> trivial_kernel m es.
Proof.
  induction m as [|m IH]; intros es x He E; cbn [eliminations] in E.
  - intros y Ly _. destruct y; [reflexivity|discriminate].
  - destruct (pivot es) as [[q rest]|] eqn:P; [|discriminate].
    destruct (pivot_some es q rest P) as (Q1 & Q2 & Q3).
    assert (Lq : length (fst q) = S m) by (apply He, Q3; auto).
    destruct (fst q) as [|c cs] eqn:Eq; [discriminate|]. cbn in Q1, Lq.
    destruct (eliminations m (map (eliminate q) rest)) as [z|] eqn:Ez; [|discriminate].
    assert (EL : forall e, In e rest -> exists a l, fst e = a :: l /\ length l = m).
    { intros e Hin. assert (L : length (fst e) = S m) by (apply He, Q3; auto). destruct (fst e) as [|a l]; [discriminate|]. exists a, l. cbn in L. auto. }
    assert (T : trivial_kernel m (map (eliminate q) rest)).
    { apply (IH _ z); [|exact Ez]. intros e Hin. apply in_map_iff in Hin. destruct Hin as (f & <- & Hf). destruct (EL f Hf) as (a & l & E' & L).
      unfold eliminate. rewrite E', Eq. cbn [fst hd tl]. rewrite GeomProofs.map2_len; lia. }
    intros [|y0 y] Ly Hy; [discriminate|]. cbn in Ly.
    assert (Hq : c * y0 + rdot cs y = 0) by (specialize (Hy q (proj2 (Q3 q) (or_introl eq_refl))); rewrite Eq in Hy; exact Hy).
    assert (Zy : y = zeros m).
    { apply T; [lia|]. intros e Hin. apply in_map_iff in Hin. destruct Hin as (f & <- & Hf). destruct (EL f Hf) as (a & l & E' & L).
      unfold eliminate. rewrite E', Eq. cbn [fst hd tl]. rewrite dot_elim by lia.
      specialize (Hy f (proj2 (Q3 f) (or_intror Hf))). rewrite E' in Hy. cbn in Hy.
      replace (rdot cs y) with (- (c * y0)) by lra. replace (rdot l y) with (- (a * y0)) by lra. field. exact Q1. }
    subst y. rewrite rdot_zeros_r in Hq. unfold zeros. cbn. f_equal.
    apply Rmult_eq_reg_l with c; [lra|exact Q1].
Qed.

Definition square (A : mat) : bool := forallb (fun r => (length r =? length A)%nat) A.
Definition gauss_factor (A : mat) : option (list R -> list R) :=
  if square A then
    match gauss A (zeros (length A)) with
    | Some _ => Some (fun b => match gauss A b with Some x => x | None => [] end)
    | None => None
    end
  else None.
Lemma square_rows A : square A = true -> forall r, In r A -> length r = length A.
Proof. intros H r Hr. unfold square in H. rewrite forallb_forall in H. apply Nat.eqb_eq, H, Hr. Qed.
Lemma gauss_kernel A b x : (forall r, In r A -> length r = length A) -> length b = length A -> gauss A b = Some x ->
  forall y, length y = length A -> mat_vec A y = zeros (length A) -> y = zeros (length A).
Proof.
  intros Hr Lb H y Ly Ey. unfold gauss in H. destruct (eliminations _ _) as [z|] eqn:E; [|discriminate].
  assert (T : trivial_kernel (length A) (combine A b)).
  { apply (eliminations_kernel _ _ z); [|exact E]. intros (r & v) Hin. apply in_combine_l in Hin. apply Hr, Hin. }
  apply T; auto. intros (r & v) Hin. apply in_combine_l in Hin. cbn [fst].
  apply (In_nth _ _ []) in Hin. destruct Hin as (i & Hi & <-). rewrite <- nth_mat_vec by auto. rewrite Ey. apply nth_zeros.
Qed.
Lemma gauss_factor_exact : exact_factor gauss_factor.
Proof.
  intros A s H b Lb. unfold gauss_factor in H. destruct (square A) eqn:Sq; [|discriminate].
  destruct (gauss A (zeros (length A))) as [z|] eqn:E; [|discriminate]. pose proof (square_rows A Sq) as Hr.
  assert (Es : s = fun b => match gauss A b with Some x => x | None => [] end) by congruence. subst s. cbv beta.
  destruct (gauss_complete A b Lb Hr) as (x & Ex); [exact (gauss_kernel A (zeros (length A)) z Hr (zeros_length _) E)|].
  rewrite Ex. rewrite <- Lb. apply gauss_correct, Ex.
Qed.
Lemma gauss_factor_complete : complete_factor gauss_factor.
Proof.
  intros A Hr Hk. unfold gauss_factor.
  replace (square A) with true by (symmetry; apply forallb_forall; intros r Hin; apply Nat.eqb_eq, Hr, Hin).
  destruct (gauss_complete A (zeros (length A)) (zeros_length _) Hr Hk) as (x & ->). eauto.
Qed.
Lemma gauss_factor_reports : reports_singular gauss_factor.
Proof.
  intros A (z & Lz & Nz & Ez). unfold gauss_factor. destruct (square A) eqn:Sq; [|reflexivity].
  destruct (gauss A (zeros (length A))) as [x|] eqn:E; [|reflexivity]. exfalso. apply Nz.
  exact (gauss_kernel A (zeros (length A)) x (square_rows A Sq) (zeros_length _) E z Lz Ez).
Qed.
(** The same solver, which reports nonsquare and singular matrices. *)
Definition strict_gauss (A : mat) (b : list R) : option (list R) :=
  match gauss_factor A with Some s => if Nat.eq_dec (length b) (length A) then Some (s b) else None | None => None end.
Lemma strict_gauss_ok : correct_solver strict_gauss /\ complete_solver strict_gauss /\ forall b, reports_singular (fun A => strict_gauss A b).
Proof.
  split; [|split].
  - intros A b x H. unfold strict_gauss in H. destruct (gauss_factor A) as [s|] eqn:E; [|discriminate].
    destruct (Nat.eq_dec _ _) as [L|]; [|discriminate]. assert (X : x = s b) by congruence. subst x. rewrite L.
    exact (gauss_factor_exact A s E b L).
  - intros A b Lb Hr Hk. destruct (gauss_factor_complete A Hr Hk) as (s & E). unfold strict_gauss. rewrite E.
    destruct (Nat.eq_dec _ _); [eauto|contradiction].
  - intros b A H. unfold strict_gauss. rewrite (gauss_factor_reports A H). reflexivity.
Qed.
