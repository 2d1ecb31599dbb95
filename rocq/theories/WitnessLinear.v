(** * Concrete cases for the theorems about well-posed interpolation and least squares. *)
From Verif Require Export WitnessRBF.
From Verif Require Export GaussSolver LinearGlue KernelMore LinAlg KernelNodes SystemProofs LstsqProofs.
From Verif Require Export SpecAux SpecPyomo SpecScaling SpecRefine SpecLinear.
From Coq Require Export Lra Lia.
Open Scope R_scope.

(** A least-squares routine that knows one answer. *)
Definition one_answer (A0 : mat) (b0 x : list R) (rank : nat) : lstsq_fun := fun A b =>
  if list_eq_dec (list_eq_dec Req_EM_T) A A0 then if list_eq_dec Req_EM_T b b0 then Some (x, rank) else None else None.
Lemma one_answer_correct A0 b0 x rank c : (forall r, In r A0 -> length r = c) -> A0 <> [] -> length x = c -> sq_error A0 b0 x = 0 ->
  ((rank < length A0)%nat <-> dependent_rows A0 c) -> correct_lstsq (one_answer A0 b0 x rank).
Proof.
  intros H1 Hne H2 H3 H4 A b c' y k Hr Hb HA. unfold one_answer. destruct (list_eq_dec _ A A0) as [->|]; [|discriminate].
  destruct (list_eq_dec _ b b0) as [->|]; [|discriminate]. intros E. injection E as <- <-.
  assert (c' = c) as ->. { destruct A0 as [|r A0]; [tauto|]. rewrite <- (H1 r), <- (Hr r) by (left; auto). auto. }
  split; auto. split; auto. intros y _. rewrite H3. unfold sq_error. generalize (mat_vec A0 y) as u. intros u. clear.
  revert b0. induction u as [|a u IH]; intros [|v b]; cbn [map2 rsum fold_right]; unfold rsum; cbn [fold_right]; try lra. specialize (IH b). unfold rsum in IH. pose proof (Rle_0_sqr (a - v)) as Q. unfold Rsqr in Q. lra.
Qed.
Lemma one_answer_yes A0 b0 x rank : one_answer A0 b0 x rank A0 b0 = Some (x, rank).
Proof. unfold one_answer. destruct (list_eq_dec _ A0 A0); [|tauto]. destruct (list_eq_dec _ b0 b0); tauto. Qed.

(** Line through (0,1) and (1,3). *)
Definition ls2 : lstsq_fun := one_answer [[0; 1]; [1; 1]] [1; 3] [2; 1] 2.
Lemma ls2_correct : correct_lstsq ls2.
Proof.
  apply (one_answer_correct _ _ _ _ 2); auto; try discriminate.
  - intros r [<-|[<-|[]]]; reflexivity.
  - unfold sq_error, rsum. cbn. lra.
  - split; [intros H; cbn in H; lia|]. intros ([|a [|b [|]]] & L & Z & H); try discriminate. exfalso. apply Z.
    pose proof (H 0%nat ltac:(lia)) as H0. pose proof (H 1%nat ltac:(lia)) as H1. cbn in *. unfold zeros. cbn. repeat f_equal; lra.
Qed.
(** One node in the plane. *)
Definition ls1 : lstsq_fun := one_answer [[0; 0; 1]] [5] [0; 0; 5] 1.
Lemma ls1_correct : correct_lstsq ls1.
Proof.
  apply (one_answer_correct _ _ _ _ 3); auto; try discriminate.
  - intros r [<-|[]]; reflexivity.
  - unfold sq_error, rsum. cbn. lra.
  - split; [intros H; cbn in H; lia|]. intros ([|a [|]] & L & Z & H); try discriminate. exfalso. apply Z.
    pose proof (H 2%nat ltac:(lia)) as H2. cbn in *. unfold zeros. cbn. f_equal. lra.
Qed.
Lemma xs3_distinct : NoDup xs3.
Proof.
  unfold xs3. repeat constructor; cbn; intros H; repeat (destruct H as [H|H]); try tauto; injection H as H; lra.
Qed.
(** One node in the plane, cubic basis. *)
Definition A1 : mat := [[0; 0; 0; 1]; [0; 0; 0; 0]; [0; 0; 0; 0]; [1; 0; 0; 0]].
Lemma A1_get : get_rbf_matrix Cubic 1 eps3 2 [[0; 0]] = A1.
Proof.
  unfold get_rbf_matrix, rbf_matrix_exact, Phi_matrix, cdist, cdist_row, P_matrix, zero_tiny. cbn.
  assert (E : distance [0; 0] [0; 0] = 0) by (apply distance_zero; auto). rewrite E. unfold cubic. rewrite Rmult_0_r.
  rewrite !zero_tiny1_0, !zt_big by (rewrite Rabs_R1; unfold eps3; lra). reflexivity.
Qed.
Definition ls4 : lstsq_fun := one_answer A1 [5; 0; 0; 0] [0; 0; 0; 5] 2.
Lemma ls4_correct : correct_lstsq ls4.
Proof.
  apply (one_answer_correct _ _ _ _ 4); auto; try discriminate.
  - intros r [<-|[<-|[<-|[<-|[]]]]]; reflexivity.
  - unfold sq_error, rsum, A1. cbn. lra.
  - split; [|cbn; lia]. intros _. exists [0; 1; 0; 0]. split; [reflexivity|]. split.
    + unfold zeros. cbn. intros E. injection E as E. lra.
    + intros j Hj. unfold A1. destruct j as [|[|[|[|j]]]]; cbn; try lra; lia.
Qed.
Lemma under1 : get_rbf_coefficients_underdet ls4 Cubic 2 1 (get_rbf_matrix Cubic 1 eps3 2 [[0; 0]]) [5] [] = Some ([0], [0; 0; 5]).
Proof.
  rewrite A1_get. unfold get_rbf_coefficients_underdet, get_rbf_coefficients, rbf_solution, rbf_rhs, zeros. cbn [reduces size_P Nat.add Nat.eqb andb app repeat].
  unfold ls4. rewrite one_answer_yes. reflexivity.
Qed.
Lemma no_tiny1 : no_tiny Cubic 1 eps3 [[0; 0]].
Proof.
  split; [unfold eps3; lra|]. split.
  - intros x y [<-|[]] [<-|[]]. cbn zeta. left. cbn [rbf_function].
    assert (E : distance [0; 0] [0; 0] = 0) by (apply distance_zero; auto). rewrite E. unfold cubic. ring.
  - intros _ x c [<-|[]] [<-|[<-|[]]]; auto.
Qed.
