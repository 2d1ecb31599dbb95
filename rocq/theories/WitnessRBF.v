(** * Concrete cases for the RBF theorems. *)
From Verif Require Export RBFGlue.
Open Scope R_scope.

Lemma distance1 a b : distance [a] [b] = Rabs (a - b).
Proof. unfold distance. cbn. rewrite Rplus_0_r. rewrite <- sqrt_Rsqr_abs. reflexivity. Qed.
Lemma zt_big eps a : eps <= Rabs a -> zero_tiny1 eps a = a.
Proof. intros H. destruct (zero_tiny1_cases eps a) as [[L _]|[_ ->]]; auto; lra. Qed.

(** A solver that knows one vector. *)
Definition guess (x : list R) (A : mat) (b : list R) : option (list R) :=
  if Nat.eq_dec (length x) (length b)
  then if list_eq_dec Req_EM_T (mat_vec A x) b then Some x else None else None.
Lemma guess_correct x : correct_solver (guess x).
Proof.
  intros A b y. unfold guess. destruct (Nat.eq_dec _ _); [|discriminate].
  destruct (list_eq_dec _ _ _); [|discriminate]. intros H; injection H as <-. auto.
Qed.
Lemma guess_yes x A b : length x = length b -> mat_vec A x = b -> guess x A b = Some x.
Proof.
  intros H1 H2. unfold guess. destruct (Nat.eq_dec _ _); [|congruence].
  destruct (list_eq_dec _ _ _); [auto|congruence].
Qed.

(** Nodes 0, 1, 3 on the line, linear basis. *)
Definition xs3 : list rpoint := [[0]; [1]; [3]].
Definition eps3 : R := 1/100.
Definition A3 : mat := [[0; 1; 3; 1]; [1; 0; 2; 1]; [3; 2; 0; 1]; [1; 1; 1; 0]].
Lemma A3_exact : rbf_matrix_exact Linear 1 1 xs3 = A3.
Proof.
  unfold rbf_matrix_exact, Phi_matrix, cdist, cdist_row, xs3, A3, vstack, hstack, P_matrix. cbn [size_P Nat.add Nat.eqb Nat.ltb Nat.leb map map2 rbf_function linear].
  rewrite !distance1.
  replace (Rabs (0 - 0)) with 0 by (rewrite Rminus_0_r, Rabs_R0; reflexivity).
  replace (Rabs (0 - 1)) with 1 by (rewrite Rabs_left; lra).
  replace (Rabs (0 - 3)) with 3 by (rewrite Rabs_left; lra).
  replace (Rabs (1 - 0)) with 1 by (rewrite Rabs_right; lra).
  replace (Rabs (1 - 1)) with 0 by (rewrite Rabs_right; lra).
  replace (Rabs (1 - 3)) with 2 by (rewrite Rabs_left; lra).
  replace (Rabs (3 - 0)) with 3 by (rewrite Rabs_right; lra).
  replace (Rabs (3 - 1)) with 2 by (rewrite Rabs_right; lra).
  replace (Rabs (3 - 3)) with 0 by (rewrite Rabs_right; lra).
  reflexivity.
Qed.
Lemma A3_get : get_rbf_matrix Linear 1 eps3 1 xs3 = A3.
Proof.
  unfold get_rbf_matrix. rewrite A3_exact. unfold zero_tiny, A3, eps3. cbn [map].
  rewrite !zero_tiny1_0, !zt_big; auto; rewrite ?Rabs_R1; rewrite ?Rabs_right; lra.
Qed.
Definition inv3 : mat :=
  [[-1/2; 1/2; 0; 1/2]; [1/2; -3/4; 1/4; 0]; [0; 1/4; -1/4; 1/2]; [1/2; 0; 1/2; -3/2]].
Definition solve3 (b : list R) : list R := mat_vec inv3 b.
Lemma solve3_ok b : length b = 4%nat -> length (solve3 b) = 4%nat /\ mat_vec A3 (solve3 b) = b.
Proof.
  intros H. destruct b as [|b0 [|b1 [|b2 [|b3 [|]]]]]; cbn in H; try discriminate.
  split; [reflexivity|]. unfold solve3, mat_vec, A3, inv3. cbn.
  repeat (f_equal; try field).
Qed.
Lemma A3_inj u v : length u = 4%nat -> length v = 4%nat -> mat_vec A3 u = mat_vec A3 v -> u = v.
Proof.
  intros Hu Hv. destruct u as [|u0 [|u1 [|u2 [|u3 [|]]]]]; cbn in Hu; try discriminate.
  destruct v as [|v0 [|v1 [|v2 [|v3 [|]]]]]; cbn in Hv; try discriminate.
  unfold mat_vec, A3. cbn. intros H. injection H as E0 E1 E2 E3.
  repeat (f_equal; try lra).
Qed.
Definition vals3 : list R := [0; 2; 3].
Definition lam3 : list R := [1; -3/4; -1/4].
Definition h3 : list R := [3/2].
Lemma no_tiny3 : no_tiny Linear 1 eps3 xs3.
Proof.
  split; [unfold eps3; lra|]. split; [|discriminate].
  intros x y Hx Hy. unfold xs3 in *. cbn [rbf_function linear].
  destruct Hx as [<-|[<-|[<-|[]]]], Hy as [<-|[<-|[<-|[]]]]; cbn zeta; rewrite distance1; unfold linear, eps3;
    match goal with |- Rabs ?a = 0 \/ _ => unfold Rabs; repeat destruct (Rcase_abs _); lra end.
Qed.
Lemma in_dim3 : in_dimension 1 xs3.
Proof. intros x [<-|[<-|[<-|[]]]]; reflexivity. Qed.
Lemma coeff3 : get_rbf_coefficients (guess (lam3 ++ h3)) Linear 1 3 (get_rbf_matrix Linear 1 eps3 1 xs3) vals3 [] = Some (lam3, h3).
Proof.
  rewrite A3_get. unfold get_rbf_coefficients, rbf_solution. cbn [reduces size_P Nat.add Nat.eqb andb].
  rewrite guess_yes; [reflexivity|reflexivity|].
  unfold mat_vec, A3, lam3, h3, rbf_rhs, vals3. cbn. repeat (f_equal; try field).
Qed.
Lemma loo3 : eps3 < Rabs (nth 1 (solve3 (rbf_rhs 1 vals3)) 0) /\ nth 1 (solve3 (unit_vector 4 1)) 0 <> 0.
Proof.
  unfold solve3, rbf_rhs, vals3, inv3, eps3, unit_vector. cbn. split.
  - match goal with |- _ < Rabs ?a => replace a with (-3/4) by field end. rewrite Rabs_left; lra.
  - lra.
Qed.

(** One categorical variable with two values: coordinates 0 and 1. *)
Definition xsc : list rpoint := [[1; 0]; [0; 1]].
Lemma blocks_c : proper_blocks 2 [[0; 1]]%nat /\ forall b x, In b [[0; 1]]%nat -> In x xsc -> one_active b x.
Proof.
  split; [split|].
  - intros b [<-|[]]. split; [discriminate|]. split.
    + constructor; [intros [H|[]]; discriminate|]. constructor; [intros []|constructor].
    + intros j [<-|[<-|[]]]; lia.
  - intros [|i] [|j] Hi Hj Hd; cbn in *; lia.
  - intros b x [<-|[]] [<-|[<-|[]]].
    + exists 0%nat. split; [left; auto|]. split; [reflexivity|]. intros c [<-|[<-|[]]] Hc; [congruence|reflexivity].
    + exists 1%nat. split; [right; left; auto|]. split; [reflexivity|]. intros c [<-|[<-|[]]] Hc; [reflexivity|congruence].
Qed.
Lemma coeff_c : get_rbf_coefficients (guess [0; 0; 1; 2]) Cubic 2 2 (get_rbf_matrix Cubic 1 eps3 2 xsc) [3; 2] [[0; 1]]%nat
  = Some ([0; 0], [1; 0; 2]).
Proof.
  unfold get_rbf_coefficients, rbf_solution. cbn [reduces size_P Nat.add Nat.eqb andb].
  assert (Z1 : zero_tiny1 eps3 1 = 1) by (apply zt_big; rewrite Rabs_R1; unfold eps3; lra).
  rewrite guess_yes; [reflexivity|reflexivity|].
  unfold get_rbf_matrix, rbf_matrix_exact, Phi_matrix, cdist, cdist_row, xsc, P_matrix, rbf_rhs, column_mask.
  cbn. rewrite Z1, zero_tiny1_0. repeat (f_equal; try ring).
Qed.
