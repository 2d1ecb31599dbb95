(** * The linear system solved by the code: plain or reduced; direct or least-squares solver. *)
From Coq Require Import Reals Lra Lia List.
From Verif Require Import LinAlg KernelNodes.
From Verif Require Import RBFProofs RBFSolve RBFGlue AuxProofs AuxInverse SpecAux SpecLinear.
Import ListNotations.
Open Scope R_scope.

Lemma clean_matrix kind gamma eps n nodes : in_dimension n nodes -> no_tiny kind gamma eps nodes ->
  get_rbf_matrix kind gamma eps n nodes = rbf_matrix_exact kind gamma n nodes.
Proof.
  intros Hn Ht. apply zero_tiny_id. intros r a Hr Ha.
  apply (In_nth _ _ []) in Hr. destruct Hr as (i & Hi & <-). apply (In_nth _ _ 0) in Ha. destruct Ha as (j & Hj & <-).
  apply (no_tiny_clean kind gamma eps n nodes Hn Ht i j).
Qed.

(** Symmetric matrices. *)
Definition selfadjoint (N : nat) (A : mat) : Prop :=
  forall u v, length u = N -> length v = N -> rdot u (mat_vec A v) = rdot v (mat_vec A u).
Lemma symmetric_selfadjoint N A : rows_of N A -> length A = N -> (forall i j, ent A i j = ent A j i) -> selfadjoint N A.
Proof.
  intros HA HN Hs u v Hu Hv. rewrite (rdot_mat_vec N) by (auto; lia).
  rewrite (rdot_comm v). f_equal. apply nth_ext with 0 0; [rewrite map_length, seq_length, mat_vec_length; auto|].
  intros j Hj. rewrite map_length, seq_length in Hj. rewrite (nth_map_in _ _ _ 0%nat) by (rewrite seq_length; auto).
  rewrite seq_nth by auto. cbn [plus]. rewrite nth_mat_vec by lia. rewrite rdot_comm. f_equal.
  apply nth_ext with 0 0; [rewrite map_length; rewrite (HA (nth j A [])); [auto|apply nth_In; lia]|].
  intros i Hi. rewrite map_length in Hi. rewrite (nth_map_in _ _ _ ([] : list R)) by auto. apply (Hs i j).
Qed.
Lemma masked_unmasked m : forall s, length s = count_true m -> masked m (unmasked m s) = s.
Proof.
  induction m as [|[] m IH]; intros [|a s] H; cbn in *; try discriminate; auto.
  f_equal. apply IH. lia.
Qed.
Lemma rdot_masked m : forall u v, length v = length m -> length u = count_true m -> rdot u (masked m v) = rdot (unmasked m u) v.
Proof.
  induction m as [|[] m IH]; intros u [|b v] Hv Hu; cbn [length] in *; try discriminate.
  - cbn in Hu. destruct u; [reflexivity|discriminate].
  - destruct u as [|a u]; cbn in *; [discriminate|]. rewrite IH by lia. ring.
  - cbn [masked unmasked rdot]. rewrite IH by (cbn in *; lia). ring.
Qed.
Lemma unmasked_zeros m : forall n, unmasked m (zeros n) = zeros (length m).
Proof.
  induction m as [|[] m IH]; intros [|n]; cbn; auto; unfold zeros in *; cbn; f_equal; auto; try (apply (IH 0%nat)); try (apply (IH (S n))).
Qed.
Lemma masked_zeros m : masked m (zeros (length m)) = zeros (count_true m).
Proof. induction m as [|[] m IH]; cbn; auto. unfold zeros in *. cbn. f_equal. auto. Qed.

Lemma nth_skip (l : list R) : forall k j, nth j (skipn k l) 0 = nth (k + j) l 0.
Proof. induction l as [|a l IH]; intros [|k] j; cbn; auto. destruct j; auto. Qed.

Lemma unisolvent_low kind n nodes : (degree_polynomial kind <= 0)%Z -> nodes <> [] -> unisolvent kind n [] nodes.
Proof.
  intros Hk Hne h Lh _ Z. destruct nodes as [|x l]; [tauto|]. specialize (Z x (or_introl eq_refl)).
  destruct kind; cbn in *; try lia.
  - destruct h as [|a [|b h]]; cbn in *; try lia. unfold zeros. cbn. f_equal. lra.
  - destruct h as [|a [|b h]]; cbn in *; try lia. unfold zeros. cbn. f_equal. lra.
  - destruct h; cbn in *; [auto|lia].
Qed.

Section Sys.
  Variables (kind : rbf_kind) (gamma eps : R) (n : nat) (nodes : list rpoint) (exps : list (list nat)).
  Hypothesis Hn : in_dimension n nodes.
  Hypothesis Ht : no_tiny kind gamma eps nodes.
  Hypothesis Hn1 : exps <> [] -> (1 <= n)%nat.
  Hypothesis Hcat : degree_polynomial kind = 1%Z -> exps <> [] ->
    proper_blocks n exps /\ forall b x, In b exps -> In x nodes -> one_active b x.
  Local Notation k := (length nodes).
  Local Notation p := (size_P kind n).
  Local Notation A := (rbf_matrix_exact kind gamma n nodes).
  Local Notation red := (reduces p n exps).
  Local Notation m := (column_mask (length A) k exps).
  Definition sysM : mat := if red then masked m (map (masked m) A) else A.
  Definition sysB (vals : list R) : list R := if red then masked m (rbf_rhs p vals) else rbf_rhs p vals.
  Definition lift (x : list R) : list R := if red then unmasked m x else x.
  Definition size : nat := if red then count_true m else (k + p)%nat.

  Lemma solution_sys solve vals : rbf_solution solve kind n k (get_rbf_matrix kind gamma eps n nodes) vals exps =
    option_map lift (solve sysM (sysB vals)).
  Proof.
    rewrite clean_matrix by auto. unfold rbf_solution, sysM, sysB, lift. destruct red; auto.
    destruct (solve A _); reflexivity.
  Qed.
  Lemma A_len : length A = (k + p)%nat.
  Proof. apply exact_length; auto. Qed.
  Lemma m_len : length m = (k + p)%nat.
  Proof. rewrite column_mask_length. apply A_len. Qed.
  Lemma rhs_len vals : length vals = k -> length (rbf_rhs p vals) = (k + p)%nat.
  Proof. intros H. unfold rbf_rhs. rewrite app_length, zeros_length. lia. Qed.
  Lemma sysM_len : length sysM = size.
  Proof. unfold sysM, size. destruct red; [|apply A_len]. apply masked_length. rewrite map_length, column_mask_length. auto. Qed.
  Lemma A_is_rows : rows_of (k + p) A.
  Proof. apply (exact_is_rows kind gamma n nodes Hn). Qed.
  Lemma sysM_rows : rows_of size sysM.
  Proof.
    unfold sysM, size. destruct red; [|apply A_is_rows]. intros r Hr. apply masked_in in Hr. apply in_map_iff in Hr.
    destruct Hr as (q & <- & Hq). apply masked_length. rewrite m_len. apply A_is_rows; auto.
  Qed.
  Lemma sysB_len vals : length vals = k -> length (sysB vals) = size.
  Proof. intros H. unfold sysB, size. destruct red; [|apply rhs_len; auto]. apply masked_length. rewrite rhs_len, m_len; auto. Qed.
  Lemma lift_len x : length x = size -> length (lift x) = (k + p)%nat.
  Proof. unfold lift, size. destruct red; auto. intros _. rewrite unmasked_length. apply m_len. Qed.
  Lemma lift_zero x : length x = size -> lift x = zeros (k + p) -> x = zeros size.
  Proof.
    unfold lift, size. destruct red; auto. intros H E. rewrite <- (masked_unmasked m x H), E, <- m_len. apply masked_zeros.
  Qed.
  Lemma lift_dot x vals : length x = size -> length vals = k -> rdot x (sysB vals) = rdot (lift x) (rbf_rhs p vals).
  Proof.
    unfold sysB, lift, size. destruct red; auto. intros H Hv. apply rdot_masked; auto. rewrite rhs_len, m_len; auto.
  Qed.
  Lemma A_selfadjoint : selfadjoint (k + p) A.
  Proof. apply symmetric_selfadjoint; [apply A_is_rows|apply A_len|]. intros. apply exact_symmetric; auto. Qed.
  Lemma unmasked_off x : length x = count_true m -> forall i, nth i m true = false -> nth i (unmasked m x) 0 = 0.
  Proof. intros _ i Hi. apply unmasked_zero; auto. Qed.
  Lemma sys_apply x : red = true -> length x = count_true m -> mat_vec sysM x = masked m (mat_vec A (unmasked m x)).
  Proof.
    intros Hr H. unfold sysM. rewrite Hr. rewrite <- masked_system.
    - rewrite masked_unmasked by auto. auto.
    - apply unmasked_length.
    - rewrite m_len. apply A_is_rows.
    - apply unmasked_off; auto.
  Qed.
  Lemma sysM_selfadjoint : selfadjoint size sysM.
  Proof.
    unfold selfadjoint, size. destruct red eqn:Er.
    - intros u v Hu Hv. rewrite !sys_apply by auto.
      rewrite !rdot_masked by (auto; rewrite mat_vec_length, column_mask_length; auto).
      apply A_selfadjoint; rewrite unmasked_length; apply m_len.
    - unfold sysM. rewrite Er. apply A_selfadjoint.
  Qed.
  Lemma red_facts : red = true -> degree_polynomial kind = 1%Z /\ exps <> [] /\ p = (n + 1)%nat.
  Proof.
    unfold reduces. intros H. apply andb_prop in H. destruct H as [E1 E2]. apply Nat.eqb_eq in E1.
    assert (Hex : exps <> []) by (intros ->; discriminate). specialize (Hn1 Hex).
    repeat split; auto. destruct kind; cbn in *; auto; lia.
  Qed.
  (** A kernel vector of the system solved is a kernel vector of the full system. *)
  Lemma lift_kernel x : length x = size -> mat_vec sysM x = zeros size -> mat_vec A (lift x) = zeros (k + p).
  Proof.
    unfold lift, sysM, size. destruct red eqn:Er; auto. intros Lx Ex.
    destruct (red_facts Er) as (Hd & Hex & Hp). destruct (Hcat Hd Hex) as [Hb Ho].
    rewrite <- (rhs_zero kind n k). pose proof (clean_matrix kind gamma eps n nodes Hn Ht) as CM.
    rewrite <- CM in Lx, Ex |- *.
    apply (full_solution kind gamma eps n nodes (zeros k) x exps); auto.
    - apply zeros_length.
    - apply Ht.
    - rewrite Lx. symmetry. apply masked_length. rewrite column_mask_length, CM, A_len. rewrite rhs_len; auto. apply zeros_length.
    - rewrite Ex, rhs_zero. rewrite CM, <- m_len. symmetry. apply masked_zeros.
  Qed.
  Lemma lift_dropped x : length x = size -> red = true -> forall e, In e exps -> nth (k + last e 0%nat) (lift x) 0 = 0.
  Proof.
    unfold lift. intros Lx Er e He. rewrite Er. apply unmasked_zero. destruct (red_facts Er) as (Hd & Hex & Hp).
    destruct (Hcat Hd Hex) as [[Hb _] _]. destruct (Hb e He) as (Hne & _ & Hlt).
    apply column_mask_false; eauto. rewrite A_len, Hp. pose proof (Hlt _ (last_In e Hne)). lia.
  Qed.

  Hypothesis Hd : NoDup nodes.
  Hypothesis Hg : shape_ok kind gamma.
  (** Weights of a kernel vector are 0. *)
  Lemma kernel_weights x : length x = size -> mat_vec sysM x = zeros size -> firstn k (lift x) = zeros k /\
    forall y, In y nodes -> rdot (monomials (degree_polynomial kind) y) (skipn k (lift x)) = 0.
  Proof.
    intros Lx Ex. pose proof (lift_kernel x Lx Ex) as E. pose proof (lift_len x Lx) as L.
    apply (kernel_vector kind gamma n nodes); auto; [rewrite firstn_length; lia|rewrite skipn_length; lia|].
    rewrite firstn_skipn. exact E.
  Qed.
  Hypothesis Hne : nodes <> [].
  Hypothesis Hu : degree_polynomial kind = 1%Z -> unisolvent kind n (map (fun e => last e 0%nat) exps) nodes.
  Lemma sysM_injective : injective size sysM.
  Proof.
    intros x Lx Ex. rewrite sysM_len in Ex. destruct (kernel_weights x Lx Ex) as [E1 E2]. pose proof (lift_len x Lx) as L.
    apply lift_zero; auto. rewrite <- (firstn_skipn k (lift x)), E1.
    assert (E3 : skipn k (lift x) = zeros p); [|rewrite E3; apply zeros_app].
    destruct (Z.eq_dec (degree_polynomial kind) 1) as [D|D].
    - apply Hu; auto; [rewrite skipn_length; lia|]. intros j Hj. apply in_map_iff in Hj. destruct Hj as (e & <- & He).
      rewrite nth_skip. apply lift_dropped; auto.
      unfold reduces. destruct exps; [destruct He|]. rewrite andb_true_r. apply Nat.eqb_eq. destruct kind; cbn in *; auto; lia.
    - apply (unisolvent_low kind n nodes); auto; [destruct kind; cbn in *; lia|rewrite skipn_length; lia|intros ? []].
  Qed.
  Lemma solver_succeeds solve vals : complete_solver solve -> length vals = k ->
    exists lam h, get_rbf_coefficients solve kind n k (get_rbf_matrix kind gamma eps n nodes) vals exps = Some (lam, h).
  Proof.
    intros Hc Hv. destruct (Hc sysM (sysB vals)) as (x & Ex).
    - rewrite sysB_len, sysM_len; auto.
    - rewrite sysM_len. apply sysM_rows.
    - rewrite sysM_len. intros x Lx E. apply sysM_injective; auto. rewrite sysM_len. auto.
    - unfold get_rbf_coefficients. rewrite solution_sys, Ex. cbn. eauto.
  Qed.
End Sys.
