(** * Proofs about the estimate of the quality of a model. *)
From Coq Require Import Reals Lra Lia List Permutation.
From Verif Require Import LinAlg KernelNodes KernelMore.
From Verif Require Import RBFProofs RBFSolve RBFGlue AuxProofs AuxInverse SpecAux SpecLinear SystemProofs.
From Verif Require Import SpecQuality.
Import ListNotations.
Open Scope R_scope.

(** ** Reordering *)
Lemma nil_no_in {A} (l : list A) : (forall y, ~ In y l) -> l = [].
Proof. destruct l as [|x r]; [auto|]. intros H. destruct (H x). left. auto. Qed.
Lemma take_seq {A} (d : A) l : take d (seq 0 (length l)) l = l.
Proof.
  unfold take. apply nth_ext with d d; [rewrite map_length, seq_length; auto|].
  intros i Hi. rewrite map_length, seq_length in Hi.
  rewrite (nth_indep _ d (nth 0 l d)) by (rewrite map_length, seq_length; auto).
  rewrite (map_nth (fun j => nth j l d)), seq_nth by auto. reflexivity.
Qed.
Lemma take_perm {A} (d : A) l perm : Permutation (seq 0 (length l)) perm -> Permutation l (take d perm l).
Proof. intros H. rewrite <- (take_seq d l) at 1. apply Permutation_map. exact H. Qed.
Lemma take_nth {A} (d : A) l perm i : (i < length perm)%nat -> nth i (take d perm l) d = nth (nth i perm 0%nat) l d.
Proof.
  intros Hi. unfold take. rewrite (nth_indep _ d (nth 0 l d)) by (rewrite map_length; auto).
  apply (map_nth (fun j => nth j l d)).
Qed.

Lemma searchsorted_below v : forall l, (forall i j, (i <= j)%nat -> (j < length l)%nat -> nth i l 0 <= nth j l 0) ->
  searchsorted l v = below v l.
Proof.
  unfold below. induction l as [|x r IH]; intros Hs; [reflexivity|].
  cbn [searchsorted filter]. destruct (Rltb x v) eqn:E.
  - cbn [length]. f_equal. apply IH. intros i j Hij Hj. apply (Hs (S i) (S j)); cbn; lia.
  - apply Rltb_ge in E. replace (filter (fun x0 => Rltb x0 v) r) with (@nil R); [reflexivity|].
    symmetry. apply nil_no_in. intros y Hy. apply filter_In in Hy. destruct Hy as [Hy Hv].
    apply Rltb_lt in Hv. apply (In_nth _ _ 0) in Hy. destruct Hy as (j & Hj & <-).
    pose proof (Hs 0%nat (S j) ltac:(lia) ltac:(cbn; lia)) as K. cbn in K. lra.
Qed.

(** ** The estimate *)
Section Estimate.
  Variables (factor : mat -> option (list R -> list R)) (perm : list nat) (kind : rbf_kind) (gamma eps : R) (n : nat)
    (nodes : list rpoint) (vals : list R).
  Hypothesis Hn : in_dimension n nodes.
  Hypothesis Hd : NoDup nodes.
  Hypothesis Hg : shape_ok kind gamma.
  Hypothesis Hu : degree_polynomial kind = 1%Z -> determining n nodes.
  Hypothesis He : 0 <= eps.
  Hypothesis Ht : no_tiny kind gamma eps nodes.
  Hypothesis Hv : length vals = length nodes.
  Hypothesis Hp : by_value perm vals.
  Local Notation k := (length nodes).
  Local Notation p := (size_P kind n).
  Local Notation cn := (take ([] : rpoint) perm nodes).
  Local Notation cv := (take 0 perm vals).
  Local Notation A := (get_rbf_matrix kind gamma eps n cn).

  Lemma perm_len : length perm = k.
  Proof. destruct Hp as [P _]. apply Permutation_length in P. rewrite seq_length in P. lia. Qed.
  Lemma cn_perm : Permutation nodes cn.
  Proof. destruct Hp as [P _]. rewrite Hv in P. apply take_perm. exact P. Qed.
  Lemma cv_perm : Permutation vals cv.
  Proof. destruct Hp as [P _]. apply take_perm. exact P. Qed.
  Lemma cn_in x : In x cn <-> In x nodes.
  Proof. split; apply Permutation_in; [apply Permutation_sym|]; apply cn_perm. Qed.
  Lemma cn_len : length cn = k.
  Proof. unfold take. rewrite map_length. apply perm_len. Qed.
  Lemma cv_len : length cv = k.
  Proof. unfold take. rewrite map_length. apply perm_len. Qed.
  Lemma cn_dim : in_dimension n cn.
  Proof. intros x Hx. apply Hn, cn_in, Hx. Qed.
  Lemma cn_nodup : NoDup cn.
  Proof. eapply Permutation_NoDup; [apply cn_perm|exact Hd]. Qed.
  Lemma cn_determining : degree_polynomial kind = 1%Z -> determining n cn.
  Proof. intros E h b Lh V. apply (Hu E); auto. intros x Hx. apply V, cn_in, Hx. Qed.
  Lemma cn_no_tiny : no_tiny kind gamma eps cn.
  Proof.
    destruct Ht as (T1 & T2 & T3). split; [exact T1|]. split.
    - intros x y Hx Hy. apply T2; apply cn_in; auto.
    - intros E x c Hx Hc. apply (T3 E x); auto. apply cn_in, Hx.
  Qed.
  Lemma cv_sorted i j : (i <= j)%nat -> (j < length cv)%nat -> nth i cv 0 <= nth j cv 0.
  Proof.
    intros Hij Hj. rewrite cv_len in Hj. pose proof perm_len. rewrite !take_nth by lia. apply Hp; lia.
  Qed.
  Lemma below_cv v : below v cv = below v vals.
  Proof.
    unfold below. apply Permutation_length. symmetry.
    assert (G : forall l l' : list R, Permutation l l' -> Permutation (filter (fun x => Rltb x v) l) (filter (fun x => Rltb x v) l')).
    { clear. intros l l' P. induction P as [|a l l' P IH|a b l|l l' l'' P1 I1 P2 I2]; cbn; [constructor| | |eauto using Permutation].
      - destruct (Rltb a v); auto.
      - destruct (Rltb a v), (Rltb b v); eauto using Permutation. }
    apply G, cv_perm.
  Qed.
  Lemma cn_unisolvent : nodes <> [] -> unisolvent kind n [] cn.
  Proof.
    intros Hne. destruct (Z.eq_dec (degree_polynomial kind) 1) as [E|E].
    - intros h Lh _ V. rewrite E in V. destruct (@exists_last _ h) as (a & b & ->).
      { intros ->. destruct kind; cbn in *; lia. }
      assert (Ep : p = S n) by (destruct kind; cbn in *; lia).
      rewrite app_length in Lh. cbn in Lh. assert (La : length a = n) by lia.
      destruct (cn_determining E a b La) as [-> ->].
      + intros x Hx. specialize (V x Hx). cbn in V. unfold affine.
        rewrite rdot_app in V by (rewrite (cn_dim x Hx), La; auto). cbn in V. rewrite (rdot_comm a x). lra.
      + rewrite Ep. unfold zeros. change [0] with (repeat 0 1). rewrite <- repeat_app. f_equal. lia.
    - apply unisolvent_low; [destruct kind; cbn in *; lia|]. intros E0. apply Hne.
      pose proof cn_len as L. rewrite E0 in L. destruct nodes; [auto|discriminate].
  Qed.
  Lemma A_is_len : length A = (k + p)%nat.
  Proof. rewrite clean_matrix by auto using cn_dim, cn_no_tiny. rewrite exact_length by apply cn_dim. rewrite cn_len; auto. Qed.

  Lemma factor_ok : complete_factor factor -> nodes <> [] -> exists s, factor A = Some s.
  Proof.
    intros Hc Hne. assert (Hne' : cn <> []) by (intros E; apply Hne; pose proof cn_len as L; rewrite E in L; destruct nodes; [auto|discriminate]).
    pose proof (sysM_injective kind gamma eps n cn [] cn_dim cn_no_tiny ltac:(congruence) ltac:(congruence) cn_nodup Hg Hne'
                  (fun _ => cn_unisolvent Hne)) as I.
    assert (R0 : reduces p n [] = false) by (unfold reduces; apply Bool.andb_false_r).
    unfold injective, sysM, size in I. rewrite R0 in I. rewrite <- (clean_matrix kind gamma eps) in I by auto using cn_dim, cn_no_tiny.
    rewrite A_is_len, cn_len in I. apply Hc; rewrite A_is_len; [|exact I].
    rewrite clean_matrix by auto using cn_dim, cn_no_tiny. rewrite <- cn_len. apply (A_is_rows kind gamma n cn); auto using cn_dim.
  Qed.

  Section Solve.
    Variable solve : list R -> list R.
    Hypothesis Hs : forall b, length b = (k + p)%nat -> length (solve b) = (k + p)%nat /\ mat_vec A (solve b) = b.
    Lemma term_ok i : (i < k)%nat ->
      exists v, predicted_from_others kind gamma eps n cn cv i v /\
        loo_term solve kind gamma eps n k cn cv i = Some (Z.abs (Z.of_nat (below v vals) - Z.of_nat i)).
    Proof.
      intros Hi. assert (Hne : nodes <> []) by (intros E; rewrite E in Hi; cbn in Hi; lia).
      pose proof cn_len as Lc. pose proof cv_len as Lv.
      assert (L : length (rbf_rhs p cv) = (k + p)%nat) by (unfold rbf_rhs; rewrite app_length, zeros_length, Lv; auto).
      destruct (Hs _ L) as [B1 B2].
      assert (IN : interpolates kind gamma n cn cv (firstn k (solve (rbf_rhs p cv))) (skipn k (solve (rbf_rhs p cv)))).
      { pose proof cn_dim. pose proof cn_no_tiny.
        apply (solution_interpolates kind gamma eps); auto; try lia.
        - rewrite firstn_length. lia.
        - rewrite skipn_length. lia.
        - rewrite firstn_skipn. exact B2. }
      assert (W : nth i (firstn k (solve (rbf_rhs p cv))) 0 = nth i (solve (rbf_rhs p cv)) 0).
      { rewrite <- (firstn_skipn k (solve (rbf_rhs p cv))) at 2. rewrite app_nth1; auto. rewrite firstn_length. lia. }
      exists (loo_prediction solve kind gamma eps n k cn cv i). split.
      - exists (firstn k (solve (rbf_rhs p cv))), (skipn k (solve (rbf_rhs p cv))). split; [exact IN|].
        rewrite W. destruct (Rle_lt_dec (Rabs (nth i (solve (rbf_rhs p cv)) 0)) eps) as [S|S]; [left|right]; split; auto.
        + rewrite <- Lc. pose proof cn_dim. pose proof cn_no_tiny. apply loo_small; auto; rewrite ?Lc; auto.
        + destruct (loo_safe solve kind gamma eps n cn cv i) as (_ & (lam & h & I) & U); rewrite ?Lc;
            auto using cn_dim, cn_nodup, cn_no_tiny, cn_unisolvent.
          exists lam, h. split; [exact I|]. rewrite <- Lc. apply U, I.
      - unfold loo_term. destruct (Rltb eps (Rabs (nth i (solve (rbf_rhs p cv)) 0))) eqn:S.
        + apply Rltb_lt in S. destruct (loo_safe solve kind gamma eps n cn cv i) as (Z & _); rewrite ?Lc;
            auto using cn_dim, cn_nodup, cn_no_tiny, cn_unisolvent.
          rewrite Lc in Z. destruct (Req_EM_T _ 0) as [E|_]; [contradiction|]. cbn [andb].
          rewrite searchsorted_below by (intros; apply cv_sorted; auto). rewrite below_cv. reflexivity.
        + cbn [andb]. rewrite searchsorted_below by (intros; apply cv_sorted; auto). rewrite below_cv. reflexivity.
    Qed.
  End Solve.
End Estimate.

Lemma loo_sum_all term is : forall acc, (forall i, In i is -> exists e, term i = Some e) ->
  loo_sum term is acc = Some (acc + fold_right Z.add 0 (map (fun i => match term i with Some e => e | None => 0 end) is))%Z.
Proof.
  induction is as [|i r IH]; intros acc H; cbn; [f_equal; lia|].
  destruct (H i (or_introl eq_refl)) as [e E]. rewrite E. rewrite IH by (intros; apply H; right; auto). f_equal. lia.
Qed.

(** ** Categorical variables: the full system is singular *)
Definition block_indicator (n : nat) (b : list nat) : list R := map (fun j => if in_dec Nat.eq_dec j b then 1 else 0) (seq 0 n).
Definition block_kernel (k n : nat) (b : list nat) : list R := zeros k ++ block_indicator n b ++ [-1].

Lemma rdot_zeros_r u : forall m, rdot u (zeros m) = 0.
Proof. induction u as [|a u IH]; intros [|m]; cbn; auto. fold (zeros m). rewrite IH. ring. Qed.
Lemma rdot_zeros_l u : forall m, rdot (zeros m) u = 0.
Proof. induction u as [|a u IH]; intros [|m]; cbn; auto. fold (zeros m). rewrite IH. ring. Qed.
Lemma rdot_delta (u : list R) b : (b < length u)%nat -> forall s,
  rdot u (map (fun j => if Nat.eq_dec j (s + b) then 1 else 0) (seq s (length u))) = nth b u 0.
Proof.
  revert b. induction u as [|a u IH]; intros b Hb s; cbn [length] in *; [lia|].
  cbn [seq map rdot nth]. destruct b as [|b].
  - destruct (Nat.eq_dec s (s + 0)) as [_|N]; [|lia].
    replace (map _ (seq (S s) (length u))) with (zeros (length u)); [rewrite rdot_zeros_r; ring|].
    unfold zeros. apply nth_ext with 0 0; [rewrite repeat_length, map_length, seq_length; auto|].
    intros i Hi. rewrite repeat_length in Hi. rewrite nth_repeat.
    rewrite (nth_map_in _ _ _ 0%nat) by (rewrite seq_length; auto). rewrite seq_nth by auto. destruct (Nat.eq_dec (S s + i) (s + 0)); [lia|auto].
  - destruct (Nat.eq_dec s (s + S b)) as [E|_]; [lia|]. rewrite <- (IH b ltac:(lia) (S s)).
    replace (s + S b)%nat with (S s + b)%nat by lia. ring.
Qed.
Lemma indicator_dot n b x eps : length x = n -> (forall j, In j b -> (j < n)%nat) -> eps <= 1 -> one_active b x ->
  rdot (map (zero_tiny1 eps) x) (block_indicator n b) = 1.
Proof.
  intros Lx Hb He (c & Hc & X1 & X0).
  assert (Z1 : zero_tiny1 eps 1 = 1).
  { destruct (zero_tiny1_cases eps 1) as [[C E]|[C E]]; rewrite Rabs_R1 in *; auto. lra. }
  transitivity (nth c (map (zero_tiny1 eps) x) 0).
  - rewrite <- (rdot_delta (map (zero_tiny1 eps) x) c) with (s := 0%nat) by (rewrite map_length, Lx; auto).
    rewrite map_length, Lx. cbn [plus]. unfold block_indicator.
    assert (G : forall (u : list R) s (f g : nat -> R), (forall i, (i < length u)%nat -> nth i u 0 * f (s + i)%nat = nth i u 0 * g (s + i)%nat) ->
      rdot u (map f (seq s (length u))) = rdot u (map g (seq s (length u)))).
    { induction u as [|a u IH]; intros s f g H; [reflexivity|]. cbn. f_equal.
      - specialize (H 0%nat ltac:(cbn; lia)). cbn in H. rewrite Nat.add_0_r in H. exact H.
      - apply IH. intros i Hi. specialize (H (S i) ltac:(cbn; lia)). cbn in H. replace (S s + i)%nat with (s + S i)%nat by lia. exact H. }
    specialize (G (map (zero_tiny1 eps) x) 0%nat). rewrite map_length, Lx in G. apply G. cbn [plus].
    intros i Hi. destruct (Nat.eq_dec i c) as [->|N].
    + destruct (in_dec Nat.eq_dec c b); [reflexivity|contradiction].
    + destruct (in_dec Nat.eq_dec i b) as [I|I]; [|reflexivity].
      rewrite (nth_map_in _ _ _ 0) by (rewrite Lx; auto). rewrite X0 by auto. rewrite zero_tiny1_0. ring.
  - rewrite (nth_map_in _ _ _ 0) by (rewrite Lx; auto). rewrite X1. exact Z1.
Qed.
Lemma categorical_singular kind gamma eps n nodes b : in_dimension n nodes -> degree_polynomial kind = 1%Z -> eps <= 1 ->
  (forall j, In j b -> (j < n)%nat) -> (forall x, In x nodes -> one_active b x) ->
  singular (get_rbf_matrix kind gamma eps n nodes).
Proof.
  intros Hn Hd He Hb Ho. set (A := get_rbf_matrix kind gamma eps n nodes). set (k := length nodes).
  assert (Ep : size_P kind n = (n + 1)%nat) by (destruct kind; cbn in *; lia).
  assert (LA : length A = (k + (n + 1))%nat).
  { unfold A, get_rbf_matrix, zero_tiny. rewrite map_length, exact_length by auto. rewrite Ep. reflexivity. }
  assert (LI : length (block_indicator n b) = n) by (unfold block_indicator; rewrite map_length, seq_length; auto).
  exists (block_kernel k n b). rewrite LA. split; [|split].
  - unfold block_kernel. rewrite !app_length, zeros_length, LI. cbn. lia.
  - intros E. apply (f_equal (fun l => nth (k + n) l 0)) in E. unfold block_kernel in E.
    rewrite app_nth2 in E by (rewrite zeros_length; lia). rewrite zeros_length in E.
    rewrite app_nth2 in E by lia. rewrite LI in E. replace (k + n - k - n)%nat with 0%nat in E by lia.
    cbn in E. rewrite nth_zeros in E. lra.
  - apply nth_ext with 0 0; [rewrite mat_vec_length, LA, zeros_length; auto|].
    intros i Hi. rewrite mat_vec_length, LA in Hi. rewrite nth_mat_vec by (rewrite LA; auto). rewrite nth_zeros.
    unfold A, get_rbf_matrix. rewrite nth_zero_tiny. unfold block_kernel.
    destruct (Nat.lt_ge_cases i k) as [L|L].
    + rewrite exact_row_top by auto. rewrite map_app.
      rewrite rdot_app by (rewrite map_length, phi_row_length, zeros_length; auto).
      rewrite rdot_zeros_r. set (x := nth i nodes []). assert (Hx : In x nodes) by (apply nth_In; auto).
      assert (PT : ptail kind x = x ++ [1]).
      { unfold ptail. destruct kind; cbn in *; try discriminate; reflexivity. }
      rewrite PT, map_app, rdot_app by (rewrite map_length, LI; apply Hn; auto).
      rewrite (indicator_dot n b x eps); auto. cbn.
      destruct (zero_tiny1_cases eps 1) as [[C E]|[C E]]; rewrite Rabs_R1 in *; [lra|]. rewrite E. ring.
    + replace i with (length nodes + (i - k))%nat by (unfold k in *; lia). rewrite exact_row_bottom by (auto; rewrite Ep; lia).
      rewrite map_app. rewrite rdot_app by (rewrite !map_length, zeros_length; auto). rewrite rdot_zeros_r.
      assert (Z : forall m, map (zero_tiny1 eps) (zeros m) = zeros m).
      { intros m. unfold zeros. induction m as [|m IH]; [reflexivity|]. cbn. rewrite IH, zero_tiny1_0. reflexivity. }
      rewrite Z, rdot_zeros_l. ring.
Qed.
