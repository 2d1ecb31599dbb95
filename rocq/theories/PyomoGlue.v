(** * More proofs about the optimization problems: inverse, feasible sets, noisy refit. *)
From Verif Require Export PyomoProofs RBFGlue.
From Coq Require Import Lra Lia.
Open Scope R_scope.

(** ** The inverse of a symmetric matrix is symmetric *)
Definition delta (i j : nat) : R := if (i =? j)%nat then 1 else 0.
Lemma sumn_delta q f : forall i, (i < q)%nat -> sumn q (fun j => delta i j * f j) = f i.
Proof.
  induction q; intros i Hi; [lia|]. rewrite sumn_S. destruct (Nat.eq_dec i q) as [->|Hne].
  - unfold delta at 2. rewrite Nat.eqb_refl.
    rewrite (sumn_ext q _ (fun _ => 0)). rewrite sumn_zero; ring.
    intros j Hj. unfold delta. replace (q =? j)%nat with false by (symmetry; apply Nat.eqb_neq; lia). ring.
  - rewrite IHq by lia. unfold delta. replace (i =? q)%nat with false by (symmetry; apply Nat.eqb_neq; lia). ring.
Qed.
Lemma delta_sym i j : delta i j = delta j i.
Proof. unfold delta. rewrite Nat.eqb_sym. reflexivity. Qed.

Section Inverse.
  Variables (q : nat) (M A : mat).
  Hypothesis HA : length A = q.
  Hypothesis HAr : forall i, (i < q)%nat -> length (nth i A []) = q.
  Hypothesis U : undoes M A.
  Hypothesis S : symmetric_mat q A.

  Lemma undoes_row i : (i < q)%nat -> length (nth i M []) = q.
  Proof. intros Hi. destruct U as (H1 & H2 & _). rewrite H2; [auto|]. apply nth_In. rewrite H1, HA. auto. Qed.
  Lemma mat_vec_ent B w i : length B = q -> length (nth i B []) = q -> length w = q -> (i < q)%nat ->
    nth i (mat_vec B w) 0 = sumn q (fun j => ent B i j * nth j w 0).
  Proof.
    intros HB HBr Hw Hi. rewrite nth_mat_vec by (rewrite HB; auto).
    rewrite <- (sumn_dot _ _ q) by auto. reflexivity.
  Qed.
  Lemma left_inverse i j : (i < q)%nat -> (j < q)%nat -> sumn q (fun l => ent M i l * ent A l j) = delta i j.
  Proof.
    intros Hi Hj. set (w := map (delta j) (seq 0 q)).
    assert (Lw : length w = q) by (unfold w; rewrite map_length, seq_length; auto).
    assert (Ew : forall l, (l < q)%nat -> nth l w 0 = delta j l).
    { intros l Hl. unfold w. rewrite (nth_map_in _ _ _ 0%nat) by (rewrite seq_length; auto). rewrite seq_nth by auto. reflexivity. }
    destruct U as (H1 & _ & H3). specialize (H3 w). rewrite HA in H3. specialize (H3 Lw).
    apply (f_equal (fun v => nth i v 0)) in H3.
    assert (LA : length (mat_vec A w) = q) by (unfold mat_vec; rewrite map_length; auto).
    rewrite mat_vec_ent in H3 by (first [assumption | rewrite H1; assumption | apply undoes_row; assumption]).
    rewrite Ew in H3 by auto. rewrite delta_sym, <- H3. apply sumn_ext. intros l Hl. f_equal.
    rewrite mat_vec_ent by auto.
    rewrite (sumn_ext q _ (fun m => delta j m * ent A l m)) by (intros; rewrite Ew by auto; ring).
    rewrite sumn_delta by auto. reflexivity.
  Qed.
  Lemma undoes_symmetric : symmetric_mat q M.
  Proof.
    intros i j Hi Hj.
    assert (L : sumn q (fun l => ent M i l * sumn q (fun m => ent A l m * ent M j m)) = ent M i j).
    { rewrite <- (sumn_delta q (fun l => ent M i l) j) by auto. apply sumn_ext. intros l Hl.
      rewrite <- left_inverse by auto. rewrite Rmult_comm. f_equal.
      apply sumn_ext. intros m Hm. rewrite (S l m) by auto. ring. }
    assert (R : sumn q (fun l => ent M i l * sumn q (fun m => ent A l m * ent M j m)) = ent M j i).
    { rewrite <- (sumn_delta q (fun m => ent M j m) i) by auto.
      rewrite (sumn_ext q _ (fun l => sumn q (fun m => ent M i l * ent A l m * ent M j m))).
      2:{ intros l Hl. rewrite <- sumn_scale. apply sumn_ext. intros. ring. }
      rewrite sumn_swap. apply sumn_ext. intros m Hm. rewrite sumn_scale_r, left_inverse by auto. reflexivity. }
    congruence.
  Qed.
End Inverse.

Lemma inverse_symmetric kind gamma n nodes M : in_dimension n nodes ->
  undoes M (rbf_matrix_exact kind gamma n nodes) -> symmetric_mat (length nodes + size_P kind n) M.
Proof.
  intros Hd U. apply (undoes_symmetric _ M (rbf_matrix_exact kind gamma n nodes)); auto.
  - apply exact_length; auto.
  - intros. apply exact_row_length; auto.
  - intros i j _ _. apply exact_symmetric; auto.
Qed.

(** ** Feasible sets *)
Lemma sumn_nonneg m f : (forall i, (i < m)%nat -> 0 <= f i) -> 0 <= sumn m f.
Proof. intros H. eapply Rle_trans; [apply Req_le; symmetry; apply (sumn_zero m)|]. apply sumn_le; auto. Qed.
Lemma sumn_ge m f : (forall i, (i < m)%nat -> 0 <= f i) -> forall i, (i < m)%nat -> f i <= sumn m f.
Proof.
  induction m; intros H i Hi; [lia|]. rewrite sumn_S.
  pose proof (sumn_nonneg m f (fun i Hi => H i ltac:(lia))).
  destruct (Nat.eq_dec i m) as [->|]; [lra|]. pose proof (IHm (fun i Hi => H i ltac:(lia)) i ltac:(lia)).
  pose proof (H m ltac:(lia)). lra.
Qed.
Lemma sumn_one m f : (forall i, (i < m)%nat -> f i = 0 \/ f i = 1) ->
  (sumn m f = 1 <-> exists i, (i < m)%nat /\ f i = 1 /\ forall j, (j < m)%nat -> j <> i -> f j = 0).
Proof.
  induction m; intros H.
  - rewrite sumn_0. split; [lra|]. intros (i & Hi & _). lia.
  - rewrite sumn_S. assert (H' : forall i, (i < m)%nat -> f i = 0 \/ f i = 1) by (intros; apply H; lia).
    assert (N : forall i, (i < m)%nat -> 0 <= f i) by (intros i Hi; destruct (H' i Hi) as [-> | ->]; lra).
    specialize (IHm H'). destruct (H m ltac:(lia)) as [E|E]; rewrite E.
    + rewrite Rplus_0_r, IHm. split; intros (i & Hi & E1 & E2).
      * exists i. split; [lia|]. split; [auto|]. intros j Hj Hne. destruct (Nat.eq_dec j m) as [->|]; [exact E|apply E2; lia].
      * assert (i <> m) by (intros ->; lra). exists i. split; [lia|]. split; [exact E1|]. intros j Hj. apply E2; lia.
    + split.
      * intros Hs. exists m. split; [lia|]. split; auto. intros j Hj Hne.
        pose proof (sumn_ge m f N j ltac:(lia)). pose proof (N j ltac:(lia)). lra.
      * intros (i & Hi & E1 & E2). destruct (Nat.eq_dec i m) as [->|Hne].
        -- rewrite (sumn_ext m f (fun _ => 0)) by (intros j Hj; apply E2; lia). rewrite sumn_zero. ring.
        -- rewrite E2 in E by lia. lra.
Qed.

Lemma cat_var_in b j : (In j b /\ cat_var b j = 1) \/ (~ In j b /\ cat_var b j = 0).
Proof.
  unfold cat_var. destruct (existsb (Nat.eqb j) b) eqn:E.
  - left. split; auto. apply existsb_exists in E. destruct E as (z & Hz & Ez). apply Nat.eqb_eq in Ez. congruence.
  - right. split; auto. intros Hin. rewrite <- not_true_iff_false in E. apply E, existsb_exists.
    exists j. split; auto. apply Nat.eqb_refl.
Qed.

Section Feasible.
  Variables (lo up : rpoint) (ints : list nat) (blocks : list (list nat)) (x : rpoint).
  Hypothesis Hints : forall i, In i ints -> (i < length x)%nat.
  Hypothesis Hbin : binary_blocks lo up ints blocks (length x).

  Lemma binary_coord : within_bounds lo up x -> (forall i, In i ints -> exists y : Z, nth i x 0 = IZR y) ->
    forall b j, In b blocks -> In j b -> nth j x 0 = 0 \/ nth j x 0 = 1.
  Proof.
    intros Hw Hi b j Hb Hj. destruct (Hbin b j Hb Hj) as (L & Ij & El & Eu).
    specialize (Hw j L). rewrite El, Eu in Hw. destruct (Hi j Ij) as (y & Ey). rewrite Ey in *.
    destruct Hw as [W1 W2]. apply le_IZR in W1. apply le_IZR in W2.
    assert (y = 0 \/ y = 1)%Z as [-> | ->] by lia; auto.
  Qed.
  Lemma assignment_active : within_bounds lo up x -> (forall i, In i ints -> exists y : Z, nth i x 0 = IZR y) ->
    (assignment x blocks <-> forall b, In b blocks -> one_active b x).
  Proof.
    intros Hw Hi. unfold assignment.
    assert (E : forall b, In b blocks ->
      (sumn (length x) (fun j => cat_var b j * nth j x 0) = 1 <-> one_active b x)).
    { intros b Hb. rewrite sumn_one.
      - unfold one_active. split.
        + intros (i & Hl & E1 & E2). destruct (cat_var_in b i) as [[Hin Ec]|[Hin Ec]]; rewrite Ec in E1; [|lra].
          exists i. split; auto. split; [lra|]. intros c Hc Hne.
          specialize (E2 c). destruct (cat_var_in b c) as [[_ Ec']|[Hn _]]; [|tauto].
          destruct (Hbin b c Hb Hc) as (Lc & _). rewrite Ec' in E2. specialize (E2 Lc Hne). lra.
        + intros (i & Hin & E1 & E2). destruct (Hbin b i Hb Hin) as (Li & _). exists i. split; auto.
          destruct (cat_var_in b i) as [[_ Ec]|[Hn _]]; [|tauto]. rewrite Ec. split; [lra|].
          intros j Hj Hne. destruct (cat_var_in b j) as [[Hjb Ec']|[Hjb Ec']]; rewrite Ec'; [|ring].
          rewrite E2 by auto. ring.
      - intros j Hj. destruct (cat_var_in b j) as [[Hjb Ec']|[Hjb Ec']]; rewrite Ec'; [|left; ring].
        destruct (binary_coord Hw Hi b j Hb Hjb) as [-> | ->]; [left|right]; ring. }
    split; intros H b Hb; apply E; auto.
  Qed.
  Lemma integrality_valid : within_bounds lo up x ->
    (integrality lo up x ints <-> forall i, In i ints -> exists y : Z, nth i x 0 = IZR y).
  Proof.
    intros Hw. split; intros H i Hi; destruct (H i Hi) as (y & E).
    - exists y. tauto.
    - exists y. split; auto. rewrite <- E. apply Hw. auto.
  Qed.

  Lemma feasible_iff kind pb min_dist nodes s :
    feasible kind pb min_dist lo up ints blocks nodes x s <->
    valid_point lo up ints (if has_categorical kind pb then blocks else []) x /\
    match pb with MaximinDist | MinMsrsm => mindist_ok min_dist nodes x s | _ => True end.
  Proof.
    unfold feasible, valid_point. fold (within_bounds lo up x).
    destruct (has_categorical kind pb).
    - split.
      + intros (H1 & H2 & H3 & H4). pose proof (proj1 (integrality_valid H1) H2) as H2'.
        split; auto. split; auto. split; auto. apply assignment_active; auto.
      + intros ((H1 & H2 & H3) & H4). split; auto. split; [apply integrality_valid; auto|]. split; auto.
        intros _. apply assignment_active; auto.
    - split.
      + intros (H1 & H2 & H3 & H4). pose proof (proj1 (integrality_valid H1) H2) as H2'.
        split; auto. split; auto. split; auto. intros b [].
      + intros ((H1 & H2 & H3) & H4). split; auto. split; [apply integrality_valid; auto|]. split; auto.
        discriminate.
  Qed.
End Feasible.

(** ** Distances *)
Section Dist.
  Variables (n : nat) (nodes : list rpoint) (x : rpoint) (md : R).
  Hypothesis Hd : in_dimension n nodes.
  Hypothesis Hx : length x = n.

  Lemma nodes_sq (P : R -> Prop) :
    (forall i, (i < length nodes)%nat -> P (sq_dist x (nth i nodes []))) <->
    (forall y, In y nodes -> P (distance x y * distance x y)).
  Proof.
    split.
    - intros H y Hy. apply (In_nth _ _ []) in Hy. destruct Hy as (i & Hi & <-).
      rewrite <- sq_dist_distance; auto. rewrite Hx. symmetry. apply Hd, nth_In; auto.
    - intros H i Hi. rewrite sq_dist_distance; [apply H, nth_In; auto|]. rewrite Hx. symmetry. apply Hd, nth_In; auto.
  Qed.
  Lemma mindist_ok_iff s : mindist_ok md nodes x s <->
    0 <= s /\ md <= s /\ forall y, In y nodes -> s <= distance x y * distance x y.
  Proof. unfold mindist_ok. rewrite (nodes_sq (fun d => s <= d)). tauto. Qed.
  Lemma mindist_exists : 0 <= md ->
    ((exists s, mindist_ok md nodes x s) <-> forall y, In y nodes -> md <= distance x y * distance x y).
  Proof.
    intros H0. split.
    - intros (s & Hs) y Hy. apply mindist_ok_iff in Hs. destruct Hs as (_ & H1 & H2). specialize (H2 y Hy). lra.
    - intros H. exists md. apply mindist_ok_iff. repeat split; auto; lra.
  Qed.
  (* the largest value of the auxiliary variable is the squared distance to the nearest node *)
  Lemma mindist_max s : nodes <> [] -> mindist_ok md nodes x s ->
    exists y, In y nodes /\ (forall z, In z nodes -> distance x y <= distance x z) /\
      mindist_ok md nodes x (distance x y * distance x y) /\ s <= distance x y * distance x y.
  Proof.
    intros Hne Hs. apply mindist_ok_iff in Hs. destruct Hs as (H0 & H1 & H2).
    assert (N : exists y, In y nodes /\ forall z, In z nodes -> distance x y <= distance x z).
    { clear - Hne. induction nodes as [|a l IH]; [congruence|]. destruct l as [|b l].
      - exists a. split; [left; auto|]. intros z [<-|[]]. lra.
      - destruct IH as (y & Hy & H); [discriminate|]. destruct (Rle_lt_dec (distance x a) (distance x y)).
        + exists a. split; [left; auto|]. intros z [<-|Hz]; [lra|]. specialize (H z Hz). lra.
        + exists y. split; [right; auto|]. intros z [<-|Hz]; [lra|]. auto. }
    destruct N as (y & Hy & H). exists y. split; auto. split; auto. split; [|auto].
    apply mindist_ok_iff. split; [apply Rmult_le_pos; apply distance_nonneg|]. split; [specialize (H2 y Hy); lra|].
    intros z Hz. specialize (H z Hz). apply Rmult_le_compat; auto; apply distance_nonneg.
  Qed.
End Dist.

(** ** Noisy refit *)
Section Noisy.
  Variables (kind : rbf_kind) (gamma eps : R) (n : nat) (nodes : list rpoint).
  Hypothesis Hd : in_dimension n nodes.
  Hypothesis Ht : no_tiny kind gamma eps nodes.
  Local Notation k := (length nodes).
  Local Notation p := (size_P kind n).
  Local Notation E := (rbf_matrix_exact kind gamma n nodes).

  Lemma nth_map_d {A B} (f : A -> B) l i d d' : f d' = d -> nth i (map f l) d = f (nth i l d').
  Proof. intros <-. apply map_nth. Qed.
  Lemma nth_firstn_lt {A} (l : list A) : forall i m d, (i < m)%nat -> nth i (firstn m l) d = nth i l d.
  Proof. induction l; intros [|i] [|m] d H; cbn; auto; try lia. apply IHl. lia. Qed.
  Lemma nth_skipn_add {A} (l : list A) : forall m i d, nth i (skipn m l) d = nth (m + i) l d.
  Proof. induction l; intros [|m] i d; cbn; auto. destruct i; auto. Qed.
  Lemma ent_left A i j : (i < k)%nat -> (j < k)%nat -> ent (top_left k A) i j = ent A i j.
  Proof.
    intros Hi Hj. unfold ent, top_left. rewrite (nth_map_d _ _ _ _ []) by apply firstn_nil.
    rewrite nth_firstn_lt by auto. rewrite nth_firstn_lt by auto. reflexivity.
  Qed.
  Lemma ent_right A i j : (i < k)%nat -> ent (top_right k A) i j = ent A i (k + j).
  Proof.
    intros Hi. unfold ent, top_right. rewrite (nth_map_d _ _ _ _ []) by apply skipn_nil.
    rewrite nth_skipn_add. rewrite nth_firstn_lt by auto. reflexivity.
  Qed.
  Local Notation Amat := (get_rbf_matrix kind gamma eps n nodes).
  Lemma ent_clean i j : ent Amat i j = ent E i j.
  Proof.
    unfold get_rbf_matrix. rewrite ent_zero_tiny.
    destruct (zero_tiny1_cases eps (ent E i j)) as [[H ->]|[_ ->]]; auto.
    destruct (no_tiny_clean kind gamma eps n nodes Hd Ht i j) as [-> | L]; auto. lra.
  Qed.

  Lemma bump_value lam h i : length lam = k -> length h = p -> (i < k)%nat ->
    sumn k (fun j => ent (top_left k Amat) i j * nth j lam 0) +
    sumn p (fun j => ent (top_right k Amat) i j * nth j h 0) =
    model_at kind gamma nodes lam h (nth i nodes []).
  Proof.
    intros Hl Hh Hi. unfold model_at. rewrite monomials_tail.
    assert (Ln : length (nth i nodes []) = n) by (apply Hd, nth_In; auto).
    f_equal.
    - rewrite <- (sumn_dot _ _ k) by (rewrite ?map_length; auto). apply sumn_ext. intros j Hj.
      rewrite ent_left, ent_clean, exact_phi by auto. rewrite (nth_map_in _ _ _ ([] : rpoint)) by auto. reflexivity.
    - rewrite <- (sumn_dot _ _ p) by (auto; apply tail_length; auto). apply sumn_ext. intros j Hj.
      rewrite ent_right, ent_clean, exact_right by auto. reflexivity.
  Qed.
  Lemma bump_side lam j : length lam = k -> (j < p)%nat ->
    sumn k (fun i => ent (top_right k Amat) i j * nth i lam 0) =
    rdot (map (fun x => nth j (monomials (degree_polynomial kind) x) 0) nodes) lam.
  Proof.
    intros Hl Hj. rewrite <- (sumn_dot _ _ k) by (rewrite ?map_length; auto).
    apply sumn_ext. intros i Hi. rewrite ent_right, ent_clean, exact_right by auto.
    rewrite (nth_map_in _ _ _ ([] : rpoint)) by auto. rewrite monomials_tail. reflexivity.
  Qed.
  Lemma bump_iff vals errs lam h : length lam = k -> length h = p -> contains_value errs ->
    (bump_feasible kind n k (top_left k Amat) (top_right k Amat) vals errs lam h <->
     respects_errors kind gamma nodes vals errs lam h /\ side_conditions kind n nodes lam).
  Proof.
    intros Hl Hh He. unfold bump_feasible, respects_errors, side_conditions. cbv zeta. split.
    - intros (H1 & H2 & H3). split.
      + intros i Hi. specialize (H1 i Hi). specialize (H2 i Hi). rewrite bump_value in H1, H2 by auto.
        specialize (He i). destruct (Rleb _ _) eqn:L in H1.
        * rewrite L in H2. apply Rleb_le in L. lra.
        * rewrite L in H2. lra.
      + intros j Hj. rewrite <- bump_side by auto. auto.
    - intros (H1 & H2). split; [|split].
      + intros i Hi. specialize (H1 i Hi). rewrite bump_value by auto. destruct (Rleb _ _) eqn:L; [|lra].
        apply Rleb_le in L. lra.
      + intros i Hi. specialize (H1 i Hi). rewrite bump_value by auto. destruct (Rleb _ _) eqn:L; [exact Logic.I|lra].
      + intros j Hj. rewrite bump_side by auto. auto.
  Qed.
End Noisy.
