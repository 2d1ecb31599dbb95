(** * Interpolation, categorical reduction, leave-one-out, model selection. *)
From Verif Require Export RBFProofs SpecRBF.
Open Scope R_scope.

Lemma monomials_tail kind x : monomials (degree_polynomial kind) x = ptail kind x.
Proof. destruct kind; reflexivity. Qed.
Lemma evaluate_model kind gamma x n k nodes lam h :
  length x = n -> length nodes = k -> length lam = k -> length h = size_P kind n ->
  evaluate_rbf kind gamma x n k nodes lam h = model_at kind gamma nodes lam h x.
Proof. intros. rewrite evaluate_dot by auto. unfold model_at. rewrite monomials_tail. reflexivity. Qed.

Section Interp.
  Variables (kind : rbf_kind) (gamma eps : R) (n : nat) (nodes : list rpoint) (vals s : list R).
  Let k := length nodes.
  Let p := size_P kind n.
  Hypothesis Hn : in_dimension n nodes.
  Hypothesis Hv : length vals = k.
  Hypothesis Hs : length s = (k + p)%nat.
  Hypothesis Hsol : mat_vec (get_rbf_matrix kind gamma eps n nodes) s = rbf_rhs p vals.
  Let A := rbf_matrix_exact kind gamma n nodes.

  Lemma sol_row i : (i < k + p)%nat ->
    rdot (map (zero_tiny1 eps) (nth i A [])) s = nth i (rbf_rhs p vals) 0.
  Proof.
    intros Hi. rewrite <- Hsol, nth_mat_vec.
    - unfold get_rbf_matrix. rewrite nth_zero_tiny. reflexivity.
    - unfold get_rbf_matrix, zero_tiny. rewrite map_length, exact_length by exact Hn. exact Hi.
  Qed.
  Lemma rhs_top i : (i < k)%nat -> nth i (rbf_rhs p vals) 0 = nth i vals 0.
  Proof. intros Hi. unfold rbf_rhs. rewrite app_nth1; auto. lia. Qed.
  Lemma rhs_bottom i : nth (k + i) (rbf_rhs p vals) 0 = 0.
  Proof. unfold rbf_rhs. rewrite app_nth2 by lia. apply nth_zeros. Qed.

  Lemma interp_close i : 0 <= eps -> (i < k)%nat ->
    Rabs (evaluate_rbf kind gamma (nth i nodes []) n k nodes (firstn k s) (skipn k s) - nth i vals 0)
      <= eps * rsum (map Rabs s).
  Proof.
    intros He Hi. unfold k. rewrite <- exact_top_dot by auto. fold A k.
    rewrite <- rhs_top, <- sol_row by (auto; lia). rewrite Rabs_minus_sym. apply rdot_tiny_bound; auto.
    unfold A. rewrite exact_row_length by (auto; lia). auto.
  Qed.
  Lemma side_close j : 0 <= eps -> (j < p)%nat ->
    Rabs (rdot (map (fun x => nth j (ptail kind x) 0) nodes) (firstn k s)) <= eps * rsum (map Rabs s).
  Proof.
    intros He Hj.
    assert (E : rdot (map (fun x => nth j (ptail kind x) 0) nodes) (firstn k s) = rdot (nth (k + j) A []) s).
    { unfold A, k. rewrite exact_row_bottom by auto. fold k.
      rewrite (split_dot _ _ s k) by (rewrite ?map_length; auto; lia).
      unfold zeros. rewrite rdot_zeros. ring. }
    rewrite E. rewrite <- (Rminus_0_r (rdot _ _)). rewrite <- (rhs_bottom j), <- sol_row by lia.
    rewrite Rabs_minus_sym. apply rdot_tiny_bound; auto. unfold A. rewrite exact_row_length by (auto; lia). auto.
  Qed.

  Hypothesis Hclean : forall i j, ent A i j = 0 \/ eps <= Rabs (ent A i j).
  Lemma clean_row i : forall a, In a (nth i A []) -> a = 0 \/ eps <= Rabs a.
  Proof.
    intros a Ha. apply In_nth with (d := 0) in Ha. destruct Ha as (j & _ & <-). apply (Hclean i j).
  Qed.
  Lemma interp_exact i : (i < k)%nat ->
    evaluate_rbf kind gamma (nth i nodes []) n k nodes (firstn k s) (skipn k s) = nth i vals 0.
  Proof.
    intros Hi. unfold k. rewrite <- exact_top_dot by auto. fold A k.
    rewrite <- rhs_top, <- sol_row by (auto; lia). symmetry. apply rdot_tiny_exact, clean_row.
  Qed.
  Lemma side_exact j : (j < p)%nat ->
    rdot (map (fun x => nth j (ptail kind x) 0) nodes) (firstn k s) = 0.
  Proof.
    intros Hj.
    assert (E : rdot (map (fun x => nth j (ptail kind x) 0) nodes) (firstn k s) = rdot (nth (k + j) A []) s).
    { unfold A, k. rewrite exact_row_bottom by auto. fold k.
      rewrite (split_dot _ _ s k) by (rewrite ?map_length; auto; lia).
      unfold zeros. rewrite rdot_zeros. ring. }
    rewrite E. rewrite <- (rhs_bottom j), <- sol_row by lia. symmetry. apply rdot_tiny_exact, clean_row.
  Qed.
End Interp.

(** ** Masks *)
Lemma set_at_In_false i (l : list bool) r : (r < length l)%nat ->
  nth r (set_at i false l) true = false <-> r = i \/ nth r l true = false.
Proof.
  intros Hr. destruct (Nat.eq_dec i r) as [->|E].
  - rewrite nth_set_at by auto. tauto.
  - rewrite nth_set_at_ne by auto. split; [auto|intros [?|?]; congruence].
Qed.
Lemma column_mask_length size k exps : length (column_mask size k exps) = size.
Proof.
  unfold column_mask. rewrite <- (repeat_length true size) at 2. generalize (repeat true size).
  induction exps as [|e r IH]; intros m; cbn; auto. rewrite IH, set_at_length. auto.
Qed.
Lemma column_mask_false size k exps r : (r < size)%nat ->
  nth r (column_mask size k exps) true = false <-> exists e, In e exps /\ r = (k + last e 0)%nat.
Proof.
  intros Hr. unfold column_mask.
  assert (G : forall m, length m = size ->
    nth r (fold_left (fun m e => set_at (k + last e 0%nat) false m) exps m) true = false <->
    nth r m true = false \/ exists e, In e exps /\ r = (k + last e 0)%nat).
  { induction exps as [|e l IH]; intros m Hm; cbn [fold_left].
    - split; [auto|intros [?|(e & [] & _)]; auto].
    - rewrite IH by (rewrite set_at_length; auto). rewrite set_at_In_false by lia. split.
      + intros [[->|?]|(e' & H1 & H2)]; [right; exists e; split; [left|]; auto|auto|right; exists e'; split; [right|]; auto].
      + intros [?|(e' & [<-|H1] & H2)]; [auto|auto|right; exists e'; auto]. }
  rewrite G by apply repeat_length.
  assert (E : nth r (repeat true size) true = true) by apply nth_repeat.
  rewrite E. split; [intros [?|?]; [discriminate|auto]|auto].
Qed.
Lemma masked_length {A} (m : list bool) : forall l : list A, length l = length m ->
  length (masked m l) = count_true m.
Proof.
  induction m as [|b m IH]; intros [|x l] H; cbn in *; try discriminate; auto.
  destruct b; cbn; rewrite IH by lia; auto.
Qed.
Lemma unmasked_length m : forall l, length (unmasked m l) = length m.
Proof. induction m as [|[] m IH]; intros [|x l]; cbn; auto. Qed.
Lemma rdot_unmasked m : forall row s, length row = length m -> length s = count_true m ->
  rdot row (unmasked m s) = rdot (masked m row) s.
Proof.
  induction m as [|b m IH]; intros [|a row] s H Hs; cbn in *; try discriminate; auto.
  destruct b; cbn in *.
  - destruct s as [|x s]; [discriminate|]. rewrite IH by (cbn in *; lia). reflexivity.
  - rewrite IH by lia. ring.
Qed.
Lemma masked_rows (m : list bool) : forall (A : mat) (b s : list R) f,
  length A = length m -> length b = length m ->
  mat_vec (masked m (map f A)) s = masked m b ->
  forall r, (r < length m)%nat -> nth r m true = true -> rdot (f (nth r A [])) s = nth r b 0.
Proof.
  induction m as [|b0 m IH]; intros [|a A] [|x b] s f HA Hb E r Hr Ht; cbn in *; try discriminate; try lia.
  destruct b0; cbn in E.
  - injection E as E0 E1. destruct r; auto. apply (IH A b s f); auto; lia.
  - destruct r; [discriminate|]. apply (IH A b s f); auto; lia.
Qed.

(** ** Dropped categorical columns *)
Lemma rsum_const0 {B} (l : list B) : rsum (map (fun _ => 0) l) = 0.
Proof. induction l as [|a l IH]; [reflexivity|]. change (0 + rsum (map (fun _ => 0) l) = 0). rewrite IH. ring. Qed.
Lemma rdot_one_minus (l : list nat) (nodes : list rpoint) : forall lam f,
  (forall x, In x nodes -> f x = 1 - rsum (map (fun e => nth e x 0) l)) ->
  rdot (map f nodes) lam = rdot (map (fun _ => 1) nodes) lam -
    rsum (map (fun e => rdot (map (fun x => nth e x 0) nodes) lam) l).
Proof.
  induction nodes as [|x nodes IH]; intros [|a lam] f H; cbn [map rdot].
  - rewrite rsum_const0. ring.
  - rewrite rsum_const0. ring.
  - rewrite rsum_const0. ring.
  - rewrite (IH lam f) by (intros; apply H; right; auto). rewrite (H x (or_introl eq_refl)).
    assert (E : rsum (map (fun e => nth e x 0 * a + rdot (map (fun y => nth e y 0) nodes) lam) l) =
                rsum (map (fun e => nth e x 0) l) * a + rsum (map (fun e => rdot (map (fun y => nth e y 0) nodes) lam) l)).
    { clear. induction l as [|e l IH]; cbn; [ring|]. unfold rsum in IH. rewrite IH. ring. }
    rewrite E. ring.
Qed.
Lemma one_active_sum x : forall block, NoDup block -> one_active block x -> rsum (map (fun e => nth e x 0) block) = 1.
Proof.
  assert (Z : forall l, (forall c, In c l -> nth c x 0 = 0) -> rsum (map (fun e => nth e x 0) l) = 0).
  { induction l as [|c l IH]; intros H; cbn; auto.
    rewrite (H c (or_introl eq_refl)). unfold rsum in IH. rewrite IH by (intros; apply H; right; auto). ring. }
  induction block as [|c block IH]; intros Hd (b & Hb & H1 & H2); [destruct Hb|].
  inversion Hd as [|? ? Hni Hd']; subst. cbn.
  destruct (Nat.eq_dec c b) as [->|Hne].
  - rewrite H1. fold (rsum (map (fun e => nth e x 0) block)).
    rewrite Z; [ring|]. intros c Hc. apply H2; [right; auto|]. intros ->. auto.
  - rewrite (H2 c (or_introl eq_refl) Hne). destruct Hb as [Hb|Hb]; [congruence|].
    fold (rsum (map (fun e => nth e x 0) block)). rewrite IH; auto; [ring|].
    exists b. split; auto. split; auto. intros d Hc. apply H2. right; auto.
Qed.
Lemma one_active_values block x c : one_active block x -> In c block -> nth c x 0 = 0 \/ nth c x 0 = 1.
Proof.
  intros (b & Hb & H1 & H2) Hc. destruct (Nat.eq_dec c b) as [->|E]; [auto|left; auto].
Qed.

Lemma last_split (e : list nat) : e <> [] -> e = removelast e ++ [last e 0%nat].
Proof. apply app_removelast_last. Qed.
Lemma NoDup_last (e : list nat) : e <> [] -> NoDup e -> NoDup (removelast e) /\ ~ In (last e 0%nat) (removelast e).
Proof.
  intros Hne Hd. rewrite (last_split e Hne) in Hd.
  apply NoDup_remove in Hd. rewrite app_nil_r in Hd. exact Hd.
Qed.

Section Cat.
  Variables (kind : rbf_kind) (gamma eps : R) (n : nat) (nodes : list rpoint) (vals s' : list R).
  Variable exps : list (list nat).
  Let k := length nodes.
  Let p := size_P kind n.
  Let A := get_rbf_matrix kind gamma eps n nodes.
  Let E0 := rbf_matrix_exact kind gamma n nodes.
  Hypothesis Hp : p = (n + 1)%nat.
  Hypothesis Hdeg : degree_polynomial kind = 1%Z.
  Hypothesis Hn : in_dimension n nodes.
  Hypothesis Hv : length vals = k.
  Hypothesis Heps : eps <= 1.
  Hypothesis Hb : proper_blocks n exps.
  Hypothesis Hone : forall b x, In b exps -> In x nodes -> one_active b x.
  Let m := column_mask (length A) k exps.
  Hypothesis Hs : length s' = length (masked m (rbf_rhs p vals)).
  Hypothesis Hsol : mat_vec (masked m (map (masked m) A)) s' = masked m (rbf_rhs p vals).

  Lemma A_length : length A = (k + p)%nat.
  Proof. unfold A, get_rbf_matrix, zero_tiny. rewrite map_length. apply exact_length. exact Hn. Qed.
  Lemma A_row i : nth i A [] = map (zero_tiny1 eps) (nth i E0 []).
  Proof. apply nth_zero_tiny. Qed.
  Lemma rhs_length : length (rbf_rhs p vals) = (k + p)%nat.
  Proof. unfold rbf_rhs, zeros. rewrite app_length, repeat_length. lia. Qed.
  Lemma m_length : length m = (k + p)%nat.
  Proof. unfold m. rewrite column_mask_length. apply A_length. Qed.
  Lemma s_len : length s' = count_true m.
  Proof. rewrite Hs. apply masked_length. rewrite rhs_length, m_length. auto. Qed.
  Let s := unmasked m s'.
  Lemma full_s_length : length s = (k + p)%nat.
  Proof. unfold s. rewrite unmasked_length. apply m_length. Qed.
  Lemma kept_row r : (r < k + p)%nat -> nth r m true = true -> rdot (nth r A []) s = nth r (rbf_rhs p vals) 0.
  Proof.
    intros Hr Ht. unfold s. rewrite rdot_unmasked.
    - apply (masked_rows m A (rbf_rhs p vals) s' (masked m)); auto;
        [rewrite A_length, m_length; auto|rewrite rhs_length, m_length; auto|rewrite m_length; auto].
    - rewrite A_row, map_length. unfold E0. rewrite exact_row_length, m_length by (exact Hn || exact Hr). reflexivity.
    - apply s_len.
  Qed.
  Lemma zt_one : zero_tiny1 eps 1 = 1.
  Proof. destruct (zero_tiny1_cases eps 1) as [[H _]|[_ ?]]; auto. rewrite Rabs_R1 in H. lra. Qed.

  (** Row of a polynomial coordinate. *)
  Lemma bottom_row j : (j < p)%nat ->
    rdot (nth (k + j) A []) s = rdot (map (fun x => zero_tiny1 eps (nth j (x ++ [1]) 0)) nodes) (firstn k s).
  Proof.
    intros Hj. rewrite A_row. unfold E0, k. rewrite exact_row_bottom by (exact Hn || exact Hj). fold k.
    rewrite map_app, map_map. rewrite (split_dot _ _ s k); [|rewrite map_length; auto|rewrite full_s_length; lia].
    assert (Z : map (zero_tiny1 eps) (zeros p) = repeat 0 p).
    { unfold zeros. clear. induction p; cbn; auto. rewrite zero_tiny1_0, IHn0. auto. }
    fold p. rewrite Z, rdot_zeros, Rplus_0_r. f_equal. apply map_ext. intros x.
    destruct kind; cbn in Hdeg; try discriminate; reflexivity.
  Qed.
  Lemma coord x j : In x nodes -> (j < n)%nat -> nth j (x ++ [1]) 0 = nth j x 0.
  Proof. intros Hx Hj. rewrite app_nth1; auto. rewrite (Hn x Hx). auto. Qed.
  Lemma coord_one x : In x nodes -> nth n (x ++ [1]) 0 = 1.
  Proof. intros Hx. rewrite app_nth2; rewrite (Hn x Hx); [|lia]. rewrite Nat.sub_diag. auto. Qed.
  Lemma not_dropped j : (j < p)%nat -> (forall e, In e exps -> j <> last e 0%nat) -> nth (k + j) m true = true.
  Proof.
    intros Hj H. destruct (nth (k + j) m true) eqn:E; auto.
    unfold m in E. rewrite A_length in E. apply column_mask_false in E; [|lia].
    destruct E as (e & He & E). exfalso. apply (H e He). lia.
  Qed.
  Lemma block_coord b j x : In b exps -> In j b -> In x nodes -> zero_tiny1 eps (nth j (x ++ [1]) 0) = nth j x 0.
  Proof.
    intros Hbl Hj Hx. destruct Hb as [Hb1 _]. destruct (Hb1 b Hbl) as (_ & _ & Hlt).
    rewrite coord by auto. destruct (one_active_values b x j (Hone b x Hbl Hx) Hj) as [-> | ->].
    - apply zero_tiny1_0.
    - apply zt_one.
  Qed.
  Lemma last_In (e : list nat) : e <> [] -> In (last e 0%nat) e.
  Proof. intros H. rewrite (last_split e H) at 2. apply in_or_app. right; left; auto. Qed.
  Lemma other_of_block b j : In b exps -> In j (removelast b) ->
    rdot (map (fun x => nth j x 0) nodes) (firstn k s) = 0.
  Proof.
    intros Hbl Hj. destruct Hb as [Hb1 Hb2]. destruct (Hb1 b Hbl) as (Hne & Hnd & Hlt).
    assert (Hjb : In j b) by (rewrite (last_split b Hne); apply in_or_app; auto).
    specialize (Hlt j Hjb).
    assert (Hk : nth (k + j) m true = true).
    { apply not_dropped; [lia|]. intros e He Ej.
      destruct (NoDup_last b Hne Hnd) as [_ Hni].
      destruct (Hb1 e He) as (Hne' & _ & _).
      apply In_nth with (d := []) in Hbl, He. destruct Hbl as (i1 & L1 & E1), He as (i2 & L2 & E2).
      destruct (Nat.eq_dec i1 i2) as [->|Hd].
      - rewrite E1 in E2. subst e. apply Hni. rewrite <- Ej. exact Hj.
      - apply (Hb2 i1 i2 L1 L2 Hd j); [rewrite E1; auto|rewrite E2, Ej; apply last_In; auto]. }
    pose proof (kept_row (k + j) ltac:(lia) Hk) as E.
    rewrite bottom_row in E by lia.
    unfold rbf_rhs in E. rewrite app_nth2 in E by lia. rewrite nth_zeros in E.
    etransitivity; [|exact E]. f_equal. apply map_ext_in. intros x Hx. symmetry. apply (block_coord b); auto.
  Qed.
  Lemma ones_row : rdot (map (fun _ : rpoint => 1) nodes) (firstn k s) = 0.
  Proof.
    assert (Hk : nth (k + n) m true = true).
    { apply not_dropped; [lia|]. intros e He E. destruct Hb as [Hb1 _]. destruct (Hb1 e He) as (Hne & _ & Hlt).
      specialize (Hlt _ (last_In e Hne)). lia. }
    pose proof (kept_row (k + n) ltac:(lia) Hk) as E.
    rewrite bottom_row in E by lia.
    unfold rbf_rhs in E. rewrite app_nth2 in E by lia. rewrite nth_zeros in E.
    etransitivity; [|exact E]. f_equal. apply map_ext_in. intros x Hx. rewrite coord_one by auto. symmetry. apply zt_one.
  Qed.
  Lemma dropped_row b : In b exps -> rdot (nth (k + last b 0%nat) A []) s = 0.
  Proof.
    intros Hbl. destruct Hb as [Hb1 _]. destruct (Hb1 b Hbl) as (Hne & Hnd & Hlt).
    pose proof (last_In b Hne) as Hl. rewrite bottom_row by (specialize (Hlt _ Hl); lia).
    assert (E : map (fun x => zero_tiny1 eps (nth (last b 0%nat) (x ++ [1]) 0)) nodes = map (fun x => nth (last b 0%nat) x 0) nodes).
    { apply map_ext_in. intros x Hx. apply (block_coord b); auto. }
    rewrite E. rewrite (rdot_one_minus (removelast b) nodes (firstn k s)).
    - rewrite ones_row.
      assert (Z : rsum (map (fun e => rdot (map (fun x => nth e x 0) nodes) (firstn k s)) (removelast b)) = 0).
      { rewrite (map_ext_in _ (fun _ => 0)) by (intros j Hj; apply (other_of_block b); auto).
        apply rsum_const0. }
      rewrite Z. ring.
    - intros x Hx. pose proof (one_active_sum x b Hnd (Hone b x Hbl Hx)) as S.
      rewrite (last_split b Hne) in S at 1. rewrite map_app in S. unfold rsum in S. rewrite fold_right_app in S. cbn in S.
      assert (G : forall l c, fold_right Rplus c (map (fun e => nth e x 0) l) = fold_right Rplus 0 (map (fun e => nth e x 0) l) + c).
      { clear. induction l; intros c; cbn; [ring|]. rewrite IHl. ring. }
      rewrite G in S. unfold rsum. lra.
  Qed.
  Lemma full_solution : mat_vec A s = rbf_rhs p vals.
  Proof.
    apply nth_ext with (d := 0) (d' := 0); unfold mat_vec; rewrite map_length; rewrite A_length.
    - rewrite rhs_length; auto.
    - intros r Hr. fold (mat_vec A s). rewrite nth_mat_vec by (rewrite A_length; auto).
      destruct (nth r m true) eqn:E; [apply kept_row; auto|].
      unfold m in E. rewrite A_length in E. apply column_mask_false in E; auto.
      destruct E as (b & Hbl & ->). rewrite dropped_row by auto.
      unfold rbf_rhs. rewrite app_nth2 by lia. symmetry. apply nth_zeros.
  Qed.
End Cat.

(** What [get_rbf_coefficients] returns solves the full system, with or without categorical variables. *)
Lemma coefficients_solve solve kind gamma eps n nodes vals exps lam h :
  correct_solver solve -> in_dimension n nodes -> length vals = length nodes ->
  (exps <> [] -> degree_polynomial kind = 1%Z -> eps <= 1 /\ proper_blocks n exps /\
     forall b x, In b exps -> In x nodes -> one_active b x) ->
  (* n = 0 with a degree-0 tail is excluded when there are categorical variables *)
  (exps <> [] -> (1 <= n)%nat) ->
  get_rbf_coefficients solve kind n (length nodes) (get_rbf_matrix kind gamma eps n nodes) vals exps = Some (lam, h) ->
  length lam = length nodes /\ length h = size_P kind n /\
  mat_vec (get_rbf_matrix kind gamma eps n nodes) (lam ++ h) = rbf_rhs (size_P kind n) vals.
Proof.
  intros Hc Hn Hv Hcat Hn1 H. unfold get_rbf_coefficients in H.
  set (A := get_rbf_matrix kind gamma eps n nodes) in *. set (k := length nodes) in *.
  destruct (rbf_solution solve kind n k A vals exps) as [s|] eqn:E; [|discriminate].
  cbn in H. injection H as Hl Hh.
  assert (Hr : length (rbf_rhs (size_P kind n) vals) = (k + size_P kind n)%nat).
  { unfold rbf_rhs, zeros. rewrite app_length, repeat_length, Hv. reflexivity. }
  assert (G : length s = (k + size_P kind n)%nat /\ mat_vec A s = rbf_rhs (size_P kind n) vals).
  { unfold rbf_solution in E. destruct (reduces (size_P kind n) n exps) eqn:Er.
    - unfold reduces in Er. apply andb_prop in Er. destruct Er as [E1 E2]. apply Nat.eqb_eq in E1.
      assert (Hex : exps <> []) by (intros ->; discriminate).
      assert (Hd : degree_polynomial kind = 1%Z).
      { specialize (Hn1 Hex). destruct kind; cbn in *; auto; lia. }
      destruct (Hcat Hex Hd) as (He & Hb & Ho).
      destruct (solve _ _) as [s'|] eqn:Es; [|discriminate]. cbn in E. injection E as <-.
      apply Hc in Es. destruct Es as [L1 L2].
      split; [rewrite unmasked_length, column_mask_length; unfold A, get_rbf_matrix, zero_tiny; rewrite map_length; apply exact_length; auto|].
      apply (full_solution kind gamma eps n nodes vals s' exps); auto.
    - apply Hc in E. destruct E as [L1 L2]. split; [rewrite L1; auto|auto]. }
  destruct G as [G1 G2]. subst lam h.
  split; [rewrite firstn_length; lia|]. split; [rewrite skipn_length; lia|].
  rewrite firstn_skipn. exact G2.
Qed.

(** ** Leave-one-out *)
Section Loo.
  Variables (A : mat) (N i : nat) (b base adj : list R).
  Hypothesis HA : length A = N.
  Hypothesis HAr : forall r, (r < N)%nat -> length (nth r A []) = N.
  Hypothesis Hi : (i < N)%nat.
  Hypothesis Hb : length b = N.
  Hypothesis Lb : length base = N. Hypothesis La : length adj = N.
  Hypothesis Sb : mat_vec A base = b.
  Hypothesis Sa : mat_vec A adj = unit_vector N i.
  Hypothesis Hai : nth i adj 0 <> 0.
  Let z := loo_solution base adj i.

  Lemma unit_nth r : (r < N)%nat -> nth r (unit_vector N i) 0 = if (r =? i)%nat then 1 else 0.
  Proof.
    intros Hr. unfold unit_vector. destruct (r =? i)%nat eqn:E.
    - apply Nat.eqb_eq in E. subst r. apply nth_set_at. unfold zeros. rewrite repeat_length. auto.
    - apply Nat.eqb_neq in E. rewrite nth_set_at_ne by auto. apply nth_zeros.
  Qed.
  Lemma loo_form : z = map2 (fun x y => x - (nth i base 0 / nth i adj 0) * y) base adj.
  Proof.
    unfold z, loo_solution. generalize (nth i base 0) as u. generalize (nth i adj 0) as v. intros v u.
    clear - Lb La. revert adj N Lb La. induction base as [|x l IH]; intros [|y l'] N H H'; cbn in *; try lia; auto.
    rewrite (IH l' (N - 1)%nat) by lia. f_equal. unfold Rdiv. ring.
  Qed.
  Lemma loo_length : length z = N.
  Proof. rewrite loo_form. rewrite map2_len by lia. auto. Qed.
  Lemma loo_zero : nth i z 0 = 0.
  Proof. rewrite loo_form. rewrite (map2_nth _ _ _ _ 0 0) by lia. field. auto. Qed.
  Lemma loo_rows r : (r < N)%nat ->
    rdot (nth r A []) z = nth r b 0 - (if (r =? i)%nat then nth i base 0 / nth i adj 0 else 0).
  Proof.
    intros Hr. rewrite loo_form. rewrite rdot_lin by (rewrite HAr by auto; auto).
    rewrite <- !nth_mat_vec by lia. rewrite Sb, Sa, unit_nth by auto.
    destruct (r =? i)%nat; ring.
  Qed.
  (** Uniqueness: with a nonsingular matrix the corrected vector is the only one with weight 0
      at position [i] that satisfies all the other equations. *)
  Hypothesis Inj : forall u v, length u = N -> length v = N -> mat_vec A u = mat_vec A v -> u = v.
  Lemma loo_unique w : length w = N -> nth i w 0 = 0 ->
    (forall r, (r < N)%nat -> r <> i -> rdot (nth r A []) w = nth r b 0) -> w = z.
  Proof.
    intros Lw Hw0 Hw. set (c := nth i b 0 - rdot (nth i A []) w).
    assert (E : w = map2 (fun x y => x - c * y) base adj).
    { apply Inj; auto; [rewrite map2_len by lia; auto|].
      apply nth_ext with (d := 0) (d' := 0); unfold mat_vec; rewrite !map_length; auto.
      intros r Hr. rewrite HA in Hr. fold (mat_vec A w). fold (mat_vec A (map2 (fun x y => x - c * y) base adj)).
      rewrite !nth_mat_vec by lia. rewrite rdot_lin by (rewrite HAr by auto; auto).
      rewrite <- (nth_mat_vec A base), <- (nth_mat_vec A adj) by lia. rewrite Sb, Sa, unit_nth by auto.
      destruct (r =? i)%nat eqn:Er.
      - apply Nat.eqb_eq in Er. subst r. unfold c. ring.
      - apply Nat.eqb_neq in Er. rewrite Hw by auto. ring. }
    assert (Hc : c = nth i base 0 / nth i adj 0).
    { pose proof Hw0 as H0. rewrite E in H0. rewrite (map2_nth _ _ _ _ 0 0) in H0 by lia.
      apply Rmult_eq_reg_r with (nth i adj 0); auto. unfold Rdiv. rewrite Rmult_assoc, Rinv_l, Rmult_1_r by auto. lra. }
    rewrite E, loo_form, Hc. reflexivity.
  Qed.
End Loo.

(** ** Model selection *)
Definition err_of (quality : rbf_kind * R -> option Z) (m : rbf_kind * R) (e : Z) : Prop := quality m = Some e.

Lemma best_loop_spec quality orig ts : forall best model,
  (forall m e, In m (map snd ts) -> quality m = Some e -> True) ->
  match best_loop quality orig ts best model with
  | (m, after) =>
    (* all trials succeeded *)
    ((forall t, In t (map snd ts) -> exists e, quality t = Some e) /\ after = orig /\
     ((m = model /\ match best with None => ts = [] | Some b =>
          forall t e, In t (map snd ts) -> quality t = Some e -> (b <= e)%Z end) \/
      (exists pre post e, map snd ts = pre ++ m :: post /\ quality m = Some e /\
         match best with None => True | Some b => (e < b)%Z end /\
         (forall t e', In t pre -> quality t = Some e' -> (e < e')%Z) /\
         (forall t e', In t post -> quality t = Some e' -> (e <= e')%Z)))) \/
    (exists pre i t post, ts = pre ++ (i, t) :: post /\ quality t = None /\ after = t /\
       (forall u, In u (map snd pre) -> exists e, quality u = Some e) /\
       (((i < 2)%nat /\ m = orig) \/
        ((2 <= i)%nat /\
         ((m = model /\ match best with None => pre = [] | Some b =>
             forall t e, In t (map snd pre) -> quality t = Some e -> (b <= e)%Z end) \/
          (exists pre1 post1 e, map snd pre = pre1 ++ m :: post1 /\ quality m = Some e /\
             match best with None => True | Some b => (e < b)%Z end /\
             (forall t e', In t pre1 -> quality t = Some e' -> (e < e')%Z) /\
             (forall t e', In t post1 -> quality t = Some e' -> (e <= e')%Z))))))
  end.
Proof.
  induction ts as [|[i t] ts IH]; intros best model _.
  - cbn. left. split; [intros ? []|]. split; auto. left. split; auto. destruct best; auto. intros ? ? [].
  - cbn [best_loop]. destruct (quality t) as [e|] eqn:Q.
    + destruct (match best with None => true | Some b => (e <? b)%Z end) eqn:Cmp.
      * specialize (IH (Some e) t (fun _ _ _ _ => Logic.I)).
        destruct (best_loop quality orig ts (Some e) t) as [m after].
        assert (Cb : match best with None => True | Some b => (e < b)%Z end)
          by (destruct best; auto; apply Z.ltb_lt; auto).
        destruct IH as [(H1 & H2 & H3)|(pre & i' & t' & post & H1 & H2 & H3 & H4 & H5)].
        -- left. split; [intros u [<-|Hu]; eauto|]. split; auto. right.
           destruct H3 as [[-> H3]|(pre & post & e' & E1 & E2 & E3 & E4 & E5)].
           ++ exists [], (map snd ts), e. split; auto. split; auto. split; auto. split; [intros ? ? []|].
              intros; eauto.
           ++ exists (t :: pre), post, e'. split; [cbn; congruence|]. split; auto.
              split; [destruct best; auto; lia|]. split; auto.
              intros u e'' [<-|Hu] Hq; [rewrite Q in Hq; injection Hq as <-; auto|eauto].
        -- right. exists ((i, t) :: pre), i', t', post. split; [cbn; congruence|]. split; auto. split; auto.
           split; [intros u [<-|Hu]; eauto|].
           destruct H5 as [H5|[L H5]]; [left; auto|right; split; auto]. right.
           destruct H5 as [[-> H5]|(pre1 & post1 & e' & E1 & E2 & E3 & E4 & E5)].
           ++ exists [], (map snd pre), e. split; auto. split; auto. split; auto. split; [intros ? ? []|].
              intros; eauto.
           ++ exists (t :: pre1), post1, e'. split; [cbn; congruence|]. split; auto.
              split; [destruct best; auto; lia|]. split; auto.
              intros u e'' [<-|Hu] Hq; [rewrite Q in Hq; injection Hq as <-; auto|eauto].
      * destruct best as [b|]; [|discriminate]. apply Z.ltb_ge in Cmp.
        specialize (IH (Some b) model (fun _ _ _ _ => Logic.I)).
        destruct (best_loop quality orig ts (Some b) model) as [m after].
        destruct IH as [(H1 & H2 & H3)|(pre & i' & t' & post & H1 & H2 & H3 & H4 & H5)].
        -- left. split; [intros u [<-|Hu]; eauto|]. split; auto.
           destruct H3 as [[-> H3]|(pre & post & e' & E1 & E2 & E3 & E4 & E5)].
           ++ left. split; auto. intros u e' [<-|Hu] Hq; [cbn in Hq; rewrite Q in Hq; injection Hq as <-; auto|eauto].
           ++ right. exists (t :: pre), post, e'. split; [cbn; congruence|]. split; auto. split; auto. split; auto.
              intros u e'' [<-|Hu] Hq; [rewrite Q in Hq; injection Hq as <-; lia|eauto].
        -- right. exists ((i, t) :: pre), i', t', post. split; [cbn; congruence|]. split; auto. split; auto.
           split; [intros u [<-|Hu]; eauto|].
           destruct H5 as [H5|[L H5]]; [left; auto|right; split; auto].
           destruct H5 as [[-> H5]|(pre1 & post1 & e' & E1 & E2 & E3 & E4 & E5)].
           ++ left. split; auto. intros u e' [<-|Hu] Hq; [cbn in Hq; rewrite Q in Hq; injection Hq as <-; auto|eauto].
           ++ right. exists (t :: pre1), post1, e'. split; [cbn; congruence|]. split; auto. split; auto. split; auto.
              intros u e'' [<-|Hu] Hq; [rewrite Q in Hq; injection Hq as <-; lia|eauto].
    + right. exists [], i, t, ts. split; auto. split; auto. split; auto. split; [intros ? []|].
      destruct (2 <=? i)%nat eqn:L.
      * apply Nat.leb_le in L. right. split; auto. left. split; auto. destruct best; auto. intros ? ? [].
      * apply Nat.leb_gt in L. left. auto.
Qed.
