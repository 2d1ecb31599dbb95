(** * From the lemmas to the statements about RBF models. *)
From Verif Require Export RBFSolve.
Open Scope R_scope.

Lemma ptail_monomials kind : forall x, ptail kind x = monomials (degree_polynomial kind) x.
Proof. intros. symmetry. apply monomials_tail. Qed.

Lemma no_tiny_clean kind gamma eps n nodes : in_dimension n nodes -> no_tiny kind gamma eps nodes ->
  forall i j, let a := ent (rbf_matrix_exact kind gamma n nodes) i j in a = 0 \/ eps <= Rabs a.
Proof.
  intros Hn (He & Hphi & Hc) i j a. unfold a. clear a.
  assert (T : forall x j, In x nodes -> nth j (ptail kind x) 0 = 0 \/ eps <= Rabs (nth j (ptail kind x) 0)).
  { intros x q Hx. destruct (Nat.lt_ge_cases q (length (ptail kind x))) as [L|L]; [|left; apply nth_overflow; auto].
    pose proof (nth_In (ptail kind x) 0 L) as Hin. revert Hin. generalize (nth q (ptail kind x) 0). intros c Hin.
    assert (O : c = 1 -> eps <= Rabs c) by (intros ->; rewrite Rabs_R1; auto).
    destruct kind; cbn in *.
    1,2: apply in_app_or in Hin; destruct Hin as [Hin|[Hin|[]]]; [apply (Hc eq_refl x c Hx Hin)|auto].
    1,2: destruct Hin as [Hin|[]]; auto.
    destruct Hin. }
  set (k := length nodes). set (p := size_P kind n).
  destruct (Nat.lt_ge_cases i (k + p)), (Nat.lt_ge_cases j (k + p));
    try (left; apply ent_outside; [auto|unfold k, p in *; lia]).
  destruct (Nat.lt_ge_cases i k), (Nat.lt_ge_cases j k).
  - rewrite exact_phi by auto. apply Hphi; apply nth_In; auto.
  - replace j with (k + (j - k))%nat by lia. unfold k. rewrite exact_right by (auto; unfold k, p in *; lia).
    apply T, nth_In; auto.
  - replace i with (k + (i - k))%nat by lia. unfold k. rewrite exact_bottom by (auto; unfold k, p in *; lia).
    apply T, nth_In; auto.
  - left. replace i with (k + (i - k))%nat by lia. replace j with (k + (j - k))%nat by lia.
    unfold k. apply exact_corner; auto. unfold k, p in *; lia.
Qed.

(** Exact interpolation. *)
Lemma solution_interpolates kind gamma eps n nodes vals lam h :
  in_dimension n nodes -> length vals = length nodes -> length lam = length nodes -> length h = size_P kind n ->
  no_tiny kind gamma eps nodes ->
  mat_vec (get_rbf_matrix kind gamma eps n nodes) (lam ++ h) = rbf_rhs (size_P kind n) vals ->
  interpolates kind gamma n nodes vals lam h.
Proof.
  intros Hn Hv Hl Hh Ht Hs.
  pose proof (no_tiny_clean kind gamma eps n nodes Hn Ht) as Hclean.
  assert (Hlen : length (lam ++ h) = (length nodes + size_P kind n)%nat) by (rewrite app_length; lia).
  assert (F : firstn (length nodes) (lam ++ h) = lam) by (rewrite <- Hl, firstn_app, Nat.sub_diag, firstn_all, app_nil_r; auto).
  assert (S : skipn (length nodes) (lam ++ h) = h) by (rewrite <- Hl, skipn_app, Nat.sub_diag, skipn_all; auto).
  split; [auto|]. split; [auto|]. split.
  - intros j Hj. pose proof (interp_exact kind gamma eps n nodes vals (lam ++ h) Hn Hv Hlen Hs Hclean j Hj) as E.
    rewrite F, S in E. rewrite evaluate_model in E by (auto; apply Hn, nth_In; auto). exact E.
  - intros j Hj. pose proof (side_exact kind gamma eps n nodes vals (lam ++ h) Hn Hv Hlen Hs Hclean j Hj) as E.
    rewrite F in E. etransitivity; [|exact E]. f_equal. apply map_ext. intros x. rewrite ptail_monomials. reflexivity.
Qed.

(** Interpolation when tiny entries were zeroed. *)
Lemma solution_close kind gamma eps n nodes vals lam h :
  in_dimension n nodes -> length vals = length nodes -> length lam = length nodes -> length h = size_P kind n ->
  0 <= eps ->
  mat_vec (get_rbf_matrix kind gamma eps n nodes) (lam ++ h) = rbf_rhs (size_P kind n) vals ->
  forall j, (j < length nodes)%nat ->
  Rabs (model_at kind gamma nodes lam h (nth j nodes []) - nth j vals 0) <= eps * rsum (map Rabs (lam ++ h)).
Proof.
  intros Hn Hv Hl Hh He Hs j Hj.
  assert (Hlen : length (lam ++ h) = (length nodes + size_P kind n)%nat) by (rewrite app_length; lia).
  assert (F : firstn (length nodes) (lam ++ h) = lam) by (rewrite <- Hl, firstn_app, Nat.sub_diag, firstn_all, app_nil_r; auto).
  assert (S : skipn (length nodes) (lam ++ h) = h) by (rewrite <- Hl, skipn_app, Nat.sub_diag, skipn_all; auto).
  pose proof (interp_close kind gamma eps n nodes vals (lam ++ h) Hn Hv Hlen Hs j He Hj) as E.
  rewrite F, S in E. rewrite evaluate_model in E by (auto; apply Hn, nth_In; auto). exact E.
Qed.

(** ** Leave-one-out on the reduced node set *)
Lemma insert_delete_dot {A} (f : A -> R) i : forall (nodes : list A) lam, (i < length nodes)%nat ->
  length lam = (length nodes - 1)%nat ->
  rdot (map f nodes) (insert_at i 0 lam) = rdot (map f (delete_at i nodes)) lam.
Proof.
  induction i as [|i IH]; intros [|x nodes] lam Hi Hl; cbn in *; try lia.
  - ring.
  - destruct lam as [|a lam]; cbn in *; [lia|]. rewrite IH by lia. reflexivity.
Qed.
Lemma delete_insert_dot {A} (f : A -> R) i : forall (nodes : list A) lam, (i < length nodes)%nat ->
  length lam = length nodes -> nth i lam 0 = 0 ->
  rdot (map f nodes) lam = rdot (map f (delete_at i nodes)) (delete_at i lam).
Proof.
  induction i as [|i IH]; intros [|x nodes] [|a lam] Hi Hl H0; cbn in *; try lia.
  - subst a. ring.
  - rewrite IH by (auto; lia). reflexivity.
Qed.
Lemma nth_insert_at {A} i (v : A) : forall l d, (i <= length l)%nat -> nth i (insert_at i v l) d = v.
Proof. induction i; intros [|x l] d H; cbn in *; auto; try lia. apply IHi; lia. Qed.
Lemma insert_at_len {A} i (v : A) : forall l, (i <= length l)%nat -> length (insert_at i v l) = S (length l).
Proof. induction i; intros [|x l] H; cbn in *; auto; try lia. rewrite IHi; lia. Qed.
Lemma nth_delete_at {A} i : forall (l : list A) j d, (i < length l)%nat ->
  nth j (delete_at i l) d = nth (if (j <? i)%nat then j else S j) l d.
Proof.
  induction i as [|i IH]; intros [|x l] j d H; try (cbn in H; lia); [destruct j; reflexivity|].
  destruct j as [|j]; [reflexivity|]. cbn [delete_at nth]. rewrite IH by (cbn in H; lia).
  change (S j <? S i)%nat with (j <? i)%nat. destruct (j <? i)%nat; reflexivity.
Qed.

Lemma model_delete kind gamma nodes lam h i x : (i < length nodes)%nat -> length lam = length nodes -> nth i lam 0 = 0 ->
  model_at kind gamma nodes lam h x = model_at kind gamma (delete_at i nodes) (delete_at i lam) h x.
Proof. intros. unfold model_at. rewrite (delete_insert_dot _ i) by auto. reflexivity. Qed.
Lemma model_insert kind gamma nodes lam h i x : (i < length nodes)%nat -> length lam = (length nodes - 1)%nat ->
  model_at kind gamma nodes (insert_at i 0 lam) h x = model_at kind gamma (delete_at i nodes) lam h x.
Proof. intros. unfold model_at. rewrite insert_delete_dot by auto. reflexivity. Qed.

Section LooNodes.
  Variables (solve : list R -> list R) (kind : rbf_kind) (gamma eps : R) (n : nat) (nodes : list rpoint) (vals : list R) (i : nat).
  Let k := length nodes.
  Let p := size_P kind n.
  Let A := get_rbf_matrix kind gamma eps n nodes.
  Hypothesis Hn : in_dimension n nodes.
  Hypothesis Hv : length vals = k.
  Hypothesis Hi : (i < k)%nat.
  Hypothesis Ht : no_tiny kind gamma eps nodes.
  Hypothesis Hsolve : forall b, length b = (k + p)%nat -> length (solve b) = (k + p)%nat /\ mat_vec A (solve b) = b.
  Hypothesis Inj : forall u v, length u = (k + p)%nat -> length v = (k + p)%nat -> mat_vec A u = mat_vec A v -> u = v.
  Let base := solve (rbf_rhs p vals).
  Let adj := solve (unit_vector (k + p) i).

  Lemma A_len : length A = (k + p)%nat.
  Proof. unfold A, get_rbf_matrix, zero_tiny. rewrite map_length. apply exact_length; auto. Qed.
  Lemma A_rows r : (r < k + p)%nat -> length (nth r A []) = (k + p)%nat.
  Proof. intros. unfold A, get_rbf_matrix. rewrite nth_zero_tiny, map_length. apply exact_row_length; auto. Qed.
  Lemma rhs_len : length (rbf_rhs p vals) = (k + p)%nat.
  Proof. unfold rbf_rhs, zeros. rewrite app_length, repeat_length. lia. Qed.
  Lemma unit_len : length (unit_vector (k + p) i) = (k + p)%nat.
  Proof. unfold unit_vector, zeros. rewrite set_at_length, repeat_length. auto. Qed.

  (** Rows of the system in terms of the model. *)
  Lemma row_value s r : length s = (k + p)%nat -> (r < k)%nat ->
    rdot (nth r A []) s = model_at kind gamma nodes (firstn k s) (skipn k s) (nth r nodes []).
  Proof.
    intros Hs Hr. unfold A, get_rbf_matrix. rewrite nth_zero_tiny, rdot_tiny_exact.
    - rewrite exact_top_dot by auto. apply evaluate_model; auto; [apply Hn, nth_In; auto|rewrite firstn_length; unfold k, p, rpoint in *; lia|rewrite skipn_length; unfold k, p, rpoint in *; lia].
    - apply clean_row. apply no_tiny_clean; auto.
  Qed.
  Lemma row_side s j : length s = (k + p)%nat -> (j < p)%nat ->
    rdot (nth (k + j) A []) s = rdot (map (fun x => nth j (monomials (degree_polynomial kind) x) 0) nodes) (firstn k s).
  Proof.
    intros Hs Hj. unfold A, get_rbf_matrix. rewrite nth_zero_tiny, rdot_tiny_exact.
    - unfold k. rewrite exact_row_bottom by auto. fold k.
      rewrite (split_dot _ _ s k); [|apply map_length|lia]. unfold zeros. rewrite rdot_zeros, Rplus_0_r.
      f_equal. apply map_ext. intros x. rewrite ptail_monomials. reflexivity.
    - apply clean_row. apply no_tiny_clean; auto.
  Qed.

  (** Vectors with weight 0 at [i] satisfying the other rows are the models of the other nodes. *)
  Lemma other_rows_interpolate w : length w = (k + p)%nat -> nth i w 0 = 0 ->
    (forall r, (r < k + p)%nat -> r <> i -> rdot (nth r A []) w = nth r (rbf_rhs p vals) 0) ->
    interpolates kind gamma n (delete_at i nodes) (delete_at i vals) (delete_at i (firstn k w)) (skipn k w).
  Proof.
    intros Lw H0 Hr.
    assert (F0 : nth i (firstn k w) 0 = 0).
    { assert (E : nth i w 0 = nth i (firstn k w ++ skipn k w) 0) by (rewrite firstn_skipn; auto).
      rewrite app_nth1 in E by (rewrite firstn_length; lia). congruence. }
    assert (LF : length (firstn k w) = k) by (rewrite firstn_length; lia).
    split; [rewrite !delete_at_length; try lia; unfold k in *; lia|].
    split; [rewrite skipn_length; fold p; lia|]. split.
    - intros j Hj. rewrite delete_at_length in Hj by auto. fold k in Hj.
      rewrite <- (model_delete kind gamma nodes) by (auto; fold k; lia).
      set (r := if (j <? i)%nat then j else S j).
      assert (Hr1 : (r < k)%nat /\ r <> i) by (unfold r; destruct (j <? i)%nat eqn:E; [apply Nat.ltb_lt in E|apply Nat.ltb_ge in E]; lia).
      rewrite (nth_delete_at i nodes) by auto. fold r. rewrite (nth_delete_at i vals) by lia. fold r.
      rewrite <- row_value by (auto; lia). rewrite Hr by lia.
      unfold rbf_rhs. rewrite app_nth1; auto. lia.
    - intros j Hj. rewrite <- (delete_insert_dot _ i nodes (firstn k w)); [|exact Hi|fold k; lia|auto].
      rewrite <- row_side by (auto; fold p; lia). rewrite Hr by (fold p; lia).
      unfold rbf_rhs. rewrite app_nth2 by lia. apply nth_zeros.
  Qed.
  Lemma interpolate_other_rows lam h :
    interpolates kind gamma n (delete_at i nodes) (delete_at i vals) lam h ->
    let w := insert_at i 0 lam ++ h in
    length w = (k + p)%nat /\ nth i w 0 = 0 /\
    (forall r, (r < k + p)%nat -> r <> i -> rdot (nth r A []) w = nth r (rbf_rhs p vals) 0).
  Proof.
    intros (L1 & L2 & H1 & H2) w. rewrite delete_at_length in L1, H1 by auto. fold k in L1, H1.
    assert (LI : length (insert_at i 0 lam) = k) by (rewrite insert_at_len by lia; lia).
    assert (Lw : length w = (k + p)%nat) by (unfold w; rewrite app_length; fold p in L2; lia).
    assert (F : firstn k w = insert_at i 0 lam) by (unfold w; rewrite <- LI, firstn_app, Nat.sub_diag, firstn_all, app_nil_r; auto).
    assert (S : skipn k w = h) by (unfold w; rewrite <- LI, skipn_app, Nat.sub_diag, skipn_all; auto).
    split; [auto|]. split.
    - unfold w. rewrite app_nth1 by lia. apply nth_insert_at. lia.
    - intros r Hr Hne. destruct (Nat.lt_ge_cases r k) as [L|L].
      + rewrite row_value, F, S by auto. rewrite model_insert by (auto; fold k; lia).
        set (j := if (r <? i)%nat then r else (r - 1)%nat).
        assert (Hj : (j < k - 1)%nat /\ (if (j <? i)%nat then j else Datatypes.S j) = r).
        { unfold j. destruct (r <? i)%nat eqn:E.
          - rewrite E. apply Nat.ltb_lt in E. lia.
          - apply Nat.ltb_ge in E. destruct (r - 1 <? i)%nat eqn:E2; [apply Nat.ltb_lt in E2|]; lia. }
        destruct Hj as [Hj Ej]. specialize (H1 j Hj). rewrite !nth_delete_at in H1 by (auto; lia). rewrite Ej in H1.
        rewrite H1. unfold rbf_rhs. rewrite app_nth1; auto. lia.
      + replace r with (k + (r - k))%nat by lia. rewrite row_side, F by (auto; lia).
        rewrite insert_delete_dot by (auto; fold k; lia). rewrite H2 by (fold p; lia).
        unfold rbf_rhs. rewrite app_nth2 by lia. symmetry. apply nth_zeros.
  Qed.

  Lemma loo_small : Rabs (nth i base 0) <= eps ->
    loo_prediction solve kind gamma eps n k nodes vals i = nth i vals 0.
  Proof.
    intros Hs. unfold loo_prediction. fold p. fold base. rewrite (proj2 (Rleb_le _ _) Hs).
    destruct (Hsolve (rbf_rhs p vals) rhs_len) as [L1 L2]. fold base in L1, L2.
    rewrite evaluate_model by (auto; try (apply Hn, nth_In; auto); rewrite ?firstn_length, ?skipn_length; fold p; lia).
    rewrite <- row_value by auto. rewrite <- nth_mat_vec by (rewrite A_len; lia). rewrite L2.
    unfold rbf_rhs. rewrite app_nth1; auto. lia.
  Qed.
  Lemma loo_large : eps < Rabs (nth i base 0) -> nth i adj 0 <> 0 ->
    (exists lam h, interpolates kind gamma n (delete_at i nodes) (delete_at i vals) lam h) /\
    (forall lam h, interpolates kind gamma n (delete_at i nodes) (delete_at i vals) lam h ->
       loo_prediction solve kind gamma eps n k nodes vals i =
       model_at kind gamma (delete_at i nodes) lam h (nth i nodes [])).
  Proof.
    intros Hs Ha. destruct (Hsolve (rbf_rhs p vals) rhs_len) as [L1 L2]. fold base in L1, L2.
    destruct (Hsolve (unit_vector (k + p) i) unit_len) as [L3 L4]. fold adj in L3, L4.
    set (z := loo_solution base adj i).
    assert (Hip : (i < k + p)%nat) by lia.
    assert (Lz : length z = (k + p)%nat) by (apply (loo_length A (k + p) i (rbf_rhs p vals) base adj); auto using A_len, rhs_len).
    assert (Z0 : nth i z 0 = 0) by (apply (loo_zero A (k + p) i (rbf_rhs p vals) base adj); auto using A_len, rhs_len).
    split.
    - exists (delete_at i (firstn k z)), (skipn k z). apply other_rows_interpolate; auto.
      intros r Hr Hne. unfold z. rewrite (loo_rows A (k + p) i (rbf_rhs p vals) base adj); auto using A_len, A_rows, rhs_len.
      destruct (r =? i)%nat eqn:E; [apply Nat.eqb_eq in E; lia|ring].
    - intros lam h Hint. destruct (interpolate_other_rows lam h Hint) as (W1 & W2 & W3).
      destruct Hint as (K1 & K2 & _). rewrite delete_at_length in K1 by auto. fold k in K1.
      set (w := insert_at i 0 lam ++ h) in *.
      assert (E : w = z) by (apply (loo_unique A (k + p) i (rbf_rhs p vals) base adj); auto using A_len, A_rows, rhs_len).
      unfold loo_prediction. fold p. fold base adj.
      replace (Rleb (Rabs (nth i base 0)) eps) with false by (symmetry; apply Rleb_gt; auto).
      fold z. rewrite <- E.
      assert (LI : length (insert_at i 0 lam) = k) by (rewrite insert_at_len by lia; lia).
      assert (F : firstn k w = insert_at i 0 lam) by (unfold w; rewrite <- LI, firstn_app, Nat.sub_diag, firstn_all, app_nil_r; auto).
      assert (S : skipn k w = h) by (unfold w; rewrite <- LI, skipn_app, Nat.sub_diag, skipn_all; auto).
      rewrite F, S. rewrite evaluate_model by (auto; apply Hn, nth_In; auto).
      apply model_insert; auto; fold k; lia.
  Qed.
End LooNodes.

(** ** Model selection *)
Lemma trials_candidates : map snd trials = candidates.
Proof. reflexivity. Qed.
Lemma selection_success quality settings :
  (forall t, In t candidates -> exists e, quality t = Some e) ->
  exists before m after e, candidates = before ++ m :: after /\
    get_best_rbf_model quality settings = (m, settings) /\ quality m = Some e /\
    (forall t e', In t before -> quality t = Some e' -> (e < e')%Z) /\
    (forall t e', In t after -> quality t = Some e' -> (e <= e')%Z).
Proof.
  intros Hall. unfold get_best_rbf_model.
  pose proof (best_loop_spec quality settings trials None settings (fun _ _ _ _ => Logic.I)) as S.
  destruct (best_loop quality settings trials None settings) as [m aft].
  destruct S as [(_ & -> & [[-> H]|(pre & post & e & H1 & H2 & _ & H3 & H4)])|(pre & i & t & post & H1 & H2 & _)].
  - discriminate H.
  - exists pre, m, post, e. rewrite <- trials_candidates. auto.
  - exfalso. destruct (Hall t) as [e He]; [|congruence].
    rewrite <- trials_candidates, H1, map_app. apply in_or_app. right; left; reflexivity.
Qed.
Lemma trials_split pre i t post : trials = pre ++ (i, t) :: post ->
  candidates = map snd pre ++ t :: map snd post /\ ((i < 2)%nat <-> (length pre < 2)%nat).
Proof.
  intros H. split; [rewrite <- trials_candidates, H, map_app; reflexivity|].
  unfold trials in H. cbn in H.
  do 7 (destruct pre as [|? pre]; [injection H as <- _ _; cbn; lia|injection H as _ H]).
  destruct pre; discriminate.
Qed.
Lemma selection_failure quality settings tried bad rest :
  candidates = tried ++ bad :: rest -> quality bad = None ->
  (forall t, In t tried -> exists e, quality t = Some e) ->
  get_best_rbf_model quality settings =
    (fst (get_best_rbf_model quality settings), bad) /\
  ((length tried < 2)%nat -> fst (get_best_rbf_model quality settings) = settings) /\
  ((2 <= length tried)%nat -> exists before m after e, tried = before ++ m :: after /\
     fst (get_best_rbf_model quality settings) = m /\ quality m = Some e /\
     (forall t e', In t before -> quality t = Some e' -> (e < e')%Z) /\
     (forall t e', In t after -> quality t = Some e' -> (e <= e')%Z)).
Proof.
  intros Hc Hb Hok. unfold get_best_rbf_model.
  pose proof (best_loop_spec quality settings trials None settings (fun _ _ _ _ => Logic.I)) as S.
  destruct (best_loop quality settings trials None settings) as [m aft]. cbn [fst].
  destruct S as [(H & _)|(pre & i & t & post & H1 & H2 & -> & H3 & H4)].
  - exfalso. destruct (H bad) as [e He]; [|congruence].
    rewrite trials_candidates, Hc. apply in_or_app. right; left; auto.
  - destruct (trials_split pre i t post H1) as [E1 E2].
    assert (Eq : map snd pre = tried /\ t = bad).
    { rewrite Hc in E1. clear - E1 Hb H2 Hok H3. revert tried E1 Hok.
      induction (map snd pre) as [|a l IH]; intros [|c tr] E1 Hok; cbn in E1; injection E1 as <- E1.
      - auto.
      - exfalso. destruct (Hok _ (or_introl eq_refl)) as [e He]; congruence.
      - exfalso. destruct (H3 _ (or_introl eq_refl)) as [e He]; congruence.
      - destruct (IH (fun u Hu => H3 u (or_intror Hu)) tr E1 (fun u Hu => Hok u (or_intror Hu))) as [-> ->]. auto. }
    destruct Eq as [<- ->]. rewrite map_length. split; [reflexivity|].
    destruct H4 as [[L ->]|[L [[-> H4]|(pre1 & post1 & e & F1 & F2 & _ & F3 & F4)]]].
    + split; [auto|]. intros. apply E2 in L. lia.
    + subst pre. cbn in E2. lia.
    + split; [intros; apply E2 in H; lia|]. intros _. exists pre1, m, post1, e. auto.
Qed.
