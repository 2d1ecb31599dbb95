(** * Consequences of definiteness: sign of mu, the refit is unique, leave-one-out does not divide by 0. *)
From Coq Require Import Reals Lra Lia List.
From Verif Require Import KernelSum LinAlg KernelNodes SystemProofs LstsqProofs.
From Verif Require Import RBFProofs RBFSolve RBFGlue PyomoProofs PyomoGlue AuxProofs AuxInverse SpecAux SpecPyomo SpecLinear.
Import ListNotations.
Open Scope R_scope.

Definition ksign (kind : rbf_kind) : R := if (degree_polynomial kind =? 0)%Z then -1 else 1.

Lemma form_model kind gamma n nodes lam h : in_dimension n nodes -> length h = size_P kind n -> side kind n nodes lam ->
  form kind gamma nodes lam = rdot (map (model_at kind gamma nodes lam h) nodes) lam.
Proof.
  intros Hn Hh Hs. unfold model_at. rewrite map_plus_dot, (poly_part kind n) by auto. unfold form. ring.
Qed.
Lemma form_interpolates kind gamma n nodes vals lam h : in_dimension n nodes -> length vals = length nodes ->
  interpolates kind gamma n nodes vals lam h -> form kind gamma nodes lam = rdot vals lam.
Proof.
  intros Hn Hv (L1 & L2 & L3 & L4). rewrite (form_model kind gamma n nodes lam h) by auto. f_equal.
  apply nth_ext with 0 0; [rewrite map_length; auto|]. rewrite map_length. intros j Hj.
  rewrite (nth_map_in _ _ _ ([] : rpoint)) by auto. apply L3. auto.
Qed.

(** ** mu *)
Lemma mu_positive kind gamma n nodes x m : in_dimension n (nodes ++ [x]) -> NoDup (nodes ++ [x]) -> shape_ok kind gamma ->
  cardinal_weight kind gamma n nodes x m -> (degree_polynomial kind = 1%Z -> unisolvent kind n [] nodes) -> nodes <> [] ->
  0 < gutmann_mu kind m.
Proof.
  intros Hn Hd Hg (lam & h & H) Hu Hne.
  assert (E : form kind gamma (nodes ++ [x]) (lam ++ [m]) = m).
  { rewrite (form_interpolates kind gamma n _ (zeros (length nodes) ++ [1]) _ h) by (auto; rewrite !app_length, zeros_length; auto).
    destruct H as (L & _). rewrite !app_length in L. cbn in L. rewrite rdot_snoc by (rewrite zeros_length; unfold rpoint in *; lia).
    rewrite rdot_zeros_l. ring. }
  assert (Z : lam ++ [m] <> zeros (length (nodes ++ [x]))).
  { intros Z. assert (In' : in_dimension n nodes) by (intros y Hy; apply Hn, in_or_app; auto).
    destruct H as (L & Lh & H1 & H2).
    assert (P : forall y, model_at kind gamma (nodes ++ [x]) (lam ++ [m]) h y = rdot (monomials (degree_polynomial kind) y) h).
    { intros y. unfold model_at. rewrite Z, rdot_zeros_r. ring. }
    assert (U : unisolvent kind n [] nodes).
    { destruct (Z.eq_dec (degree_polynomial kind) 1); auto. apply unisolvent_low; auto. destruct kind; cbn in *; lia. }
    assert (h = zeros (size_P kind n)) as ->.
    { apply U; auto; [intros ? []|]. intros y Hy. apply (In_nth _ _ []) in Hy. destruct Hy as (j & Hj & <-).
      specialize (H1 j). rewrite app_length in H1. cbn [length] in H1. rewrite P in H1.
      rewrite !app_nth1 in H1 by (rewrite ?zeros_length; auto). etransitivity; [apply H1; unfold rpoint in *; lia|]. apply nth_zeros. }
    specialize (H1 (length nodes)). rewrite app_length in H1. cbn [length] in H1. rewrite P, rdot_zeros_r in H1.
    rewrite app_nth2 in H1 by (rewrite zeros_length; lia). rewrite zeros_length, Nat.sub_diag in H1. cbn in H1.
    specialize (H1 ltac:(lia)). lra. }
  pose proof (kernel_definite kind gamma n (nodes ++ [x]) (lam ++ [m]) Hn Hd Hg) as K.
  destruct H as (L & _ & _ & Sd). specialize (K L Sd Z). rewrite E in K. destruct kind; cbn in *; lra.
Qed.
Lemma mu_exists kind gamma n nodes x : in_dimension n (nodes ++ [x]) -> NoDup (nodes ++ [x]) -> shape_ok kind gamma ->
  (degree_polynomial kind = 1%Z -> unisolvent kind n [] nodes) -> nodes <> [] ->
  exists m, cardinal_weight kind gamma n nodes x m.
Proof.
  intros Hn Hd Hg Hu Hne.
  assert (U : unisolvent kind n [] (nodes ++ [x])).
  { assert (U : unisolvent kind n [] nodes).
    { destruct (Z.eq_dec (degree_polynomial kind) 1); auto. apply unisolvent_low; auto. destruct kind; cbn in *; lia. }
    intros h Lh D V. apply U; auto. intros y Hy. apply V, in_or_app. auto. }
  destruct (model_exists kind gamma n (nodes ++ [x]) (zeros (length nodes) ++ [1]) Hn Hd Hg U) as (l & h & H).
  { rewrite !app_length, zeros_length. auto. }
  assert (L : length l = (length nodes + 1)%nat) by (destruct H as (L & _); rewrite L, app_length; auto).
  assert (E : l = removelast l ++ [last l 0]) by (apply app_removelast_last; intros ->; cbn in L; lia).
  exists (last l 0), (removelast l), h. rewrite <- E. exact H.
Qed.
Lemma mu_unique kind gamma n nodes x m m' : in_dimension n (nodes ++ [x]) -> NoDup (nodes ++ [x]) -> shape_ok kind gamma ->
  cardinal_weight kind gamma n nodes x m -> cardinal_weight kind gamma n nodes x m' -> m = m'.
Proof.
  intros Hn Hd Hg (l & h & H) (l' & h' & H'). destruct (weights_unique kind gamma n _ _ _ _ _ _ Hn Hd Hg H H') as [E _].
  apply app_inj_tail in E. tauto.
Qed.

(** ** Refitting *)
Lemma form_sumn kind gamma nodes lam : length lam = length nodes ->
  form kind gamma nodes lam = sumn (length nodes) (fun i => sumn (length nodes) (fun j =>
    rbf_function kind gamma (distance (nth i nodes []) (nth j nodes [])) * nth i lam 0 * nth j lam 0)).
Proof.
  intros Hl. unfold form. rewrite <- (sumn_dot _ _ (length nodes)) by (rewrite ?map_length; auto).
  apply sumn_ext. intros i Hi. rewrite (nth_map_in _ _ _ ([] : rpoint)) by auto.
  rewrite <- (sumn_dot _ _ (length nodes)) by (rewrite ?map_length; auto). rewrite <- sumn_scale_r.
  apply sumn_ext. intros j Hj. rewrite (nth_map_in _ _ _ ([] : rpoint)) by auto. ring.
Qed.
Lemma bump_form kind gamma eps n nodes lam : in_dimension n nodes -> no_tiny kind gamma eps nodes -> length lam = length nodes ->
  bump_obj kind (length nodes) (top_left (length nodes) (get_rbf_matrix kind gamma eps n nodes)) lam =
  ksign kind * form kind gamma nodes lam.
Proof.
  intros Hn Ht Hl. rewrite form_sumn by auto. unfold bump_obj, ksign.
  assert (E : sumn (length nodes) (fun i => sumn (length nodes) (fun j =>
     ent (top_left (length nodes) (get_rbf_matrix kind gamma eps n nodes)) i j * nth i lam 0 * nth j lam 0)) =
     sumn (length nodes) (fun i => sumn (length nodes) (fun j =>
     rbf_function kind gamma (distance (nth i nodes []) (nth j nodes [])) * nth i lam 0 * nth j lam 0))).
  { apply sumn_ext. intros i Hi. apply sumn_ext. intros j Hj. do 2 f_equal.
    rewrite clean_matrix by auto. unfold ent, top_left.
    rewrite (nth_map_in _ _ _ ([] : list R)) by (rewrite firstn_length, exact_length by auto; unfold rpoint in *; lia).
    rewrite !nth_firstn_lt by auto. rewrite <- (exact_phi kind gamma n nodes Hn) by auto. reflexivity. }
  cbv zeta. rewrite E. destruct kind; cbn; ring.
Qed.
Definition mid (u v : list R) : list R := map2 (fun a b => (a + b) / 2) u v.
Lemma mid_length u v : length u = length v -> length (mid u v) = length u.
Proof. apply map2_len. Qed.
Lemma rdot_mid r u : forall v, length u = length v -> rdot r (mid u v) = (rdot r u + rdot r v) / 2.
Proof.
  revert r. induction u as [|a u IH]; intros [|c r] [|b v] H; cbn in *; try discriminate; try field.
  fold (mid u v). rewrite IH by lia. field.
Qed.
Lemma mid_form kind gamma nodes u v : length u = length nodes -> length v = length nodes ->
  form kind gamma nodes (mid u v) = (form kind gamma nodes u + form kind gamma nodes v) / 2 - form kind gamma nodes (vsub u v) / 4.
Proof.
  intros Hu Hv. assert (Lm : length (mid u v) = length nodes) by (rewrite mid_length; lia).
  assert (Ls : length (vsub u v) = length nodes) by (unfold vsub; rewrite LinAlg.map2_len; lia).
  rewrite !form_sumn by auto. set (k := length nodes) in *.
  set (F := fun w : list R => sumn k (fun i => sumn k (fun j =>
     rbf_function kind gamma (distance (nth i nodes []) (nth j nodes [])) * nth i w 0 * nth j w 0))).
  enough (E : F (mid u v) + /4 * F (vsub u v) = /2 * F u + /2 * F v) by (unfold F in E; lra).
  unfold F. rewrite <- !sumn_scale, <- !sumn_plus. apply sumn_ext. intros i Hi.
  rewrite <- !sumn_scale, <- !sumn_plus. apply sumn_ext. intros j Hj.
  unfold mid, vsub. rewrite !(GeomProofs.map2_nth _ _ _ i 0 0), !(GeomProofs.map2_nth _ _ _ j 0 0) by lia. field.
Qed.
Section Refit.
  Variables (kind : rbf_kind) (gamma eps : R) (n : nat) (nodes : list rpoint) (vals : list R) (errs : list (R * R)).
  Hypothesis Hn : in_dimension n nodes.
  Hypothesis Ht : no_tiny kind gamma eps nodes.
  Hypothesis Hd : NoDup nodes.
  Hypothesis Hg : shape_ok kind gamma.
  Hypothesis He : contains_value errs.
  Local Notation k := (length nodes).
  Local Notation A := (get_rbf_matrix kind gamma eps n nodes).
  Local Notation ok := (bump_feasible kind n k (top_left k A) (top_right k A) vals errs).
  Local Notation bump := (bump_obj kind k (top_left k A)).
  Lemma bump_nonneg lam h : length lam = k -> length h = size_P kind n -> ok lam h ->
    0 <= bump lam /\ (bump lam = 0 <-> lam = zeros k).
  Proof.
    intros Hl Hh F. apply bump_iff in F; auto. destruct F as [_ S]. rewrite bump_form by auto.
    destruct (list_eq_dec Req_EM_T lam (zeros k)) as [E|E].
    - assert (form kind gamma nodes lam = 0) by (unfold form; rewrite E, rdot_zeros_r; auto). rewrite H, Rmult_0_r. split; [lra|tauto].
    - pose proof (kernel_definite kind gamma n nodes lam Hn Hd Hg Hl S E) as P. fold (ksign kind) in P.
      split; [lra|]. split; [lra|tauto].
  Qed.
  Lemma feasible_mid lam h lam' h' : length lam = k -> length h = size_P kind n -> length lam' = k -> length h' = size_P kind n ->
    ok lam h -> ok lam' h' -> ok (mid lam lam') (mid h h').
  Proof.
    intros Hl Hh Hl' Hh' F F'. apply bump_iff in F; auto. apply bump_iff in F'; auto.
    destruct F as [F S], F' as [F' S']. apply bump_iff; auto; try (rewrite mid_length; lia). split.
    - intros i Hi. specialize (F i Hi). specialize (F' i Hi).
      assert (E : model_at kind gamma nodes (mid lam lam') (mid h h') (nth i nodes []) =
        (model_at kind gamma nodes lam h (nth i nodes []) + model_at kind gamma nodes lam' h' (nth i nodes [])) / 2).
      { unfold model_at. rewrite !rdot_mid by lia. field. }
      rewrite E. lra.
    - intros j Hj. rewrite rdot_mid by lia. rewrite S, S' by auto. field.
  Qed.
  Lemma optimum_unique lam h lam' h' : length lam = k -> length h = size_P kind n -> length lam' = k -> length h' = size_P kind n ->
    ok lam h -> ok lam' h' ->
    (forall l g, length l = k -> length g = size_P kind n -> ok l g -> bump lam <= bump l) ->
    (forall l g, length l = k -> length g = size_P kind n -> ok l g -> bump lam' <= bump l) -> lam = lam'.
  Proof.
    intros Hl Hh Hl' Hh' F F' O O'.
    pose proof (feasible_mid lam h lam' h' Hl Hh Hl' Hh' F F') as M.
    specialize (O (mid lam lam') (mid h h')). specialize (O' (mid lam lam') (mid h h')).
    rewrite !mid_length in O, O' by lia. specialize (O Hl Hh M). specialize (O' Hl Hh M).
    rewrite !bump_form in O, O' by (auto; rewrite ?mid_length; lia). rewrite !mid_form in O, O' by auto.
    apply bump_iff in F; auto. apply bump_iff in F'; auto.
    assert (Lv : length (vsub lam lam') = k) by (unfold vsub; rewrite LinAlg.map2_len; lia).
    destruct (list_eq_dec Req_EM_T (vsub lam lam') (zeros k)) as [E|E].
    - apply vsub_zero; [lia|]. rewrite E. f_equal. lia.
    - exfalso. pose proof (kernel_definite kind gamma n nodes (vsub lam lam') Hn Hd Hg Lv) as P.
      assert (Sv : side kind n nodes (vsub lam lam')).
      { intros j Hj. rewrite rdot_vsub by lia. destruct F as [_ S], F' as [_ S']. rewrite S, S' by auto. ring. }
      specialize (P Sv E). fold (ksign kind) in P. lra.
  Qed.
End Refit.

(** ** Leave-one-out *)
Lemma unit_rhs k p i : (i < k)%nat -> unit_vector (k + p) i = rbf_rhs p (unit_vector k i).
Proof.
  intros H. apply nth_ext with 0 0.
  - unfold unit_vector, rbf_rhs, zeros. rewrite app_length, !set_at_length, !repeat_length. auto.
  - unfold unit_vector at 1. rewrite set_at_length. unfold zeros at 1. rewrite repeat_length. intros r Hr.
    rewrite unit_nth by lia. unfold rbf_rhs. destruct (Nat.lt_ge_cases r k).
    + rewrite app_nth1 by (unfold unit_vector, zeros; rewrite set_at_length, repeat_length; auto). rewrite unit_nth by auto. auto.
    + rewrite app_nth2 by (unfold unit_vector, zeros; rewrite set_at_length, repeat_length; auto). rewrite nth_zeros.
      destruct (r =? i)%nat eqn:E; auto. apply Nat.eqb_eq in E. lia.
Qed.
Lemma rdot_unit_l k i v : (i < k)%nat -> length v = k -> rdot (unit_vector k i) v = nth i v 0.
Proof. intros H L. rewrite rdot_comm. rewrite <- L. apply (rdot_unit 0 [] eq_refl). lia. Qed.
Lemma unit_len' k i : length (unit_vector k i) = k.
Proof. unfold unit_vector, zeros. rewrite set_at_length, repeat_length. auto. Qed.
Lemma no_zero_division kind gamma n nodes vals lam h adj g i : in_dimension n nodes -> NoDup nodes -> shape_ok kind gamma ->
  length vals = length nodes -> (i < length nodes)%nat -> interpolates kind gamma n nodes vals lam h ->
  interpolates kind gamma n nodes (unit_vector (length nodes) i) adj g ->
  nth i lam 0 <> 0 -> nth i adj 0 <> 0.
Proof.
  intros Hn Hd Hg Hv Hi H Ha Hnz Z. apply Hnz.
  assert (F : form kind gamma nodes adj = 0).
  { rewrite (form_interpolates kind gamma n nodes (unit_vector (length nodes) i) adj g) by (auto; apply unit_len').
    rewrite rdot_unit_l; auto. destruct Ha as (L & _). auto. }
  destruct Ha as (L1 & L2 & L3 & L4). assert (E : adj = zeros (length nodes)) by (apply (kernel_null kind gamma n); auto).
  destruct H as (M1 & M2 & M3 & M4).
  rewrite <- (rdot_unit_l (length nodes) i lam) by auto.
  rewrite <- (poly_part kind n nodes lam g) by auto. f_equal.
  apply nth_ext with 0 0; [rewrite map_length; apply unit_len'|]. rewrite unit_len'. intros r Hr.
  rewrite (nth_map_in _ _ _ ([] : rpoint)) by auto. rewrite <- L3 by auto. unfold model_at. rewrite E, rdot_zeros_r. ring.
Qed.
Lemma rows_interp kind gamma eps n nodes vals s : in_dimension n nodes -> no_tiny kind gamma eps nodes -> length vals = length nodes ->
  length s = (length nodes + size_P kind n)%nat -> mat_vec (get_rbf_matrix kind gamma eps n nodes) s = rbf_rhs (size_P kind n) vals ->
  interpolates kind gamma n nodes vals (firstn (length nodes) s) (skipn (length nodes) s).
Proof.
  intros Hn Ht Hv Hs E. eapply (solution_interpolates kind gamma eps); eauto.
  - rewrite firstn_length. lia.
  - rewrite skipn_length. lia.
  - rewrite firstn_skipn. exact E.
Qed.
Lemma loo_safe solve kind gamma eps n nodes vals i :
  let k := length nodes in let p := size_P kind n in
  let A := get_rbf_matrix kind gamma eps n nodes in
  in_dimension n nodes -> NoDup nodes -> shape_ok kind gamma -> unisolvent kind n [] nodes -> 0 <= eps ->
  length vals = k -> (i < k)%nat -> no_tiny kind gamma eps nodes ->
  (forall b, length b = (k + p)%nat -> length (solve b) = (k + p)%nat /\ mat_vec A (solve b) = b) ->
  eps < Rabs (nth i (solve (rbf_rhs p vals)) 0) ->
  nth i (solve (unit_vector (k + p) i)) 0 <> 0 /\
  (exists lam h, interpolates kind gamma n (delete_at i nodes) (delete_at i vals) lam h) /\
  (forall lam h, interpolates kind gamma n (delete_at i nodes) (delete_at i vals) lam h ->
     loo_prediction solve kind gamma eps n k nodes vals i =
     model_at kind gamma (delete_at i nodes) lam h (nth i nodes [])).
Proof.
  intros k p A Hn Hd Hg Hu He Hv Hi Ht Hs Hb.
  assert (Z : nth i (solve (unit_vector (k + p) i)) 0 <> 0).
  { destruct (Hs (rbf_rhs p vals)) as [B1 B2]; [unfold rbf_rhs; rewrite app_length, zeros_length; lia|].
    destruct (Hs (unit_vector (k + p) i)) as [C1 C2]; [apply unit_len'|].
    rewrite unit_rhs in * by auto.
    assert (F : forall s : list R, length s = (k + p)%nat -> nth i s 0 = nth i (firstn k s) 0).
    { intros s Ls. rewrite nth_firstn_lt by auto. auto. }
    rewrite F by auto. eapply (no_zero_division kind gamma n nodes vals _ _ _ _ i Hn Hd Hg Hv Hi).
    - apply (rows_interp kind gamma eps n nodes vals (solve (rbf_rhs p vals))); auto.
    - apply (rows_interp kind gamma eps n nodes _ (solve (rbf_rhs p (unit_vector k i)))); auto. apply unit_len'.
    - rewrite <- F by auto. intros E. rewrite E, Rabs_R0 in Hb. lra. }
  split; auto. apply loo_large; auto.
  intros u v Lu Lv E. subst A. rewrite clean_matrix in E by auto.
  apply vsub_zero; [congruence|]. rewrite Lu. apply (system_injective kind gamma n nodes Hn Hd Hg Hu).
  - unfold vsub. rewrite LinAlg.map2_len; lia.
  - unfold Amat. rewrite mat_vec_vsub by lia. rewrite E. fold (Amat kind gamma n nodes). rewrite vsub_self, mat_vec_length. auto.
Qed.
