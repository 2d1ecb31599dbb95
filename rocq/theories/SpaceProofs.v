(** * Counting the points of an integer box. *)
From Verif Require Import SpecProblem GAGlue CatProofs InitProofs AlgDistinct AlgGlue ProblemProofs ProblemGlue CatGlue InitGlue.
From Coq Require Import Lia Lqa.
Open Scope Z_scope.

Lemma inject_sub a b : inject_Z (a - b) = (inject_Z a - inject_Z b)%Q.
Proof. unfold Z.sub. rewrite inject_Z_plus, inject_Z_opp. reflexivity. Qed.
Definition zrange (a b : Z) : list Z := map (fun k => a + Z.of_nat k) (seq 0 (Z.to_nat (b - a + 1))).
Lemma in_zrange a b z : In z (zrange a b) <-> a <= z <= b.
Proof.
  unfold zrange. rewrite in_map_iff. split.
  - intros (k & <- & H). apply in_seq in H. lia.
  - intros H. exists (Z.to_nat (z - a)). split; [lia|]. apply in_seq. lia.
Qed.
Lemma nodup_zrange a b : NoDup (zrange a b).
Proof. unfold zrange. apply FinFun.Injective_map_NoDup; [intros x y; lia|apply seq_NoDup]. Qed.
Lemma len_zrange a b : length (zrange a b) = Z.to_nat (b - a + 1).
Proof. unfold zrange. rewrite map_length, seq_length. reflexivity. Qed.

Fixpoint grid (lo up : list Q) : list (list Z) :=
  match lo, up with
  | l :: lo', u :: up' => flat_map (fun z => map (cons z) (grid lo' up')) (zrange (Qceiling l) (Qfloor u))
  | _, _ => [[]]
  end.
Lemma floor_le_iff z (u : Q) : (inject_Z z <= u)%Q <-> z <= Qfloor u.
Proof.
  split; intros H.
  - rewrite <- (Qfloor_Z z). apply Qfloor_resp_le. exact H.
  - pose proof (Qfloor_le u). rewrite Zle_Qle in H. eapply Qle_trans; eauto.
Qed.
Lemma ceil_le_iff z (l : Q) : (l <= inject_Z z)%Q <-> Qceiling l <= z.
Proof.
  split; intros H.
  - rewrite <- (Qceiling_Z z). apply Qceiling_resp_le. exact H.
  - pose proof (Qle_ceiling l). rewrite Zle_Qle in H. eapply Qle_trans; eauto.
Qed.
Lemma in_grid : forall lo up v, length lo = length up ->
  (In v (grid lo up) <-> length v = length lo /\ forall j, (j < length lo)%nat -> (nth j lo 0 <= inject_Z (nth j v 0%Z) <= nth j up 0)%Q).
Proof.
  induction lo as [|l lo IH]; intros [|u up] v HL; cbn [length] in HL; try lia.
  - cbn. split.
    + intros [<-|[]]. split; [reflexivity|]. intros j Hj. lia.
    + intros (H & _). destruct v; [auto|discriminate].
  - cbn [grid]. rewrite in_flat_map. split.
    + intros (z & Hz & Hv). apply in_zrange in Hz. apply in_map_iff in Hv. destruct Hv as (w & <- & Hw).
      apply IH in Hw; [|lia]. destruct Hw as (W1 & W2). split; [cbn; lia|]. intros [|j] Hj; cbn [nth length] in *.
      * split; [apply ceil_le_iff|apply floor_le_iff]; lia.
      * apply W2. lia.
    + intros (H1 & H2). destruct v as [|z w]; [discriminate|]. exists z. split.
      * apply in_zrange. specialize (H2 0%nat ltac:(cbn; lia)). cbn [nth] in H2. destruct H2 as (A & B).
        apply ceil_le_iff in A. apply floor_le_iff in B. lia.
      * apply in_map. apply IH; [lia|]. cbn in H1. split; [lia|]. intros j Hj. exact (H2 (Datatypes.S j) ltac:(cbn; lia)).
Qed.
Lemma nodup_app_disjoint {A} (a b : list A) : NoDup a -> NoDup b -> (forall x, In x a -> ~ In x b) -> NoDup (a ++ b).
Proof.
  intros HA HB HX. induction HA as [|x l N HA IH]; [exact HB|]. cbn. constructor.
  - rewrite in_app_iff. intros [H|H]; [exact (N H)|exact (HX x (or_introl eq_refl) H)].
  - apply IH. intros y Hy. apply HX. right. exact Hy.
Qed.
Lemma nodup_blocks (G : list (list Z)) : NoDup G -> forall zs, NoDup zs -> NoDup (flat_map (fun z => map (cons z) G) zs).
Proof.
  intros HG. induction zs as [|z zs IH]; intros H; [constructor|]. inversion H as [|? ? N1 N2]; subst. cbn [flat_map].
  apply nodup_app_disjoint; [|exact (IH N2)|].
  - apply FinFun.Injective_map_NoDup; [|exact HG]. intros x y E. injection E as E. exact E.
  - intros v Hv Hw. apply in_map_iff in Hv. destruct Hv as (w & <- & _). apply in_flat_map in Hw.
    destruct Hw as (y & Hy & Hw). apply in_map_iff in Hw. destruct Hw as (w' & E & _). injection E as E _. subst y. exact (N1 Hy).
Qed.
Lemma nodup_grid : forall lo up, NoDup (grid lo up).
Proof.
  induction lo as [|l lo IH]; intros [|u up]; cbn [grid]; try (constructor; [intros []|constructor]).
  apply nodup_blocks; [apply IH|apply nodup_zrange].
Qed.
Lemma len_blocks (G : list (list Z)) : forall zs, length (flat_map (fun z => map (cons z) G) zs) = (length zs * length G)%nat.
Proof. induction zs as [|z zs IH]; [reflexivity|]. cbn [flat_map length]. rewrite app_length, map_length, IH. lia. Qed.
Lemma len_grid : forall lo up, length lo = length up ->
  (forall j, (j < length lo)%nat -> is_integer (nth j lo 0%Q) /\ is_integer (nth j up 0%Q) /\ (nth j lo 0 <= nth j up 0)%Q) ->
  Z.of_nat (length (grid lo up)) = fold_right Z.mul 1 (map2 (fun l u => Qfloor (u - l + 1)) lo up).
Proof.
  induction lo as [|l lo IH]; intros [|u up] HL H; cbn [length] in HL; try lia; [reflexivity|].
  cbn [grid map2 fold_right]. rewrite len_blocks, len_zrange. rewrite <- IH.
  - destruct (H 0%nat ltac:(cbn; lia)) as ((a & A) & (b & B) & C). cbn [nth] in A, B, C.
    assert (E1 : Qceiling l = a) by (rewrite A; apply Qceiling_Z).
    assert (E2 : Qfloor u = b) by (rewrite B; apply Qfloor_Z).
    assert (E3 : Qfloor (u - l + 1) = b - a + 1).
    { assert (X : (u - l + 1 == inject_Z (b - a + 1))%Q) by (rewrite A, B, inject_Z_plus, inject_sub; reflexivity). rewrite X. apply Qfloor_Z. }
    rewrite A, B, <- Zle_Qle in C. rewrite E1, E2, E3. lia.
  - lia.
  - intros j Hj. exact (H (Datatypes.S j) ltac:(cbn; lia)).
Qed.

(** ** Integral points of the box, one per grid entry *)
Definition floors (p : point) : list Z := map Qfloor p.
Lemma floors_nth p j : (j < length p)%nat -> is_integer (nth j p 0%Q) -> (inject_Z (nth j (floors p) 0%Z) == nth j p 0)%Q.
Proof.
  intros Hj (z & E). unfold floors. rewrite (nth_indep _ 0 (Qfloor 0%Q)) by (rewrite map_length; exact Hj).
  rewrite map_nth. transitivity (inject_Z z); [|symmetry; exact E]. rewrite (Qfloor_comp _ _ E), Qfloor_Z. reflexivity.
Qed.
Lemma floors_in lo up p : within lo up p -> (forall j, (j < length p)%nat -> is_integer (nth j p 0%Q)) -> In (floors p) (grid lo up).
Proof.
  intros (L1 & L2 & B) HI. apply in_grid; [congruence|]. split; [unfold floors; rewrite map_length; exact L1|].
  intros j Hj. unfold point in *. rewrite floors_nth; [apply B|..|apply HI]; lia.
Qed.
Lemma floors_same p q : length p = length q -> (forall j, (j < length p)%nat -> is_integer (nth j p 0%Q)) ->
  (forall j, (j < length q)%nat -> is_integer (nth j q 0%Q)) -> floors p = floors q -> same_point p q.
Proof.
  intros HL HP HQ E. split; [exact HL|]. intros j Hj. unfold point in *.
  rewrite <- (floors_nth p j), <- (floors_nth q j), E; [reflexivity|lia|apply HQ; lia|lia|apply HP; lia].
Qed.
Lemma sqdist_integer : forall p q, (forall j, (j < length p)%nat -> is_integer (nth j p 0%Q)) ->
  (forall j, (j < length q)%nat -> is_integer (nth j q 0%Q)) -> is_integer (sqdist p q).
Proof.
  induction p as [|x p IH]; intros [|y q] HP HQ; try (exists 0; reflexivity).
  destruct (HP 0%nat ltac:(cbn; lia)) as (a & A). destruct (HQ 0%nat ltac:(cbn; lia)) as (b & B).
  destruct (IH q) as (z & E).
  { intros j Hj. exact (HP (Datatypes.S j) ltac:(cbn; lia)). }
  { intros j Hj. exact (HQ (Datatypes.S j) ltac:(cbn; lia)). }
  exists ((a - b) * (a - b) + z). cbn [sqdist nth] in *. rewrite E, A, B, inject_Z_plus, inject_Z_mult, inject_sub. reflexivity.
Qed.
Lemma distinct_apart eps l m : (eps <= 1)%Q -> (forall p, In p l -> length p = m /\ forall j, (j < length p)%nat -> is_integer (nth j p 0%Q)) ->
  pairwise_distinct l -> AlgDistinct.apart eps l.
Proof.
  intros He HI HD. apply apart_pairwise in HD. induction l as [|p l IH]; [constructor|]. destruct HD as (H1 & H2).
  constructor; [|apply IH; [intros q Hq; apply HI; right; exact Hq|exact H2]].
  apply Forall_forall. intros q Hq. destruct (dist_lt q p eps) eqn:E; [exfalso|reflexivity].
  apply dist_lt_iff in E. destruct E as (E0 & E1). destruct (HI p (or_introl eq_refl)) as (P1 & P2). destruct (HI q (or_intror Hq)) as (Q1 & Q2).
  destruct (sqdist_integer q p Q2 P2) as (z & Z). pose proof (sqdist_nonneg q p) as N. rewrite Z in N, E1.
  assert (X : z < 1) by (rewrite Zlt_Qlt; change (inject_Z 1) with 1%Q; nra). assert (Y : 0 <= z) by (rewrite Zle_Qle; exact N).
  assert (z = 0) by lia. subst z. apply (H1 q Hq). apply same_point_dist; [unfold point in *; congruence|]. rewrite sqdist_sym. exact Z.
Qed.

(** Integral points of a box that are apart: their floors are different entries of the grid. *)
Lemma floors_nodup eps lo up l : (0 < eps)%Q -> AlgDistinct.apart eps l ->
  (forall p, In p l -> within lo up p /\ forall j, (j < length p)%nat -> is_integer (nth j p 0%Q)) ->
  NoDup (map floors l) /\ incl (map floors l) (grid lo up).
Proof.
  intros He HA HI. split.
  - induction HA as [|p l F HA IH]; [constructor|]. cbn. constructor.
    + intros X. apply in_map_iff in X. destruct X as (q & E & Hq). rewrite Forall_forall in F. specialize (F q Hq).
      destruct (HI p (or_introl eq_refl)) as ((P1 & _) & P2). destruct (HI q (or_intror Hq)) as ((Q1 & _) & Q2).
      assert (S1 : same_point q p) by (apply floors_same; auto; unfold point in *; congruence).
      apply same_point_dist in S1; [|unfold point in *; congruence].
      assert (dist_lt q p eps = true) by (apply dist_lt_iff; split; [exact He|rewrite S1; nra]). congruence.
    + apply IH. intros q Hq. apply HI. right. exact Hq.
  - intros v Hv. apply in_map_iff in Hv. destruct Hv as (p & <- & Hp). destruct (HI p Hp). apply floors_in; assumption.
Qed.
Lemma calls_acc tr : evaluate_calls tr = Z.of_nat (length (acc_at tr)).
Proof. induction tr as [|e tr IH]; [reflexivity|]. destruct e; cbn [evaluate_calls acc_at flat_map app length] in *; fold (acc_at tr); try exact IH. rewrite IH. lia. Qed.

(** ** The search space of the assembled problem *)
Lemma ints_nodup eps b : NoDup (s_ints (construct_problem eps b)).
Proof.
  unfold construct_problem. destruct (where_ is_cat _) as [|c0 cr] eqn:E; cbn [s_ints].
  - apply sorted_NoDup. destruct (fixed_idx eps b); apply where_sorted.
  - apply nodup_app_disjoint; [apply NoDup_filter, seq_NoDup|apply seq_NoDup|].
    intros x H1 H2. apply filter_In in H1. rewrite in_seq in H1, H2. lia.
Qed.

Section Space.
Variables (eps : Q) (b : bbox).
Hypotheses (Hwf : SpecCategorical.well_formed b) (Hord : ordered_bounds eps b).
Let s := construct_problem eps b.
Let Hcord : cat_ordered eps b.
Proof. intros i Hi. apply Hord. unfold cat_vars in Hi. apply filter_In in Hi. tauto. Qed.
Let D : s_dim s = encoded_dim eps b. Proof. exact (dim_spec eps b Hwf Hcord). Qed.
Definition no_real : Prop := forall i, In i (free_vars eps b) -> vtype_of b i <> VReal.

Lemma plain_free k : (k < length (plain_vars eps b))%nat -> In (nth k (plain_vars eps b) 0%nat) (free_vars eps b).
Proof. intros Hk. pose proof (nth_In (plain_vars eps b) 0%nat Hk) as X. unfold plain_vars in X at 2. apply filter_In in X. tauto. Qed.
Lemma all_ints : no_real -> forall j, (j < s_dim s)%nat -> In j (s_ints s).
Proof.
  intros HN j Hj. destruct (structure eps b Hwf Hcord) as (_ & _ & _ & _ & _ & _ & SI). apply SI.
  destruct (Nat.lt_ge_cases j (length (plain_vars eps b))) as [H|H]; [left|right; rewrite <- D; lia].
  split; [exact H|]. apply HN, plain_free, H.
Qed.
Lemma space_none : (exists i, In i (free_vars eps b) /\ vtype_of b i = VReal) ->
  space_size (s_dim s) (box_lower s) (box_upper s) (s_ints s) = None.
Proof.
  intros (i & Hi & Ei). unfold space_size. destruct (Nat.ltb_spec (length (s_ints s)) (s_dim s)) as [H|H]; [reflexivity|exfalso].
  assert (HP : In i (plain_vars eps b)).
  { unfold plain_vars. apply filter_In. split; [exact Hi|]. unfold categoricalb. rewrite Ei. reflexivity. }
  destruct (In_nth _ _ 0%nat HP) as (k & Hk & Ek).
  destruct (structure eps b Hwf Hcord) as (_ & _ & _ & _ & _ & _ & SI).
  assert (HB : forall j, In j (s_ints s) -> (j < s_dim s)%nat) by exact (ints_lt eps b Hwf Hord).
  assert (NK : ~ In k (s_ints s)). { intros X. apply SI in X. destruct X as [(_ & X)|X]; [rewrite Ek in X; contradiction|lia]. }
  assert (X : (length (k :: s_ints s) <= length (seq 0 (s_dim s)))%nat).
  { apply NoDup_incl_length; [constructor; [exact NK|apply ints_nodup]|]. intros x [<-|Hx]; apply in_seq.
    - rewrite D. unfold encoded_dim. lia.
    - specialize (HB x Hx). lia. }
  rewrite seq_length in X. cbn in X. lia.
Qed.
Lemma space_grid : no_real ->
  space_size (s_dim s) (box_lower s) (box_upper s) (s_ints s) = Some (Z.of_nat (length (grid (box_lower s) (box_upper s)))).
Proof.
  intros HN. unfold space_size. destruct (Nat.ltb_spec (length (s_ints s)) (s_dim s)) as [H|H].
  - exfalso. assert (X : (length (seq 0 (s_dim s)) <= length (s_ints s))%nat).
    { apply NoDup_incl_length; [apply seq_NoDup|]. intros x Hx. apply in_seq in Hx. apply all_ints; [exact HN|lia]. }
    rewrite seq_length in X. lia.
  - destruct (box_len eps b Hwf Hord) as [BL BU]. fold s in BL, BU. destruct (box_integral eps b Hwf Hord) as [I1 I2]. fold s in I1, I2.
    f_equal. symmetry. apply len_grid; [congruence|]. intros j Hj. assert (Hj' : (j < s_dim s)%nat) by (unfold point in *; lia).
    split; [apply I1, all_ints; assumption|]. split; [apply I2, all_ints; assumption|]. apply (box_ordered eps b Hwf Hord). exact Hj'.
Qed.

(** Without categorical variables the grid is the set of declared points. *)
Lemma plain_is_free : cat_vars eps b = [] -> plain_vars eps b = free_vars eps b.
Proof.
  unfold plain_vars, cat_vars. generalize (free_vars eps b). induction l as [|i r IH]; cbn; [reflexivity|].
  destruct (categoricalb b i); [discriminate|]. cbn. intros H. f_equal. apply IH. exact H.
Qed.
Lemma nth_inject v k : nth k (map inject_Z v) 0%Q = inject_Z (nth k v 0).
Proof. change 0%Q with (inject_Z 0). apply map_nth. Qed.
Lemma grid_declared : no_real -> cat_vars eps b = [] -> forall v,
  In v (grid (box_lower s) (box_upper s)) <-> declared_free eps b (map inject_Z v).
Proof.
  intros HN HC v. destruct (box_len eps b Hwf Hord) as [BL BU]. fold s in BL, BU.
  pose proof (plain_is_free HC) as PF. assert (DD : s_dim s = length (free_vars eps b)).
  { rewrite D. unfold encoded_dim. rewrite HC, PF. cbn. lia. }
  rewrite in_grid by congruence. rewrite BL, DD. unfold declared_free. rewrite map_length.
  apply and_iff_compat_l.
  assert (X : forall k, (k < length (free_vars eps b))%nat ->
    (nth k (box_lower s) 0 <= inject_Z (nth k v 0%Z) <= nth k (box_upper s) 0)%Q <->
    allowed_value b (nth k (free_vars eps b) 0%nat) (nth k (map inject_Z v) 0%Q)).
  { intros k Hk. rewrite nth_inject. assert (Hk' : (k < length (plain_vars eps b))%nat) by (rewrite PF; exact Hk).
    destruct (box_plain eps b Hwf Hord k Hk') as [E1 E2]. fold s in E1, E2.
    assert (MI : memn k (s_ints s) = true) by (apply memn_In, all_ints; [exact HN|lia]). rewrite MI, PF in E1, E2. rewrite E1, E2.
    assert (FI : In (nth k (free_vars eps b) 0%nat) (free_vars eps b)) by (apply nth_In; exact Hk).
    assert (NC : categoricalb b (nth k (free_vars eps b) 0%nat) = false).
    { destruct (categoricalb _ _) eqn:E; [|reflexivity]. exfalso.
      assert (Y : In (nth k (free_vars eps b) 0%nat) (cat_vars eps b)) by (unfold cat_vars at 1; apply filter_In; split; assumption).
      rewrite HC in Y. destruct Y. }
    specialize (HN _ FI). unfold categoricalb in NC. unfold allowed_value.
    destruct (vtype_of b (nth k (free_vars eps b) 0%nat)); [contradiction|..];
      [|destruct (Qeq_bool _ _); [|discriminate]]; unfold integer_value;
      (split; [intros Y; split; [eexists; reflexivity|exact Y]|intros (_ & Y); exact Y]). }
  split; intros H k Hk; apply X; auto.
Qed.
(** With a categorical variable some grid points encode nothing. *)
Lemma cat_zero_corner : cat_vars eps b <> [] -> forall v, (forall j, (j < s_dim s)%nat -> nth j v 0 = Qfloor (nth j (box_lower s) 0%Q)) ->
  ~ one_hot eps b (map inject_Z v).
Proof.
  intros HC v HV (L & H). assert (Hk : (0 < length (cat_vars eps b))%nat) by (destruct (cat_vars eps b); [congruence|cbn; lia]).
  destruct (H 0%nat Hk) as (j & Hj & E & _). pose proof (block_in eps b Hwf Hord 0 j Hk Hj) as BI. fold s in BI.
  rewrite nth_inject, HV in E by lia. destruct (full_box_cat eps b Hwf Hord _ BI) as [E1 _]. fold s in E1. rewrite E1 in E. discriminate.
Qed.
End Space.
