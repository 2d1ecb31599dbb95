From Verif Require Import SpecGA GAProofs InitProofs InitSample InitGlue CatProofs CatCodes CatGlue BaseLemmas.
From Coq Require Import Lia Lqa.
Open Scope Q_scope.

Section Problem.
Context (eps : Q) (b : bbox) (Hwf : well_formed b) (Hord : ordered_bounds eps b) (Hint : integral_categories eps b).
Local Notation s := (construct_problem eps b).
Local Notation uf := (free_vars eps b).
Let Hcord : cat_ordered eps b.
Proof. intros i Hi. apply Hord. unfold cat_vars in Hi. apply filter_In in Hi. tauto. Qed.
Let lo := take 0 uf (bb_lower b).
Let up := take 0 uf (bb_upper b).
Let ty := take VReal uf (bb_type b).
Let HE : encoded s lo up ty.
Proof. subst lo up ty. rewrite (free_unfixed eps b Hwf). apply construct_encoded. apply wf_iff. exact Hwf. Qed.
Let L : length lo = length uf.
Proof. apply take_length. Qed.
Context (l u : point) (HB : search_box eps b l u).

Lemma sub_good_box : good_box l u (s_ints s).
Proof.
  destruct HB as (L1 & L2 & BO & BI & _). split; [split; [lia|]|].
  - intros j Hj. apply BO. lia.
  - intros i Hi. pose proof (ints_lt eps b Hwf Hord i Hi) as HL. split; [lia|]. apply BI, Hi.
Qed.
Lemma block_bound k : (k < length (s_cat s))%nat -> (length (plain_vars eps b) <= block_start eps b k < s_dim s)%nat.
Proof.
  intros Hk. rewrite (dim_spec eps b Hwf Hcord). unfold block_start, encoded_dim. split; [lia|].
  assert (Hk' : (k < length (cat_vars eps b))%nat) by (rewrite (cat_length eps b Hwf); exact Hk).
  clear - Hk'. revert k Hk'. induction (cat_vars eps b) as [|c r IH]; intros k Hk; cbn [length] in Hk; [lia|].
  destruct k as [|k]; cbn [firstn total_values]; [unfold num_values; lia|]. specialize (IH k ltac:(lia)). lia.
Qed.
Lemma sub_at :
  length (compress_bounds s l) = length uf /\ length (compress_bounds s u) = length uf /\
  (forall k, (k < length (s_noncat s))%nat -> nth (nth k (s_noncat s) 0%nat) (compress_bounds s l) 0 = nth k l 0 /\
     nth (nth k (s_noncat s) 0%nat) (compress_bounds s u) 0 = nth k u 0) /\
  (forall k, (k < length (s_cat s))%nat -> nth (nth k (s_cat s) 0%nat) (compress_bounds s l) 0 = lower b (nth k (cat_vars eps b) 0%nat) /\
     nth (nth k (s_cat s) 0%nat) (compress_bounds s u) 0 = cat_top eps b k).
Proof.
  destruct HB as (BL & BU & _ & _ & OPEN).
  destruct (compress_bounds_spec s lo up ty l HE BL) as (CL & CN & CC).
  destruct (compress_bounds_spec s lo up ty u HE BU) as (CL' & CN' & CC').
  split; [lia|]. split; [lia|]. split; [intros k Hk; split; [apply CN|apply CN']; exact Hk|].
  intros k Hk. assert (IN := proj2 (in_expansion eps b Hwf Hcord _ _ _) (ex_intro _ k (conj Hk (conj eq_refl (conj eq_refl eq_refl))))).
  rewrite (CC _ _ _ IN), (CC' _ _ _ IN). rewrite seq_length. unfold num_values at 1 3. cbn [seq hd].
  destruct (OPEN _ (block_bound k Hk)) as [O1 O2].
  replace (Qeq_bool (nth (block_start eps b k) l 0) 0) with true by (symmetry; apply Qeq_bool_iff; exact O1).
  replace (Qeq_bool (nth (block_start eps b k) u 0) 0) with false.
  - split; reflexivity.
  - symmetry. destruct (Qeq_bool _ 0) eqn:E; [|reflexivity]. apply Qeq_bool_iff in E. rewrite E in O2. discriminate.
Qed.
Lemma plain_lt k : (k < length (s_noncat s))%nat -> (k < s_dim s)%nat.
Proof. intros Hk. pose proof (plain_dim eps b Hwf Hord) as P. rewrite (plain_length eps b Hwf) in P. lia. Qed.
Lemma sub_in_full x : feasible (compress_bounds s l) (compress_bounds s u) (compress_ints s (s_ints s)) x ->
  feasible (compress_bounds s (box_lower s)) (compress_bounds s (box_upper s)) (compress_ints s (s_ints s)) x.
Proof.
  intros (FL & FB & FI). destruct sub_at as (CL & CU & CN & CC). destruct (compressed_at eps b Hwf Hord) as (CL' & CU' & CN' & CC').
  destruct HB as (BL & BU & BO & _).
  split; [lia|]. split; [|exact FI]. intros j Hj. rewrite CL' in Hj. rewrite CL in FB. specialize (FB j Hj).
  destruct (position eps b Hwf j Hj) as [(k & Hk & ->)|(k & Hk & ->)].
  - destruct (CN k Hk) as [E1 E2]. destruct (CN' k Hk) as [E3 E4]. rewrite E1, E2 in FB. rewrite E3, E4.
    destruct (BO k (plain_lt k Hk)) as (B1 & B2 & B3). lra.
  - destruct (CC k Hk) as [E1 E2]. destruct (CC' k Hk) as [E3 E4]. rewrite E1, E2 in FB. rewrite E3, E4. exact FB.
Qed.
Lemma sub_compressed_good : good_box (compress_bounds s l) (compress_bounds s u) (compress_ints s (s_ints s)).
Proof.
  destruct sub_at as (CL & CU & CN & CC). destruct (compressed_at eps b Hwf Hord) as (CL' & CU' & CN' & CC').
  destruct (compressed_good_box eps b Hwf Hord Hint) as [[_ FO] FI].
  destruct sub_good_box as [[_ BO] BI]. assert (BL := proj1 HB).
  split; [split; [lia|]|].
  - intros j Hj. rewrite CL in Hj. rewrite CL' in FO. specialize (FO j Hj).
    destruct (position eps b Hwf j Hj) as [(k & Hk & ->)|(k & Hk & ->)].
    + destruct (CN k Hk) as [-> ->]. apply BO. rewrite BL. apply plain_lt, Hk.
    + destruct (CC k Hk) as [-> ->]. destruct (CC' k Hk) as [E3 E4]. rewrite E3, E4 in FO. exact FO.
  - intros i Hi. destruct (FI i Hi) as (HL & I1 & I2). rewrite CL' in HL. split; [lia|].
    destruct (position eps b Hwf i HL) as [(k & Hk & E)|(k & Hk & E)]; subst i.
    + destruct (CN k Hk) as [-> ->].
      assert (Hin : In k (s_ints s)).
      { destruct (structure eps b Hwf Hcord) as (_ & _ & _ & _ & _ & _ & SI). apply SI. left.
        split; [rewrite (plain_length eps b Hwf); exact Hk|]. rewrite (plain_nth eps b Hwf k Hk).
        rewrite (compress_ints_spec s lo up ty HE) in Hi. apply (where_In _ VReal) in Hi. destruct Hi as [_ Ht].
        unfold ty in Ht. rewrite nth_take in Ht by (apply (noncat_bound eps b Hwf), nth_In; exact Hk).
        intros E. unfold vtype_of in E. rewrite E in Ht. discriminate. }
      destruct (BI k Hin) as (_ & J1 & J2). auto.
    + destruct (CC k Hk) as [-> ->]. destruct (CC' k Hk) as [E3 E4]. rewrite E3 in I1. rewrite E4 in I2. auto.
Qed.
Lemma full_box_cat j : (length (plain_vars eps b) <= j < s_dim s)%nat -> nth j (box_lower s) 0 == 0 /\ nth j (box_upper s) 0 == 1.
Proof.
  intros Hj. destruct (bounds_at eps b Hwf Hord j (proj2 Hj)) as [(H & _)|(_ & E1 & E2 & HI)]; [lia|].
  apply memn_In in HI. unfold box_lower, box_upper. pose proof (upper_len eps b Hwf Hord) as UL.
  rewrite floor_at_val by (fold (s_dim s); lia). rewrite ceil_at_val by (rewrite UL; lia). cbn [Nat.add]. rewrite HI, E1, E2.
  split; reflexivity.
Qed.
Lemma sub_expanded x : feasible (compress_bounds s l) (compress_bounds s u) (compress_ints s (s_ints s)) x ->
  feasible l u (s_ints s) (expand s x) /\ one_hot eps b (expand s x) /\ representable eps b (bb_point s (expand s x)).
Proof.
  intros F. destruct (expanded_ok eps b Hwf Hord Hint x (sub_in_full x F)) as ((E1 & E2 & E3) & OH & RP).
  split; [|auto]. destruct (box_len eps b Hwf Hord) as [FBL _].
  destruct HB as (BL & BU & BO & BI & OPEN). split; [lia|]. split; [|exact E3].
  intros j Hj. rewrite BL in Hj. destruct (Nat.lt_ge_cases j (length (s_noncat s))) as [H|H].
  - destruct (expand_spec s lo up ty x HE) as (EL & EN & EC). rewrite (EN j H). destruct sub_at as (CL & CU & CN & CC).
    destruct (CN j H) as [<- <-]. destruct F as (_ & FB & _). apply FB. rewrite CL. apply (noncat_bound eps b Hwf), nth_In. exact H.
  - assert (PJ : (length (plain_vars eps b) <= j < s_dim s)%nat) by (rewrite (plain_length eps b Hwf); fold s; lia).
    destruct (OPEN j PJ) as [-> ->]. destruct (full_box_cat j PJ) as [B1 B2]. specialize (E2 j ltac:(lia)). rewrite B1, B2 in E2. exact E2.
Qed.
Lemma sub_category x : feasible (compress_bounds s l) (compress_bounds s u) (compress_ints s (s_ints s)) x ->
  length x = length uf /\ forall k, (k < length (cat_vars eps b))%nat ->
  category (lower b (nth k (cat_vars eps b) 0%nat)) (upper b (nth k (cat_vars eps b) 0%nat)) (nth (nth k (s_cat s) 0%nat) x 0).
Proof.
  intros (FL & FB & FI). destruct sub_at as (CL & CU & CN & CC). rewrite CL in FB, FL. split; [exact FL|].
  intros k Hk. rewrite (cat_length eps b Hwf) in Hk. set (i := nth k (cat_vars eps b) 0%nat).
  assert (Hin : In (nth k (s_cat s) 0%nat) (s_cat s)) by (apply nth_In; exact Hk).
  pose proof (cat_bound eps b Hwf _ Hin) as Hb.
  assert (Hi : In (nth k (s_cat s) 0%nat) (compress_ints s (s_ints s))).
  { rewrite (compress_ints_spec s lo up ty HE). apply (where_In _ VReal). unfold ty. rewrite take_length. split; [exact Hb|].
    rewrite nth_take by exact Hb. pose proof (cat_nth eps b Hwf k Hk) as Ec. rewrite <- Ec. fold i.
    assert (Hc : In i (cat_vars eps b)) by (apply nth_In; rewrite (cat_length eps b Hwf); exact Hk).
    unfold cat_vars in Hc. apply filter_In in Hc. destruct Hc as [_ Hc]. unfold categoricalb, vtype_of in Hc.
    destruct (nth i (bb_type b) VReal); [discriminate|discriminate|reflexivity]. }
  destruct (FI _ Hi) as [z Hz]. destruct (FB _ Hb) as [B1 B2]. destruct (CC k Hk) as [E1 E2]. rewrite E1 in B1. rewrite E2 in B2. fold i in B1.
  assert (Hc : In i (cat_vars eps b)) by (apply nth_In; rewrite (cat_length eps b Hwf); exact Hk).
  destruct (Hint i Hc) as [[zl Hl] _]. pose proof (top_le eps b Hwf Hord k Hk) as T. cbn zeta in T. fold i in T.
  exists (z - zl)%Z. split; [|split; lra]. unfold Z.sub. rewrite inject_Z_plus, inject_Z_opp. lra.
Qed.
Lemma take_same idx x y : (forall i, In i idx -> (i < length y)%nat) -> same_point x y -> same_point (take 0 idx x) (take 0 idx y).
Proof.
  intros H [SL SE]. split; [rewrite !take_length; reflexivity|]. intros i Hi. rewrite take_length in Hi.
  rewrite !nth_take by exact Hi. apply SE. rewrite SL. apply H, nth_In, Hi.
Qed.
Lemma expand_same x y : length x = length uf -> same_point y x -> same_point (expand s y) (expand s x).
Proof.
  intros Lx [SL SE]. destruct (expand_spec s lo up ty x HE) as (EL & EN & EC). destruct (expand_spec s lo up ty y HE) as (EL' & EN' & EC').
  split; [lia|]. intros j Hj. rewrite EL' in Hj. destruct (Nat.lt_ge_cases j (length (s_noncat s))) as [H|H].
  - rewrite (EN j H), (EN' j H). apply SE. rewrite SL, Lx. apply (noncat_bound eps b Hwf), nth_In, H.
  - destruct (structure eps b Hwf Hcord) as (D & _ & _ & _ & _ & CONC & _).
    assert (Hj' : In j (concat (map snd (s_expansion s)))).
    { rewrite CONC. apply in_seq. rewrite (plain_length eps b Hwf). rewrite D in Hj. unfold encoded_dim in Hj.
      rewrite (plain_length eps b Hwf) in Hj. lia. }
    apply in_concat in Hj'. destruct Hj' as (ex & Hex & Hjex). apply in_map_iff in Hex.
    destruct Hex as ([[i l0] ex'] & <- & Hin'). cbn [snd] in Hjex. destruct (In_nth _ _ 0%nat Hjex) as (q & Hq & <-).
    rewrite (EC i l0 ex' q Hin' Hq), (EC' i l0 ex' q Hin' Hq).
    apply (in_expansion eps b Hwf Hcord) in Hin'. destruct Hin' as (k & Hk & -> & -> & _).
    assert (E : nth (nth k (s_cat s) 0%nat) y 0 == nth (nth k (s_cat s) 0%nat) x 0).
    { apply SE. rewrite SL, Lx. apply (cat_bound eps b Hwf), nth_In, Hk. }
    rewrite E. reflexivity.
Qed.
Let sp := search_space s l u (s_ints s).
Lemma sp_good : good_box (sp_lower sp) (sp_upper sp) (sp_ints sp).
Proof. unfold sp, search_space. destruct (has_categories s); [apply sub_compressed_good|apply sub_good_box]. Qed.
Lemma sp_round x : feas sp x -> same_point (sp_dec sp (sp_enc sp x)) x.
Proof.
  unfold feas, sp, search_space. destruct (has_categories s) eqn:HC; cbn [sp_lower sp_upper sp_ints sp_enc sp_dec]; [|intros; apply same_point_refl].
  intros F. destruct (sub_category x F) as [Lx C]. destruct (encode_decode eps b Hwf Hcord x Lx C) as (_ & _ & R).
  unfold returned_point in R. unfold has_categories in HC. destruct (s_expansion s); [discriminate|exact R].
Qed.
Lemma sp_resp x y : feas sp x -> same_point y x -> same_point (sp_enc sp y) (sp_enc sp x).
Proof.
  unfold feas, sp, search_space. destruct (has_categories s) eqn:HC; cbn [sp_lower sp_upper sp_ints sp_enc sp_dec]; [|auto].
  intros F S. destruct (sub_category x F) as [Lx _]. apply expand_same; assumption.
Qed.
Lemma no_cats : has_categories s = false -> cat_vars eps b = [].
Proof.
  unfold has_categories. intros H. pose proof (expansion_length eps b Hwf) as E. destruct (s_expansion s); [|discriminate].
  pose proof (cat_length eps b Hwf) as C. destruct (cat_vars eps b); [reflexivity|]. cbn in *. lia.
Qed.
Lemma coded_ok p : coded sp p -> feasible l u (s_ints s) p /\ one_hot eps b p.
Proof.
  intros (x & Hx & ->). unfold feas, sp, search_space in *. destruct (has_categories s) eqn:HC; cbn [sp_lower sp_upper sp_ints sp_enc sp_dec] in *.
  - destruct (sub_expanded x Hx) as (A & B & _). auto.
  - split; [exact Hx|]. split.
    + destruct Hx as [HL _]. rewrite HL. rewrite (proj1 HB). apply (dim_spec eps b Hwf Hcord).
    + rewrite (no_cats HC). cbn. intros; lia.
Qed.
Lemma ga_invariant base N objfun rows gens :
  let pop := ga_population sp base (s_dim s) rows gens in
  (0 < s_dim s)%nat -> (forall m, length (objfun m) = length m) ->
  uniform_rows (population_size base (s_dim s)) (sp_dim sp) rows ->
  run_ok sp base (s_dim s) N 0 objfun (generate_sample_points sp rows) gens ->
  length pop = population_size base (s_dim s) /\
  forall p, In p pop -> feasible l u (s_ints s) p /\ one_hot eps b p.
Proof.
  intros pop Hd HO HR HG.
  destruct (run_population sp sp_good sp_round base (s_dim s) N objfun gens 0 (generate_sample_points sp rows)) as [A B]; auto.
  - unfold generate_sample_points. rewrite map_length. apply HR.
  - eapply samples_coded; [exact sp_good|exact HR].
  - split; [exact A|]. intros p Hp. apply coded_ok, B, Hp.
Qed.
Lemma ga_best base N objfun f rows gens gens' :
  (0 < s_dim s)%nat -> fixed_scoring f objfun ->
  uniform_rows (population_size base (s_dim s)) (sp_dim sp) rows ->
  run_ok sp base (s_dim s) N 0 objfun (generate_sample_points sp rows) (gens ++ gens') ->
  forall p, In p (ga_population sp base (s_dim s) rows gens) ->
  exists q, In q (ga_population sp base (s_dim s) rows (gens ++ gens')) /\ xle (f q) (f p) = true.
Proof.
  intros Hd HF HR HG p Hp. unfold ga_population in *. rewrite fold_left_app.
  assert (SPLIT : forall g1 g2 gen population, run_ok sp base (s_dim s) N gen objfun population (g1 ++ g2) ->
    run_ok sp base (s_dim s) N gen objfun population g1 /\
    run_ok sp base (s_dim s) N (gen + length g1) objfun (fold_left (generation sp base (s_dim s)) g1 population) g2).
  { induction g1 as [|d g1 IH]; intros g2 gen population H; cbn [app run_ok fold_left length] in *; [rewrite Nat.add_0_r; auto|].
    destruct H as [H1 H2]. destruct (IH _ _ _ H2) as [A B]. replace (gen + S (length g1))%nat with (S gen + length g1)%nat by lia. auto. }
  destruct (SPLIT _ _ _ _ HG) as [G1 G2].
  assert (HO : forall m, length (objfun m) = length m) by (intros m; rewrite (proj1 HF); apply map_length).
  destruct (run_population sp sp_good sp_round base (s_dim s) N objfun gens 0 (generate_sample_points sp rows)) as [A B]; auto.
  - unfold generate_sample_points. rewrite map_length. apply HR.
  - eapply samples_coded; [exact sp_good|exact HR].
  - exact (run_best sp sp_good sp_round sp_resp base (s_dim s) N objfun f gens' _ _ Hd HF A B G2 p Hp).
Qed.
End Problem.
