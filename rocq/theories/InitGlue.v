(** * Initial samples of a problem: feasibility and categorical values. *)
From Verif Require Export InitSample.
From Verif Require Import CatProofs CatCodes CatGlue BaseLemmas.
From Coq Require Import Lia Lqa.
Open Scope Q_scope.

Section Problem.
Context (eps : Q) (b : bbox) (Hwf : well_formed b) (Hord : ordered_bounds eps b).
Let s := construct_problem eps b.
Let uf := free_vars eps b.
Let Hcord : cat_ordered eps b.
Proof. intros i Hi. apply Hord. unfold cat_vars in Hi. apply filter_In in Hi. tauto. Qed.

Lemma plain_In i : In i (plain_vars eps b) -> In i uf.
Proof. unfold plain_vars. rewrite filter_In. tauto. Qed.
Lemma upper_len : length (s_upper s) = s_dim s.
Proof. destruct (structure eps b Hwf Hcord) as (D & LU & _). unfold s in *. lia. Qed.
Lemma plain_dim : (length (plain_vars eps b) <= s_dim s)%nat.
Proof. unfold s. rewrite (dim_spec eps b Hwf Hcord). unfold encoded_dim. lia. Qed.
(** Bounds by kind. *)
Lemma bounds_at j : (j < s_dim s)%nat ->
  ((j < length (plain_vars eps b))%nat /\ nth j (s_lower s) 0 = lower b (nth j (plain_vars eps b) 0%nat) /\
   nth j (s_upper s) 0 = upper b (nth j (plain_vars eps b) 0%nat)) \/
  ((length (plain_vars eps b) <= j)%nat /\ nth j (s_lower s) 0 = 0 /\ nth j (s_upper s) 0 = 1 /\ In j (s_ints s)).
Proof.
  intros Hj. destruct (structure eps b Hwf Hcord) as (D & LU & LW & UP & _ & _ & SI). fold s in D, LU, LW, UP, SI.
  unfold s in *. rewrite D in Hj. destruct (Nat.lt_ge_cases j (length (plain_vars eps b))) as [H|H]; [left|right].
  - split; [exact H|]. rewrite LW, UP. rewrite !app_nth1 by (unfold values_at; rewrite map_length; exact H).
    rewrite !values_nth by exact H. split; reflexivity.
  - split; [exact H|]. unfold encoded_dim in Hj. rewrite LW, UP. rewrite !app_nth2 by (unfold values_at; rewrite map_length; exact H).
    unfold values_at. rewrite !map_length. split; [apply nth_repeat|]. split.
    + rewrite (nth_indep _ 0 1) by (rewrite repeat_length; lia). apply nth_repeat.
    + apply SI. right. unfold encoded_dim. lia.
Qed.
Lemma s_bounds_le j : (j < s_dim s)%nat -> nth j (s_lower s) 0 <= nth j (s_upper s) 0.
Proof.
  intros Hj. destruct (bounds_at j Hj) as [(H & -> & ->)|(_ & -> & -> & _)]; [|lra].
  apply Hord. apply plain_In. apply nth_In. exact H.
Qed.
Lemma ints_lt j : In j (s_ints s) -> (j < s_dim s)%nat.
Proof.
  intros H. destruct (structure eps b Hwf Hcord) as (D & _ & _ & _ & _ & _ & SI). unfold s in *. apply SI in H.
  rewrite D. unfold encoded_dim in *. destruct H as [[H _]|H]; lia.
Qed.
Lemma floor_ceil_le x y : x <= y -> inject_Z (Qfloor x) <= inject_Z (Qceiling y).
Proof. intros H. pose proof (Qfloor_le x). pose proof (Qle_ceiling y). lra. Qed.
Lemma encoded_good_box : good_box (box_lower s) (box_upper s) (s_ints s).
Proof.
  unfold box_lower, box_upper. split.
  - split; [rewrite floor_at_len, ceil_at_len; symmetry; apply upper_len|]. intros j Hj. rewrite floor_at_len in Hj.
    rewrite floor_at_val, ceil_at_val by (rewrite ?upper_len; exact Hj). pose proof (s_bounds_le j Hj) as L.
    destruct (memn _ _); [apply floor_ceil_le; exact L|exact L].
  - intros i Hi. pose proof (ints_lt i Hi) as L. split; [rewrite floor_at_len; exact L|].
    rewrite floor_at_val, ceil_at_val by (rewrite ?upper_len; exact L). cbn [Nat.add]. apply memn_In in Hi. rewrite Hi.
    split; eexists; reflexivity.
Qed.
Lemma box_len : length (box_lower s) = s_dim s /\ length (box_upper s) = s_dim s.
Proof. unfold box_lower, box_upper. rewrite floor_at_len, ceil_at_len. split; [reflexivity|apply upper_len]. Qed.

(** Corner strategies, or no categorical variable. *)
Lemma initial_plain c attempts nodes :
  (is_lhd (i_strategy c) && match s_expansion s with [] => false | _ => true end)%bool = false ->
  (forall a, In a attempts -> good_attempt (requested c s) (s_dim s) a) ->
  initial_sample c s attempts = InitOk nodes ->
  forall p, In p nodes -> feasible (box_lower s) (box_upper s) (s_ints s) p.
Proof.
  intros HC HA H p Hp. unfold initial_sample, initialize_nodes in H. rewrite HC in H.
  fold (box_lower s) (box_upper s) in H. destruct (i_max c =? 0)%nat; [discriminate|].
  apply init_loop_ok in H. destruct H as (a & raw & Ha & Er & -> & _).
  eapply finish_plain; [apply encoded_good_box| |exact Hp].
  intros q Hq. refine (sample_loosely _ _ _ _ _ a raw encoded_good_box _ Er q Hq).
  destruct box_len as [-> _]. apply HA. exact Ha.
Qed.

(** ** Latin hypercubes with categorical variables *)
Context (Hint : integral_categories eps b).
Let lo := take 0 uf (bb_lower b).
Let up := take 0 uf (bb_upper b).
Let ty := take VReal uf (bb_type b).
Let HE : encoded s lo up ty.
Proof. subst s lo up ty uf. rewrite (free_unfixed eps b Hwf). apply construct_encoded. apply wf_iff. exact Hwf. Qed.
Let L : length lo = length uf.
Proof. apply take_length. Qed.
Lemma position i : (i < length uf)%nat ->
  (exists k, (k < length (s_noncat s))%nat /\ i = nth k (s_noncat s) 0%nat) \/
  (exists k, (k < length (s_cat s))%nat /\ i = nth k (s_cat s) 0%nat).
Proof.
  destruct (noncat_cat_partition s lo up ty HE) as (_ & _ & _ & NN & NC). intros Hi.
  destruct (is_cat (nth i (map3 demote ty lo up) VReal)) eqn:B.
  - right. assert (Hc : In i (s_cat s)) by (apply NC; split; [lia|exact B]). destruct (In_nth _ _ 0%nat Hc) as (k & Hk & <-). eauto.
  - left. assert (Hc : In i (s_noncat s)) by (apply NN; split; [lia|exact B]). destruct (In_nth _ _ 0%nat Hc) as (k & Hk & <-). eauto.
Qed.
Definition cat_top (k : nat) : Q := let i := nth k (cat_vars eps b) 0%nat in lower b i + inject_Z (Z.of_nat (num_values b i)) - 1.
Lemma compressed_at :
  length (compress_bounds s (box_lower s)) = length uf /\ length (compress_bounds s (box_upper s)) = length uf /\
  (forall k, (k < length (s_noncat s))%nat -> nth (nth k (s_noncat s) 0%nat) (compress_bounds s (box_lower s)) 0 = nth k (box_lower s) 0 /\
     nth (nth k (s_noncat s) 0%nat) (compress_bounds s (box_upper s)) 0 = nth k (box_upper s) 0) /\
  (forall k, (k < length (s_cat s))%nat -> nth (nth k (s_cat s) 0%nat) (compress_bounds s (box_lower s)) 0 = lower b (nth k (cat_vars eps b) 0%nat) /\
     nth (nth k (s_cat s) 0%nat) (compress_bounds s (box_upper s)) 0 = cat_top k).
Proof.
  destruct box_len as [BL BU].
  destruct (compress_bounds_spec s lo up ty (box_lower s) HE BL) as (CL & CN & CC).
  destruct (compress_bounds_spec s lo up ty (box_upper s) HE BU) as (CL' & CN' & CC').
  split; [lia|]. split; [lia|]. split; [intros k Hk; split; [apply CN|apply CN']; exact Hk|].
  intros k Hk. assert (IN := proj2 (in_expansion eps b Hwf Hcord _ _ _) (ex_intro _ k (conj Hk (conj eq_refl (conj eq_refl eq_refl))))).
  fold s in IN.   rewrite (CC _ _ _ IN), (CC' _ _ _ IN). rewrite seq_length. unfold num_values at 1 3. cbn [seq hd].
  assert (HB : (length (plain_vars eps b) <= block_start eps b k < s_dim s)%nat).
  { unfold s. rewrite (dim_spec eps b Hwf Hcord). unfold block_start, encoded_dim. split; [lia|].
    assert (Hk' : (k < length (cat_vars eps b))%nat) by (rewrite (cat_length eps b Hwf); exact Hk).
    clear - Hk'. revert k Hk'. induction (cat_vars eps b) as [|c r IH]; intros k Hk; cbn [length] in Hk; [lia|].
    destruct k as [|k]; cbn [firstn total_values]; [unfold num_values; lia|]. specialize (IH k ltac:(lia)). lia. }
  destruct (bounds_at (block_start eps b k) ltac:(lia)) as [(H & _)|(_ & E1 & E2 & HI)]; [lia|].
  apply memn_In in HI. unfold box_lower, box_upper.
  rewrite floor_at_val by (fold (s_dim s); lia). rewrite ceil_at_val by (rewrite upper_len; lia). cbn [Nat.add]. rewrite HI, E1, E2.
  split; reflexivity.
Qed.
Lemma top_le k : (k < length (s_cat s))%nat -> let i := nth k (cat_vars eps b) 0%nat in lower b i <= cat_top k <= upper b i.
Proof.
  intros Hk i. assert (Hc : In i (cat_vars eps b)) by (apply nth_In; rewrite (cat_length eps b Hwf); exact Hk).
  pose proof (Hcord i Hc) as Ho. unfold cat_top. fold i. unfold num_values.
  assert (Z0 : (0 <= Qfloor (upper b i - lower b i))%Z) by (change 0%Z with (Qfloor 0); apply Qfloor_resp_le; lra).
  rewrite Nat2Z.inj_succ, Z2Nat.id by exact Z0. unfold Z.succ. rewrite inject_Z_plus. change (inject_Z 1) with 1.
  pose proof (Qfloor_le (upper b i - lower b i)) as F.
  assert (G : 0 <= inject_Z (Qfloor (upper b i - lower b i))) by (change 0 with (inject_Z 0); rewrite <- Zle_Qle; exact Z0). lra.
Qed.
Lemma compressed_good_box : good_box (compress_bounds s (box_lower s)) (compress_bounds s (box_upper s)) (compress_ints s (s_ints s)).
Proof.
  destruct compressed_at as (CL & CU & CN & CC). destruct encoded_good_box as [[_ BO] BI]. destruct box_len as [BL BU].
  assert (NCd : forall k, (k < length (s_noncat s))%nat -> (k < s_dim s)%nat).
  { intros k Hk. pose proof plain_dim as P. rewrite (plain_length eps b Hwf) in P. fold s in P. lia. }
  split.
  - split; [lia|]. intros j Hj. rewrite CL in Hj. destruct (position j Hj) as [(k & Hk & ->)|(k & Hk & ->)].
    + destruct (CN k Hk) as [-> ->]. apply BO. rewrite BL. apply NCd, Hk.
    + destruct (CC k Hk) as [-> ->]. pose proof (top_le k Hk) as T. cbn zeta in T. lra.
  - intros i Hi. rewrite (compress_ints_spec s lo up ty HE) in Hi. apply (where_In _ VReal) in Hi. destruct Hi as [Hi Ht].
    unfold ty in Hi. rewrite take_length in Hi. split; [lia|].
    destruct (position i Hi) as [(k & Hk & ->)|(k & Hk & ->)].
    + destruct (CN k Hk) as [-> ->].
      assert (Hin : In k (s_ints s)).
      { destruct (structure eps b Hwf Hcord) as (_ & _ & _ & _ & _ & _ & SI). apply SI. left.
        split; [rewrite (plain_length eps b Hwf); exact Hk|]. rewrite (plain_nth eps b Hwf k Hk).
        unfold ty in Ht. rewrite nth_take in Ht by (apply (noncat_bound eps b Hwf), nth_In; exact Hk).
        intros E. unfold vtype_of in E. fold uf s in E. rewrite E in Ht. discriminate. }
      destruct (BI k Hin) as (_ & I1 & I2). auto.
    + destruct (CC k Hk) as [-> ->].
      assert (Hc : In (nth k (cat_vars eps b) 0%nat) (cat_vars eps b)) by (apply nth_In; rewrite (cat_length eps b Hwf); exact Hk).
      destruct (Hint _ Hc) as [[z Hz] _]. split; [exists z; exact Hz|]. unfold cat_top.
      exists (z + Z.of_nat (num_values b (nth k (cat_vars eps b) 0%nat)) - 1)%Z. rewrite Hz.
      unfold Z.sub. rewrite !inject_Z_plus. change (inject_Z (Z.opp 1)) with (Qopp 1). ring.
Qed.
(** Complete a point of the free space by the fixed values. *)
Lemma completion x : length x = length uf -> exists y, length y = bb_dim b /\
  (forall i, (i < bb_dim b)%nat -> fixedb eps b i = true -> nth i y 0 = lower b i) /\ values_at uf y = x.
Proof.
  intros Hx. destruct Hwf as [HU HT]. pose proof HU as HU'. unfold bb_dim in HU'.
  assert (LN : length x = nones (mask_of eps b)) by (rewrite Hx; unfold uf; rewrite (free_unfixed eps b Hwf); apply unfixed_count; exact HU').
  exists (merge (mask_of eps b) x).
  assert (ML : length (merge (mask_of eps b) x) = bb_dim b) by (rewrite merge_length by exact LN; apply mask_length; exact HU').
  split; [exact ML|]. split.
  - intros i Hi Hf. apply merge_some; [exact LN|]. rewrite (mask_nth eps b i HU' Hi).
    change (close_pair eps (nth i (bb_lower b) 0, nth i (bb_upper b) 0)) with (fixedb eps b i). rewrite Hf. reflexivity.
  - change (values_at uf) with (take 0 uf). unfold uf. rewrite (free_unfixed eps b Hwf), (unfixed_where eps b HU').
    rewrite take_where_combine by (rewrite ML; symmetry; apply mask_length; exact HU'). apply merge_free. exact LN.
Qed.
Lemma expanded_ok x : feasible (compress_bounds s (box_lower s)) (compress_bounds s (box_upper s)) (compress_ints s (s_ints s)) x ->
  feasible (box_lower s) (box_upper s) (s_ints s) (expand s x) /\ one_hot eps b (expand s x) /\ representable eps b (bb_point s (expand s x)).
Proof.
  intros (FL & FB & FI). destruct compressed_at as (CL & CU & CN & CC). destruct box_len as [BL BU]. rewrite CL in FL, FB.
  destruct (completion x FL) as (y & Ly & Fy & Vy).
  assert (CAT : forall k, (k < length (s_cat s))%nat -> category (lower b (nth k (cat_vars eps b) 0%nat)) (upper b (nth k (cat_vars eps b) 0%nat)) (nth (nth k (s_cat s) 0%nat) x 0)).
  { intros k Hk. set (i := nth k (cat_vars eps b) 0%nat).
    assert (Hin : In (nth k (s_cat s) 0%nat) (s_cat s)) by (apply nth_In; exact Hk).
    pose proof (cat_bound eps b Hwf _ Hin) as Hb. fold uf in Hb.
    assert (Hi : In (nth k (s_cat s) 0%nat) (compress_ints s (s_ints s))).
    { rewrite (compress_ints_spec s lo up ty HE). apply (where_In _ VReal). unfold ty. rewrite take_length. split; [exact Hb|].
      rewrite nth_take by exact Hb. unfold s in Hk. pose proof (cat_nth eps b Hwf k Hk) as Ec. fold uf s in Ec. rewrite <- Ec. fold i.
      assert (Hc : In i (cat_vars eps b)) by (apply nth_In; rewrite (cat_length eps b Hwf); exact Hk).
      unfold cat_vars in Hc. apply filter_In in Hc. destruct Hc as [_ Hc]. unfold categoricalb, vtype_of in Hc.
      destruct (nth i (bb_type b) VReal); [discriminate|discriminate|reflexivity]. }
    destruct (FI _ Hi) as [z Hz]. destruct (FB _ Hb) as [B1 B2]. destruct (CC k Hk) as [E1 E2]. rewrite E1 in B1. rewrite E2 in B2. fold i in B1.
    assert (Hc : In i (cat_vars eps b)) by (apply nth_In; rewrite (cat_length eps b Hwf); exact Hk).
    destruct (Hint i Hc) as [[zl Hl] _]. pose proof (top_le k Hk) as T. cbn zeta in T. fold i in T.
    exists (z - zl)%Z. split; [|split; lra]. unfold Z.sub. rewrite inject_Z_plus, inject_Z_opp. lra. }
  assert (RY : representable eps b y).
  { split; [exact Ly|]. split; [intros i Hi Hf; rewrite (Fy i Hi Hf); reflexivity|].
    intros i Hi. destruct (In_nth _ _ 0%nat Hi) as (k & Hk & <-). rewrite (cat_length eps b Hwf) in Hk. fold s in Hk.
    pose proof (CAT k Hk) as C. rewrite <- Vy in C.
    rewrite (values_nth) in C by (apply (cat_bound eps b Hwf), nth_In; exact Hk).
    rewrite (cat_nth eps b Hwf k Hk). fold uf s. rewrite (cat_nth eps b Hwf k Hk) in C. exact C. }
  destruct (round_trip eps b Hwf Hcord y RY) as (OH & SP & _). fold s uf in OH, SP. rewrite Vy in OH, SP.
  destruct (expand_spec s lo up ty x HE) as (EL & EN & EC).
  split; [|split; [exact OH|]].
  - split; [lia|]. split.
    + intros j Hj. rewrite BL in Hj. destruct (Nat.lt_ge_cases j (length (s_noncat s))) as [H|H].
      * rewrite (EN j H). destruct (CN j H) as [<- <-]. apply FB. apply (noncat_bound eps b Hwf), nth_In. exact H.
      * destruct (bounds_at j Hj) as [(H' & _)|(_ & E1 & E2 & HI)]; [rewrite (plain_length eps b Hwf) in H'; fold s in H'; lia|].
        assert (V : nth j (expand s x) 0 = 0 \/ nth j (expand s x) 0 = 1).
        { destruct (structure eps b Hwf Hcord) as (D & _ & _ & _ & _ & CONC & _). fold s in D, CONC.
          assert (Hj' : In j (concat (map snd (s_expansion s)))).
          { rewrite CONC. apply in_seq. rewrite (plain_length eps b Hwf). fold s. rewrite D in Hj. unfold encoded_dim in Hj.
            rewrite (plain_length eps b Hwf) in Hj. fold s in Hj. lia. }
          apply in_concat in Hj'. destruct Hj' as (ex & Hex & Hjex). apply in_map_iff in Hex.
          destruct Hex as ([[i l] ex'] & <- & Hin'). cbn [snd] in Hjex. destruct (In_nth _ _ 0%nat Hjex) as (q & Hq & <-).
          rewrite (EC i l ex' q Hin' Hq). destruct (Qeq_bool _ _); auto. }
        apply memn_In in HI. unfold box_lower, box_upper.
        rewrite floor_at_val by (fold (s_dim s); lia). rewrite ceil_at_val by (rewrite upper_len; lia). cbn [Nat.add]. rewrite HI, E1, E2.
        destruct V as [-> | ->]; vm_compute; split; discriminate.
    + intros j Hj. pose proof (ints_lt j Hj) as Hd. destruct (Nat.lt_ge_cases j (length (s_noncat s))) as [H|H].
      * rewrite (EN j H). apply FI. rewrite (compress_ints_spec s lo up ty HE). apply (where_In _ VReal). unfold ty. rewrite take_length.
        assert (Hb : (nth j (s_noncat s) 0%nat < length uf)%nat) by (apply (noncat_bound eps b Hwf), nth_In; exact H).
        split; [exact Hb|]. rewrite nth_take by exact Hb.
        destruct (structure eps b Hwf Hcord) as (_ & _ & _ & _ & _ & _ & SI). apply SI in Hj.
        rewrite (plain_length eps b Hwf) in Hj. fold s in Hj. destruct Hj as [[_ Hj]|Hj]; [|lia].
        rewrite (plain_nth eps b Hwf j H) in Hj. fold uf s in Hj. unfold vtype_of in Hj.
        destruct (nth _ (bb_type b) VReal); [congruence|reflexivity|reflexivity].
      * destruct (bounds_at j Hd) as [(H' & _)|(_ & _ & _ & _)]; [rewrite (plain_length eps b Hwf) in H'; fold s in H'; lia|].
        destruct (structure eps b Hwf Hcord) as (D & _ & _ & _ & _ & CONC & _). fold s in D, CONC.
        assert (Hj' : In j (concat (map snd (s_expansion s)))).
        { rewrite CONC. apply in_seq. rewrite (plain_length eps b Hwf). fold s. rewrite D in Hd. unfold encoded_dim in Hd.
          rewrite (plain_length eps b Hwf) in Hd. fold s in Hd. lia. }
        apply in_concat in Hj'. destruct Hj' as (ex & Hex & Hjex). apply in_map_iff in Hex.
        destruct Hex as ([[i l] ex'] & <- & Hin'). cbn [snd] in Hjex. destruct (In_nth _ _ 0%nat Hjex) as (q & Hq & <-).
        rewrite (EC i l ex' q Hin' Hq). destruct (Qeq_bool _ _); [exists 1%Z|exists 0%Z]; reflexivity.
  - destruct SP as [S1 S2]. destruct RY as (R1 & R2 & R3). assert (LB : length (bb_point s (expand s x)) = bb_dim b) by lia.
    split; [exact LB|]. split.
    + intros i Hi Hf. rewrite (S2 i) by lia. apply R2; assumption.
    + intros i Hi. destruct (R3 i Hi) as (z & A1 & A2 & A3). exists z.
      assert (Hlt : (i < bb_dim b)%nat). { unfold cat_vars in Hi. apply filter_In in Hi. apply free_lt with (eps := eps). tauto. }
      rewrite (S2 i) by lia. auto.
Qed.
Lemma initial_cat c attempts nodes :
  (is_lhd (i_strategy c) && match s_expansion s with [] => false | _ => true end)%bool = true ->
  (forall a, In a attempts -> good_attempt (requested c s) (sampled_dim c s) a) ->
  initial_sample c s attempts = InitOk nodes ->
  forall p, In p nodes -> feasible (box_lower s) (box_upper s) (s_ints s) p /\ one_hot eps b p /\ representable eps b (bb_point s p).
Proof.
  intros HC HA H p Hp. unfold initial_sample, initialize_nodes in H. rewrite HC in H.
  fold (box_lower s) (box_upper s) in H. destruct (i_max c =? 0)%nat; [discriminate|].
  apply init_loop_ok in H. destruct H as (a & raw & Ha & Er & -> & _).
  rewrite finish_cat in Hp. apply in_map_iff in Hp. destruct Hp as (x & <- & Hx). apply expanded_ok.
  eapply finish_plain; [apply compressed_good_box| |exact Hx].
  intros q Hq. refine (sample_loosely _ _ _ _ _ a raw compressed_good_box _ Er q Hq).
  destruct box_len as [-> _]. destruct compressed_at as (-> & _).
  specialize (HA a Ha). unfold sampled_dim in HA. rewrite HC in HA.
  destruct (noncat_cat_partition s lo up ty HE) as (_ & _ & NL & _). rewrite <- L, <- NL. exact HA.
Qed.
End Problem.
