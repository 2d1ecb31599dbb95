(** * The constructor as a whole; encoded points and the user's domain. *)
From Coq Require Import Lia Lqa.
From Verif Require Import AlgGlue RegionProofs CatProofs CatCodes CatGlue InitProofs InitGlue GAGlue SettingsProofs SettingsGlue SpecProblem.
Open Scope string_scope.
Open Scope Q_scope.

Notation bbpt := ModelCategorical.bb_point.

(** ** Inversion of the constructor *)
Lemma cbind_ok {A B} (r : cres A) (f : A -> cres B) b : cbind r f = COk b -> exists a, r = COk a /\ f a = COk b.
Proof. destruct r as [a|e]; cbn; intros H; [eauto|discriminate]. Qed.
Lemma cassert_ok b x : cassert b = COk x -> b = true.
Proof. destruct b; cbn; [auto|discriminate]. Qed.

Record reads (d : dict) (c : cfg) : Prop := mkReads {
  rd_it : get_int "max_iterations" d = COk (max_iterations c);
  rd_ev : get_int "max_evaluations" d = COk (max_evaluations c);
  rd_cy : get_int "max_cycles" d = COk (max_cycles c);
  rd_ne : get_int "max_noisy_evaluations" d = COk (max_noisy_evaluations c);
  rd_nr : get_int "max_noisy_restarts" d = COk (max_noisy_restarts c);
  rd_ni : get_int "max_noisy_iterations" d = COk (max_noisy_iterations c);
  rd_opt : get_num "eps_opt" d = COk (eps_opt c);
  rd_zero : get_num "eps_zero" d = COk (eps_zero c);
  rd_impr : get_num "eps_impr" d = COk (eps_impr c);
  rd_dist : get_num "min_dist" d = COk (min_dist c);
  rd_target : get_num "target_objval" d = COk (target_objval c);
  rd_inf : get_bool "do_infstep" d = COk (do_infstep c);
  rd_loc : get_bool "do_local_search" d = COk (do_local_search c);
  rd_ngs : get_int "num_global_searches" d = COk (num_global_searches c);
  rd_dws : get_int "discarded_window_size" d = COk (discarded_window_size c);
  rd_cpus : get_int "num_cpus" d = COk (num_cpus c);
  rd_mfd : get_num "max_fraction_discarded" d = COk (max_fraction_discarded c);
  rd_msi : get_int "max_stalled_iterations" d = COk (max_stalled_iterations c);
  rd_rfr : get_int "refinement_frequency" d = COk (refinement_frequency c);
  rd_mcr : get_int "max_consecutive_refinement" d = COk (max_consecutive_refinement c);
  rd_tur : get_num "thresh_unlimited_refinement" d = COk (thresh_unlimited_refinement c);
  rd_turs : get_num "thresh_unlimited_refinement_stalled" d = COk (thresh_unlimited_refinement_stalled c);
  rd_rmin : get_num "ref_min_radius" d = COk (ref_min_radius c);
  rd_rsh : get_num "ref_acceptable_decrease_shrink" d = COk (ref_shrink c);
  rd_ren : get_num "ref_acceptable_decrease_enlarge" d = COk (ref_enlarge c);
  rd_rmv : get_num "ref_acceptable_decrease_move" d = COk (ref_movethr c);
  rd_mcrs : get_int "max_consecutive_restoration" d = COk (max_consecutive_restoration c);
  rd_frac : get_num "init_sample_fraction" d = COk (init_sample_fraction c);
  rd_ssi : get_int "save_state_interval" d = COk (save_state_interval c) }.

Lemma assemble_ok d s noisy u c : assemble d s noisy u = COk c ->
  exists ups, match u_pos u with None => COk [] | Some ps => expand_all s (rows_of ps) end = COk ups /\
  reads d c /\ n c = s_dim s /\ var_lower c = box_lower s /\ var_upper c = box_upper s /\ integer_vars c = s_ints s /\
  affine c = is_str "domain_scaling" "affine" d /\
  search_space_size c = space_size (s_dim s) (box_lower s) (box_upper s) (s_ints s) /\
  has_noisy c = noisy /\ init_node_pos c = ups /\
  init_node_val c = match u_val u with None => [] | Some vs => vs end /\ do_init_strategy c = u_init u.
Proof.
  intros H. unfold assemble in H.
  repeat match type of H with cbind _ _ = COk _ => let a := fresh "a" in let E := fresh "E" in
    apply cbind_ok in H; destruct H as (a & E & H) end.
  injection H as <-. eexists. split; [exact E|]. repeat split; assumption.
Qed.
Lemma make_ok d b noisy u c : make_algorithm d b noisy u = COk c ->
  exists eps frac d', check_bb b = true /\ get_num "eps_zero" d = COk eps /\ check_values u = true /\
    get_num "init_sample_fraction" d = COk frac /\ let s := construct_problem eps b in
    check_enough u frac (s_dim s) = true /\
    set_auto_parameters (s_dim s) (s_lower s) (s_upper s) (s_ints s) d = SOk d' /\ assemble d' s noisy u = COk c.
Proof.
  unfold make_algorithm. intros H.
  apply cbind_ok in H. destruct H as (x1 & H1 & H). apply cbind_ok in H. destruct H as (eps & H2 & H).
  apply cbind_ok in H. destruct H as (x2 & H3 & H). apply cbind_ok in H. destruct H as (frac & H4 & H).
  apply cbind_ok in H. destruct H as (x3 & H5 & H). apply cassert_ok in H1, H3, H5.
  destruct (set_auto_parameters _ _ _ _ _) as [d'|e] eqn:E; [|discriminate].
  exists eps, frac, d'. repeat split; auto.
Qed.
Lemma check_bb_wf b : check_bb b = true -> SpecCategorical.well_formed b /\ (1 <= bb_dim b)%nat.
Proof.
  unfold check_bb. rewrite !Bool.andb_true_iff, !Nat.eqb_eq, Nat.leb_le. intros ((H1 & H2) & H3). split; [split; auto|auto].
Qed.
Lemma get_num_same k d d' : lookup k d' = lookup k d -> get_num k d' = get_num k d.
Proof. intros H. unfold get_num. rewrite H. reflexivity. Qed.
Lemma get_int_same k d d' : lookup k d' = lookup k d -> get_int k d' = get_int k d.
Proof. intros H. unfold get_int. rewrite (get_num_same _ _ _ H). reflexivity. Qed.
Lemma get_num_setting k d v : get_num k d = COk v -> setting d k v.
Proof.
  unfold get_num, setting. destruct (lookup k d) as [[q|s|x]|]; intros H; try discriminate; injection H as <-; [left; reflexivity|right; eauto].
Qed.
Lemma get_int_setting k d v : get_int k d = COk v -> exists q, setting d k q /\ q == inject_Z v.
Proof.
  intros H. unfold get_int in H. apply cbind_ok in H. destruct H as (q & Hq & H). exists q. split; [apply get_num_setting; exact Hq|].
  destruct (Qeq_bool q _) eqn:E; [|discriminate]. injection H as <-. apply Qeq_bool_iff. exact E.
Qed.

(** ** Encoded points *)
Section Problem.
Variables (eps : Q) (b : bbox).
Hypotheses (Hwf : SpecCategorical.well_formed b) (Hord : ordered_bounds eps b).
Let s := construct_problem eps b.
Let Hcord : cat_ordered eps b.
Proof. intros i Hi. apply Hord. unfold cat_vars in Hi. apply filter_In in Hi. tauto. Qed.
Let D : s_dim s = encoded_dim eps b. Proof. exact (dim_spec eps b Hwf Hcord). Qed.

Lemma plain_int k : (k < length (plain_vars eps b))%nat ->
  memn k (s_ints s) = true <-> vtype_of b (nth k (plain_vars eps b) 0%nat) <> VReal.
Proof.
  intros Hk. rewrite memn_In. destruct (structure eps b Hwf Hcord) as (_ & _ & _ & _ & _ & _ & SI). fold s in SI. rewrite SI.
  split; [intros [[_ H]|H]; [exact H|lia]|left; auto].
Qed.
Lemma box_plain k : (k < length (plain_vars eps b))%nat ->
  nth k (box_lower s) 0 = (if memn k (s_ints s) then inject_Z (Qfloor (lower b (nth k (plain_vars eps b) 0%nat))) else lower b (nth k (plain_vars eps b) 0%nat)) /\
  nth k (box_upper s) 0 = (if memn k (s_ints s) then inject_Z (Qceiling (upper b (nth k (plain_vars eps b) 0%nat))) else upper b (nth k (plain_vars eps b) 0%nat)).
Proof.
  intros Hk. assert (HD : (k < s_dim s)%nat) by (rewrite D; unfold encoded_dim; lia).
  destruct (bounds_at eps b Hwf Hord k HD) as [(_ & E1 & E2)|(H & _)]; [|lia]. fold s in E1, E2.
  pose proof (upper_len eps b Hwf Hord) as UL. fold s in UL.
  unfold box_lower, box_upper. rewrite floor_at_val by exact HD. rewrite ceil_at_val by (rewrite UL; exact HD). cbn [Nat.add].
  fold (memn k (s_ints s)). rewrite E1, E2. split; reflexivity.
Qed.
Lemma block_in k j : (k < length (cat_vars eps b))%nat -> (j < num_values b (nth k (cat_vars eps b) 0%nat))%nat ->
  (length (plain_vars eps b) <= block_start eps b k + j < s_dim s)%nat.
Proof.
  intros Hk Hj. rewrite D. unfold block_start, encoded_dim. split; [lia|].
  assert (X : forall l k, (k < length l)%nat -> (total_values b (firstn k l) + num_values b (nth k l 0%nat) <= total_values b l)%nat).
  { clear. induction l as [|a l IH]; intros [|k] H; cbn [length firstn nth total_values] in *; try lia. specialize (IH k ltac:(lia)). lia. }
  specialize (X _ _ Hk). lia.
Qed.
Lemma encodes_one_hot q : encodes eps b q -> one_hot eps b q.
Proof.
  intros (L & _ & H). split; [exact L|]. intros k Hk. destruct (H k Hk) as (j & Hj & E & O). exists j. split; [exact Hj|]. split; [exact E|].
  intros j' Hj' Hne E'. specialize (O j' Hj' Hne). rewrite O in E'. discriminate.
Qed.
Lemma encodes_integral q : encodes eps b q -> integer_at (s_ints s) q.
Proof.
  intros (L & HP & HC) j Hj. destruct (structure eps b Hwf Hcord) as (_ & _ & _ & _ & _ & CC & SI). fold s in SI, CC.
  pose proof Hj as Hj'. apply SI in Hj'. destruct Hj' as [[J1 J2]|J]; [exact (HP j J1 J2)|].
  assert (HB : exists k r, (k < length (cat_vars eps b))%nat /\ (r < num_values b (nth k (cat_vars eps b) 0%nat))%nat /\ j = (block_start eps b k + r)%nat).
  { unfold encoded_dim, block_start in *. revert J. generalize (length (plain_vars eps b)). intros m J.
    assert (X : forall l t, (t < total_values b l)%nat -> exists k r, (k < length l)%nat /\ (r < num_values b (nth k l 0%nat))%nat /\ t = (total_values b (firstn k l) + r)%nat).
    { clear. induction l as [|a l IH]; intros t Ht; cbn [total_values] in Ht; [lia|].
      destruct (Nat.lt_ge_cases t (num_values b a)) as [H|H].
      - exists 0%nat, t. cbn. repeat split; auto; lia.
      - destruct (IH (t - num_values b a)%nat ltac:(lia)) as (k & r & H1 & H2 & H3). exists (S k), r. cbn [length nth firstn total_values].
        repeat split; [lia|exact H2|lia]. }
    destruct (X (cat_vars eps b) (j - m)%nat ltac:(lia)) as (k & r & H1 & H2 & H3). exists k, r. repeat split; auto; lia. }
  destruct HB as (k & r & Hk & Hr & ->). destruct (HC k Hk) as (a & Ha & E & O).
  destruct (Nat.eq_dec r a) as [->|Hne]; [exists 1%Z; exact E|exists 0%Z; exact (O r Hr Hne)].
Qed.
(** A feasible point with one active entry per block is an encoded point. *)
Lemma feasible_encodes q : feasible (box_lower s) (box_upper s) (s_ints s) q -> one_hot eps b q -> encodes eps b q.
Proof.
  intros (FL & FB & FI) (L & H). split; [exact L|]. split.
  - intros k Hk Hv. apply FI. apply memn_In. apply plain_int; assumption.
  - intros k Hk. destruct (H k Hk) as (j & Hj & E & O). exists j. split; [exact Hj|]. split; [exact E|].
    intros j' Hj' Hne. pose proof (block_in k j' Hk Hj') as BI. destruct (box_len eps b Hwf Hord) as [BL _]. fold s in BL.
    pose proof (FB _ ltac:(rewrite BL; exact (proj2 BI))) as B. destruct (full_box_cat eps b Hwf Hord _ BI) as [E1 E2]. fold s in E1, E2. rewrite E1, E2 in B.
    assert (II : integral (nth (block_start eps b k + j') q 0)).
    { apply FI. destruct (structure eps b Hwf Hcord) as (_ & _ & _ & _ & _ & _ & SI). apply SI. right. rewrite <- D. exact BI. }
    destruct II as (z & Hz). rewrite Hz in B. specialize (O j' Hj' Hne). rewrite Hz in O |- *.
    destruct B as [B1 B2]. change 0 with (inject_Z 0) in B1. change 1 with (inject_Z 1) in B2. rewrite <- Zle_Qle in B1, B2. assert (0 <= z <= 1)%Z by lia.
    assert (z = 0 \/ z = 1)%Z as [-> | ->] by lia; [reflexivity|]. exfalso. apply O. reflexivity.
Qed.

(** The heart: inside the box + encoded -> the decoded point is one the user allows. *)
Lemma decode_declared p : within (box_lower s) (box_upper s) p -> encodes eps b p -> declared eps b (bbpt s p).
Proof.
  intros (L1 & L2 & B) HE. pose proof HE as (L & HP & HC). assert (Hp : length p = s_dim s) by (rewrite D; exact L).
  destruct (fixed_spec eps b Hwf p Hp) as (BL & BF & _). fold s in BL, BF.
  destruct (decoded_spec eps b Hwf Hcord p Hp) as (DP & DC). fold s in DP, DC.
  split; [exact BL|]. intros i Hi. destruct (fixedb eps b i) eqn:F; [apply BF; assumption|].
  assert (Hfree : In i (free_vars eps b)) by (unfold free_vars; rewrite filter_In, in_seq, F; split; [lia|reflexivity]).
  destruct (categoricalb b i) eqn:HCat.
  - assert (HI : In i (cat_vars eps b)) by (unfold cat_vars; rewrite filter_In; auto).
    destruct (In_nth _ _ 0%nat HI) as (k & Hk & Ek). specialize (DC k Hk). cbn zeta in DC. rewrite Ek in DC. destruct DC as [DC _].
    destruct (HC k Hk) as (j & Hj & E1 & O). rewrite Ek in Hj, O.
    assert (V : nth i (bbpt s p) 0 = lower b i + inject_Z (Z.of_nat j)).
    { apply DC; auto. intros j' Hj' E'. specialize (O j' ltac:(lia) ltac:(lia)). rewrite O in E'. discriminate. }
    unfold allowed_value. unfold categoricalb in HCat. destruct (vtype_of b i); try discriminate.
    destruct (Qeq_bool _ 1); [discriminate|]. exists (Z.of_nat j). rewrite V. split; [reflexivity|].
    pose proof (Hord i Hfree) as HO. unfold num_values in Hj.
    assert (J0 : inject_Z 0 <= inject_Z (Z.of_nat j)) by (rewrite <- Zle_Qle; lia). change (inject_Z 0) with 0 in J0.
    assert (F0 : (0 <= Qfloor (upper b i - lower b i))%Z) by (change 0%Z with (Qfloor 0); apply Qfloor_resp_le; lra).
    assert (J1 : inject_Z (Z.of_nat j) <= inject_Z (Qfloor (upper b i - lower b i))) by (rewrite <- Zle_Qle; lia).
    pose proof (Qfloor_le (upper b i - lower b i)). split; lra.
  - assert (HI : In i (plain_vars eps b)) by (unfold plain_vars; rewrite filter_In, HCat; auto).
    destruct (In_nth _ _ 0%nat HI) as (k & Hk & Ek).
    assert (V : nth i (bbpt s p) 0 = nth k p 0).
    { rewrite <- Ek. rewrite <- (values_nth (plain_vars eps b) (bbpt s p) k Hk). rewrite DP.
      rewrite <- (firstn_skipn (length (plain_vars eps b)) p) at 2. rewrite app_nth1; [reflexivity|].
      rewrite firstn_length. unfold encoded_dim in L. lia. }
    rewrite V. destruct (box_len eps b Hwf Hord) as [BLn _]. fold s in BLn.
    assert (HD : (k < length p)%nat) by (rewrite L; unfold encoded_dim; lia).
    specialize (B k HD). destruct (box_plain k Hk) as [E1 E2]. rewrite E1, E2 in B.
    pose proof (plain_int k Hk) as PI. rewrite Ek in *. specialize (HP k Hk). rewrite Ek in HP.
    unfold allowed_value, integer_value. destruct (memn k (s_ints s)) eqn:M.
    + assert (NR : vtype_of b i <> VReal) by (apply PI; reflexivity). specialize (HP NR).
      unfold categoricalb in HCat. destruct (vtype_of b i); [congruence|split; [exact HP|exact B]|].
      destruct (Qeq_bool _ 1); [split; [exact HP|exact B]|discriminate].
    + destruct (vtype_of b i); [exact B| |]; exfalso; (assert (false = true) by (apply PI; discriminate); discriminate).
Qed.

(** Clipping and scaling keep encoded points encoded. *)
Lemma clip1_01 x : x == 1 \/ x == 0 -> clip1 x 0 1 == x.
Proof. intros [H|H]; unfold clip1; rewrite H; reflexivity. Qed.
Lemma encodes_clip lo up q : length lo = s_dim s -> length up = s_dim s ->
  (forall j, (length (plain_vars eps b) <= j < s_dim s)%nat -> nth j lo 0 == 0 /\ nth j up 0 == 1) ->
  (forall j, In j (s_ints s) -> integral (nth j lo 0) /\ integral (nth j up 0)) ->
  encodes eps b q -> encodes eps b (clip q lo up).
Proof.
  intros L1 L2 H01 HI HE. pose proof (encodes_integral q HE) as II. destruct HE as (L & HP & HC).
  assert (LC : length (clip q lo up) = encoded_dim eps b) by (unfold clip; rewrite map3_length; lia).
  assert (N : forall j, (j < s_dim s)%nat -> nth j (clip q lo up) 0 = clip1 (nth j q 0) (nth j lo 0) (nth j up 0)).
  { intros j Hj. unfold clip. apply nth_map3; lia. }
  split; [exact LC|]. split.
  - intros k Hk Hv. assert (Hin : In k (s_ints s)) by (apply memn_In, plain_int; assumption).
    rewrite N by (rewrite D; unfold encoded_dim; lia). destruct (HI k Hin). apply clip1_int; [apply II; exact Hin|assumption|assumption].
  - intros k Hk. destruct (HC k Hk) as (j & Hj & E & O). exists j. split; [exact Hj|].
    assert (X : forall j', (j' < num_values b (nth k (cat_vars eps b) 0%nat))%nat -> (nth (block_start eps b k + j') q 0 == 1 \/ nth (block_start eps b k + j') q 0 == 0) ->
              nth (block_start eps b k + j') (clip q lo up) 0 == nth (block_start eps b k + j') q 0).
    { intros j' Hj' Hv. pose proof (block_in k j' Hk Hj') as BI. rewrite N by exact (proj2 BI). destruct (H01 _ BI) as [E1 E2].
      transitivity (clip1 (nth (block_start eps b k + j') q 0) 0 1); [|apply clip1_01; exact Hv]. unfold clip1. rewrite E1, E2. reflexivity. }
    split; [rewrite X; auto|]. intros j' Hj' Hne. rewrite X; auto.
Qed.
Lemma no_ints_encodes q q' : s_ints s = [] -> length q' = length q -> encodes eps b q -> encodes eps b q'.
Proof.
  intros H0 HL (L & HP & HC). split; [lia|]. split.
  - intros k Hk Hv. exfalso. apply (plain_int k Hk) in Hv. rewrite H0 in Hv. discriminate.
  - intros k Hk. exfalso. destruct (HC k Hk) as (j & Hj & _). pose proof (block_in k j Hk Hj) as BI.
    assert (HIn : In (block_start eps b k + j)%nat (s_ints s)).
    { destruct (structure eps b Hwf Hcord) as (_ & _ & _ & _ & _ & _ & SI). apply SI. right. rewrite <- D. exact BI. }
    rewrite H0 in HIn. exact HIn.
Qed.
Lemma encodes_transform a lo up q r : length lo = s_dim s -> length up = s_dim s ->
  encodes eps b q -> encodes eps b (transform_domain a lo up (s_ints s) q r).
Proof.
  intros L1 L2 HE. unfold transform_domain. destruct (scaling_on a (s_ints s)) eqn:E; [|exact HE].
  apply (no_ints_encodes q); [| |exact HE].
  - unfold scaling_on in E. destruct (s_ints s); [reflexivity|rewrite Bool.andb_false_r in E; discriminate].
  - destruct HE as (L & _). apply map3_length; lia.
Qed.

(** Points given by the user. *)
Lemma user_encodes x q : declared_free eps b x -> user_point s x = Some q ->
  encodes eps b q /\ within (box_lower s) (box_upper s) q.
Proof.
  intros (LX & HX) HU.
  set (uf := free_vars eps b) in *.
  assert (HE : encoded s (take 0 uf (bb_lower b)) (take 0 uf (bb_upper b)) (take VReal uf (bb_type b))) by (unfold uf; rewrite (free_unfixed eps b Hwf); apply construct_encoded; apply wf_iff; exact Hwf).
  assert (LT : length (take 0 uf (bb_lower b)) = length uf) by apply take_length.
  destruct (expand_spec s _ _ _ x HE) as (XL & XN & _).
  assert (CAT : forall k, (k < length (cat_vars eps b))%nat ->
     category (lower b (nth k (cat_vars eps b) 0%nat)) (upper b (nth k (cat_vars eps b) 0%nat)) (nth (nth k (s_cat s) 0%nat) x 0)).
  { intros k Hk. rewrite (cat_length eps b Hwf) in Hk. rewrite (cat_nth eps b Hwf k Hk).
    assert (HB : (nth k (s_cat s) 0%nat < length uf)%nat) by (apply (cat_bound eps b Hwf), nth_In; exact Hk).
    specialize (HX _ HB). assert (HI : In (nth (nth k (s_cat s) 0%nat) uf 0%nat) (cat_vars eps b)).
    { pose proof (cat_nth eps b Hwf k Hk) as CN. fold s uf in CN. rewrite <- CN. apply nth_In. rewrite (cat_length eps b Hwf). exact Hk. }
    unfold cat_vars in HI. apply filter_In in HI. destruct HI as [_ HI]. unfold categoricalb in HI. unfold allowed_value in HX.
    unfold uf in *. destruct (vtype_of b _); try discriminate. destruct (Qeq_bool _ 1); [discriminate|exact HX]. }
  destruct (encode_decode eps b Hwf Hcord x LX CAT) as (OH & _ & _). fold s in OH.
  assert (Eq : q = round_integer_vars (expand s x) (s_ints s)).
  { unfold user_point in HU. destruct (_ =? _)%nat; [injection HU as <-; reflexivity|discriminate]. }
  set (p := expand s x) in *.
  assert (Hq : length q = s_dim s) by (rewrite Eq; unfold round_integer_vars; rewrite round_at_length; exact XL).
  assert (PL : forall k, (k < length (plain_vars eps b))%nat -> nth k p 0 = nth (nth k (s_noncat s) 0%nat) x 0 /\
     allowed_value b (nth k (plain_vars eps b) 0%nat) (nth k p 0) /\ categoricalb b (nth k (plain_vars eps b) 0%nat) = false).
  { intros k Hk. assert (HI : In (nth k (plain_vars eps b) 0%nat) (plain_vars eps b)) by (apply nth_In; exact Hk).
    rewrite (plain_length eps b Hwf) in Hk. rewrite (XN k Hk). split; [reflexivity|].
    assert (HB : (nth k (s_noncat s) 0%nat < length uf)%nat) by (apply (noncat_bound eps b Hwf), nth_In; exact Hk).
    split; [rewrite (plain_nth eps b Hwf k Hk); apply HX; exact HB|].
    unfold plain_vars in HI at 2. apply filter_In in HI. destruct HI as [_ HI]. apply Bool.negb_true_iff in HI. exact HI. }
  assert (PINT : forall k, (k < length (plain_vars eps b))%nat -> memn k (s_ints s) = true -> integer_value b (nth k (plain_vars eps b) 0%nat) (nth k p 0)).
  { intros k Hk M. destruct (PL k Hk) as (_ & A & NC). apply (plain_int k Hk) in M. unfold allowed_value in A. unfold categoricalb in NC.
    destruct (vtype_of b _); [congruence|exact A|]. destruct (Qeq_bool _ 1); [exact A|discriminate]. }
  assert (PQ : forall j, (j < s_dim s)%nat -> nth j q 0 == nth j p 0).
  { intros j Hj. rewrite Eq. unfold round_integer_vars. rewrite (round_at_nth eps b) by (fold p; unfold point in *; lia). cbn [Nat.add].
    fold (memn j (s_ints s)). destruct (memn j (s_ints s)) eqn:M; [|reflexivity].
    assert (INT : exists z, nth j p 0 == inject_Z z).
    { destruct (Nat.lt_ge_cases j (length (plain_vars eps b))) as [H|H]; [exact (proj1 (PINT j H M))|].
      assert (Hj' : In j (concat (map snd (s_expansion s)))).
      { destruct (structure eps b Hwf Hcord) as (_ & _ & _ & _ & _ & CC & _). fold s in CC. rewrite CC. apply in_seq. rewrite D in Hj. unfold encoded_dim in Hj. lia. }
      apply in_concat in Hj'. destruct Hj' as (ex & Hex & Hjx). apply in_map_iff in Hex. destruct Hex as ([[i l] ex'] & <- & Hin).
      destruct (In_nth _ _ 0%nat Hjx) as (r & Hr & <-). cbn [snd] in *.
      destruct (expand_spec s _ _ _ x HE) as (_ & _ & XC). unfold p. rewrite (XC i l ex' r Hin Hr). destruct (Qeq_bool _ _); [exists 1%Z|exists 0%Z]; reflexivity. }
    destruct INT as (z & Hz). rewrite (round_int z _ Hz). symmetry. exact Hz. }
  destruct (box_len eps b Hwf Hord) as [BL BU]. fold s in BL, BU.
  assert (OHq : one_hot eps b q).
  { split; [rewrite Hq; exact D|]. destruct OH as [_ OH]. intros k Hk. destruct (OH k Hk) as (j & Hj & E1 & O). exists j. split; [exact Hj|].
    split; [rewrite PQ; [exact E1|apply (block_in k j Hk Hj)]|]. intros j' Hj' Hne E'. apply (O j' Hj' Hne). rewrite <- PQ; [exact E'|apply (block_in k j' Hk Hj')]. }
  assert (EX01 : forall j, (length (plain_vars eps b) <= j < s_dim s)%nat -> nth j p 0 == 0 \/ nth j p 0 == 1).
  { intros j Hj. assert (Hj' : In j (concat (map snd (s_expansion s)))).
    { destruct (structure eps b Hwf Hcord) as (_ & _ & _ & _ & _ & CC & _). fold s in CC. rewrite CC. apply in_seq. rewrite D in Hj. unfold encoded_dim in Hj. lia. }
    apply in_concat in Hj'. destruct Hj' as (ex & Hex & Hjx). apply in_map_iff in Hex. destruct Hex as ([[i l] ex'] & <- & Hin).
    destruct (In_nth _ _ 0%nat Hjx) as (r & Hr & <-). cbn [snd] in *.
    destruct (expand_spec s _ _ _ x HE) as (_ & _ & XC). unfold p. rewrite (XC i l ex' r Hin Hr). destruct (Qeq_bool _ _); [right|left]; reflexivity. }
  assert (W : within (box_lower s) (box_upper s) q).
  { split; [lia|]. split; [lia|]. intros j Hj. rewrite Hq in Hj. rewrite (PQ j Hj).
    destruct (Nat.lt_ge_cases j (length (plain_vars eps b))) as [H|H].
    - destruct (box_plain j H) as [-> ->]. destruct (memn j (s_ints s)) eqn:M; [exact (proj2 (PINT j H M))|].
      destruct (PL j H) as (_ & A & NC). assert (NR : vtype_of b (nth j (plain_vars eps b) 0%nat) = VReal).
      { destruct (vtype_of b _) eqn:V; auto; exfalso; assert (X : memn j (s_ints s) = true) by (apply plain_int; [exact H|rewrite V; discriminate]); congruence. }
      unfold allowed_value in A. rewrite NR in A. exact A.
    - destruct (full_box_cat eps b Hwf Hord j ltac:(fold s; lia)) as [E1 E2]. fold s in E1, E2. rewrite E1, E2.
      destruct (EX01 j ltac:(lia)) as [->| ->]; split; discriminate. }
  split; [|exact W]. apply feasible_encodes; [|exact OHq]. destruct W as (W1 & W2 & W3). split; [exact W1|]. split.
  - intros j Hj. apply W3. rewrite W1. exact Hj.
  - intros j Hj. rewrite Eq. unfold round_integer_vars. rewrite (round_at_nth eps b).
    + cbn [Nat.add]. apply memn_In in Hj. unfold memn in Hj. rewrite Hj. eexists. reflexivity.
    + fold p. pose proof (ints_lt eps b Hwf Hord j Hj) as IL. fold s in IL. unfold point in *. lia.
Qed.
End Problem.
