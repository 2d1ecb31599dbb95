(** * From the user's data to the domain of every evaluation. *)
From Coq Require Import Lia Lqa.
From Verif Require Export ProblemProofs.
From Verif Require Import AlgGlue RegionProofs CatProofs CatCodes CatGlue InitProofs InitGlue GAGlue SettingsProofs SettingsGlue SpecProblem.
Open Scope string_scope.
Open Scope Q_scope.

Lemma setting_unique d k v w : setting d k v -> setting d k w -> v = w.
Proof. unfold setting. intros [H|(x & H & ->)] [H'|(y & H' & ->)]; rewrite H in H'; try discriminate; injection H' as <-; reflexivity. Qed.
Lemma setting_same k d d' v : lookup k d' = lookup k d -> setting d k v -> setting d' k v.
Proof. unfold setting. intros ->. auto. Qed.
Lemma nonneg_setting args d k v : construct args = SOk d -> must_be_nonnegative k -> setting d k v -> 0 <= v.
Proof.
  intros HC HK HS. assert (HV : valid_args args) by (apply construct_valid; eauto).
  destruct HV as (_ & _ & HN). destruct (HN k HK) as (w & HE & HW).
  destruct (construct_effective args d HC) as (HEF & _).
  assert (PK : parameter k). { destruct HK as [(q & Hq) _]. unfold parameter. apply in_map_iff. exists (k, PNum q). auto. }
  apply (HEF k w PK) in HE. destruct HS as [HS|(x & HS & ->)]; rewrite HE in HS.
  - injection HS as ->. exact HW.
  - destruct x; discriminate.
Qed.
Lemma nonneg_min_dist : must_be_nonnegative "min_dist".
Proof.
  split; [exists (1 # 100000)|]; [|intros H; unfold unchecked_numbers in H; cbn [In] in H; decompose [or] H; discriminate || tauto].
  unfold documented_defaults. do 16 (try (left; reflexivity); right). 
Qed.
Lemma set_auto_other n lo up ints d d' k : set_auto_parameters n lo up ints d = SOk d' -> ~ In k auto_keys ->
  lookup k d' = lookup k d.
Proof. intros H. exact (proj1 (set_auto_lookup _ _ _ _ _ _ H) k). Qed.

Lemma expand_all_in s : forall ps qs q, expand_all s ps = COk qs -> In q qs -> exists x, In x ps /\ user_point s x = Some q.
Proof.
  induction ps as [|p r IH]; intros qs q H Hq; cbn in H.
  - injection H as <-. destruct Hq.
  - destruct (user_point s p) as [q0|] eqn:E; [|discriminate]. apply cbind_ok in H. destruct H as (qs' & H1 & H2). injection H2 as <-.
    destruct Hq as [<-|Hq]; [exists p; split; [left; reflexivity|exact E]|]. destruct (IH _ _ H1 Hq) as (x & Hx & E'). exists x. split; [right; exact Hx|exact E'].
Qed.

Record assembled (d : dict) (eps : Q) (b : bbox) (noisy : bool) (u : user_data) (c : cfg) : Prop := mkAssembled {
  as_wf : SpecCategorical.well_formed b;
  as_dim : (1 <= bb_dim b)%nat;
  as_n : n c = s_dim (construct_problem eps b);
  as_lower : var_lower c = box_lower (construct_problem eps b);
  as_upper : var_upper c = box_upper (construct_problem eps b);
  as_ints : integer_vars c = s_ints (construct_problem eps b);
  as_noisy : has_noisy c = noisy;
  as_val : init_node_val c = match u_val u with None => [] | Some vs => vs end;
  as_init : do_init_strategy c = u_init u;
  as_pos : forall q, In q (init_node_pos c) -> exists ps x, u_pos u = Some ps /\ In x (rows_of ps) /\ user_point (construct_problem eps b) x = Some q;
  as_scaling : scaling_safe d eps b -> ordered_bounds eps b -> affine c = true -> s_ints (construct_problem eps b) = [] }.

Lemma no_int_free eps b : SpecCategorical.well_formed b -> ordered_bounds eps b ->
  (forall i, In i (free_vars eps b) -> vtype_of b i = VReal) -> s_ints (construct_problem eps b) = [].
Proof.
  intros Hwf Hord H. set (s := construct_problem eps b).
  assert (Hcord : cat_ordered eps b) by (intros i Hi; apply Hord; unfold cat_vars in Hi; apply filter_In in Hi; tauto).
  assert (NC : cat_vars eps b = []).
  { unfold cat_vars. assert (X : forall l, (forall i, In i l -> vtype_of b i = VReal) -> filter (categoricalb b) l = []).
    { clear. induction l as [|a l IH]; intros H; [reflexivity|]. cbn [filter]. unfold categoricalb at 1. rewrite (H a) by (left; reflexivity).
      apply IH. intros i Hi. apply H. right; exact Hi. }
    apply X. exact H. }
  destruct (s_ints s) as [|j r] eqn:E; [reflexivity|exfalso].
  assert (HI : In j (s_ints s)) by (rewrite E; left; reflexivity).
  destruct (structure eps b Hwf Hcord) as (_ & _ & _ & _ & _ & _ & SI). fold s in SI. apply SI in HI.
  unfold encoded_dim in HI. rewrite NC in HI. cbn [total_values] in HI. destruct HI as [[H1 H2]|HI]; [|lia].
  apply H2. apply H. assert (X : In (nth j (plain_vars eps b) 0%nat) (plain_vars eps b)) by (apply nth_In; exact H1).
  unfold plain_vars in X at 2. apply filter_In in X. tauto.
Qed.

Lemma make_assembled d b noisy u c eps : make_algorithm d b noisy u = COk c -> setting d "eps_zero" eps ->
  assembled d eps b noisy u c.
Proof.
  intros H HE. apply make_ok in H. destruct H as (eps' & frac & d' & H1 & H2 & H3 & H4 & H5 & H6 & H7).
  pose proof (setting_unique _ _ _ _ (get_num_setting _ _ _ H2) HE) as ->.
  apply check_bb_wf in H1. destruct H1 as [W D]. apply assemble_ok in H7.
  destruct H7 as (ups & U1 & R & A1 & A2 & A3 & A4 & A5 & A6 & A7 & A8 & A9 & A10).
  constructor; auto.
  - intros q Hq. rewrite A8 in Hq. destruct (u_pos u) as [ps|] eqn:EU.
    + destruct (expand_all_in _ _ _ _ U1 Hq) as (x & Hx & Ex). exists ps, x. auto.
    + injection U1 as <-. destruct Hq.
  - intros HS Hord HA. rewrite A5 in HA. apply is_str_iff in HA.
    destruct (set_auto_lookup _ _ _ _ _ _ H6) as (_ & _ & _ & _ & LD & _). rewrite HA in LD.
    destruct HS as [HS|[HS|HS]].
    + assert (X : is_str "domain_scaling" "auto" d = true) by (apply is_str_iff; exact HS). rewrite X in LD.
      destruct (s_ints (construct_problem eps b)); [reflexivity|discriminate].
    + unfold is_str in LD. rewrite HS in LD. cbn in LD. discriminate.
    + apply no_int_free; assumption.
Qed.
Lemma make_reads d b noisy u c : make_algorithm d b noisy u = COk c -> exists n lo up ints d',
  set_auto_parameters n lo up ints d = SOk d' /\ reads d' c.
Proof.
  intros H. apply make_ok in H. destruct H as (eps' & frac & d' & H1 & H2 & H3 & H4 & H5 & H6 & H7). apply assemble_ok in H7.
  destruct H7 as (ups & U1 & R & _). do 5 eexists. split; [exact H6|exact R].
Qed.
Lemma make_min_dist args d b noisy u c : construct args = SOk d -> make_algorithm d b noisy u = COk c -> 0 <= min_dist c.
Proof.
  intros HC H. apply make_reads in H. destruct H as (n & lo & up & ints & d' & HA & R).
  apply (nonneg_setting args d "min_dist"); [exact HC|exact nonneg_min_dist|]. apply get_num_setting.
  rewrite <- (get_num_same "min_dist" d d'); [apply (rd_dist _ _ R)|].
  apply (set_auto_other _ _ _ _ _ _ _ HA). unfold auto_keys. cbn [In]. intros X; decompose [or] X; discriminate || tauto.
Qed.

Lemma free_split eps b : SpecCategorical.well_formed b ->
  (length (s_cat (construct_problem eps b)) + length (s_noncat (construct_problem eps b)) = length (free_vars eps b))%nat.
Proof.
  intros Hwf. set (uf := free_vars eps b).
  assert (HE : encoded (construct_problem eps b) (take 0 uf (bb_lower b)) (take 0 uf (bb_upper b)) (take VReal uf (bb_type b)))
    by (unfold uf; rewrite (free_unfixed eps b Hwf); apply construct_encoded; apply wf_iff; exact Hwf).
  destruct (noncat_cat_partition _ _ _ _ HE) as (_ & _ & E & _). rewrite take_length in E. exact E.
Qed.

(** ** The boxes *)
Section Domain.
Variables (eps : Q) (b : bbox).
Hypotheses (Hwf : SpecCategorical.well_formed b) (Hord : ordered_bounds eps b).
Let s := construct_problem eps b.
Let Hcord : cat_ordered eps b.
Proof. intros i Hi. apply Hord. unfold cat_vars in Hi. apply filter_In in Hi. tauto. Qed.

Lemma box_integral : integer_at (s_ints s) (box_lower s) /\ integer_at (s_ints s) (box_upper s).
Proof.
  assert (X : forall j, In j (s_ints s) -> (j < s_dim s)%nat) by exact (ints_lt eps b Hwf Hord).
  pose proof (upper_len eps b Hwf Hord) as UL. fold s in UL.
  split; intros j Hj; unfold box_lower, box_upper.
  - rewrite floor_at_val by (apply X; exact Hj). cbn [Nat.add]. apply memn_In in Hj. fold (memn j (s_ints s)). rewrite Hj. eexists; reflexivity.
  - rewrite ceil_at_val by (rewrite UL; apply X; exact Hj). cbn [Nat.add]. apply memn_In in Hj. fold (memn j (s_ints s)). rewrite Hj. eexists; reflexivity.
Qed.
Lemma box_ordered j : (j < s_dim s)%nat -> nth j (box_lower s) 0 <= nth j (box_upper s) 0.
Proof.
  intros Hj. destruct (Nat.lt_ge_cases j (length (plain_vars eps b))) as [H|H].
  - destruct (box_plain eps b Hwf Hord j H) as [E1 E2]. fold s in E1, E2. rewrite E1, E2.
    assert (O : lower b (nth j (plain_vars eps b) 0%nat) <= upper b (nth j (plain_vars eps b) 0%nat)).
    { apply Hord. assert (X : In (nth j (plain_vars eps b) 0%nat) (plain_vars eps b)) by (apply nth_In; exact H).
      unfold plain_vars in X at 2. apply filter_In in X. tauto. }
    destruct (memn j (s_ints s)); [|exact O]. pose proof (Qfloor_le (lower b (nth j (plain_vars eps b) 0%nat))).
    pose proof (Qle_ceiling (upper b (nth j (plain_vars eps b) 0%nat))). lra.
  - destruct (full_box_cat eps b Hwf Hord j (conj H Hj)) as [E1 E2]. fold s in E1, E2. rewrite E1, E2. discriminate.
Qed.

Section Run.
Variables (c : cfg).
Hypotheses (CL : var_lower c = box_lower s) (CU : var_upper c = box_upper s) (CI : integer_vars c = s_ints s).
Hypothesis CS : affine c = true -> s_ints s = [].
Lemma run_clip p : encodes eps b p -> encodes eps b (clip p (l_lower c) (l_upper c)).
Proof.
  intros HE. destruct (box_len eps b Hwf Hord) as [BL BU]. fold s in BL, BU.
  assert (LL : length (l_lower c) = s_dim s /\ length (l_upper c) = s_dim s).
  { destruct (search_bounds_length c) as [A1 A2]; [rewrite CL, CU; lia|]. rewrite CL in A1, A2. lia. }
  destruct (affine c) eqn:EA.
  - apply (no_ints_encodes eps b Hwf Hord p); [apply CS; reflexivity| |exact HE].
    destruct HE as (L & _). assert (D : s_dim s = encoded_dim eps b) by exact (dim_spec eps b Hwf Hcord). unfold clip. apply map3_length; unfold point in *; lia.
  - unfold l_lower, l_upper, transform_domain_bounds in *. rewrite EA in *. cbn [fst snd] in *. rewrite CL, CU in *.
    apply (encodes_clip eps b Hwf Hord); [exact BL|exact BU| | |exact HE].
    + apply (full_box_cat eps b Hwf Hord).
    + intros j Hj. destruct box_integral as [I1 I2]. split; [apply I1|apply I2]; exact Hj.
Qed.
Lemma run_transform p r : encodes eps b p -> encodes eps b (transform_domain (affine c) (var_lower c) (var_upper c) (integer_vars c) p r).
Proof.
  intros HE. rewrite CI. destruct (box_len eps b Hwf Hord) as [BL BU]. fold s in BL, BU.
  apply (encodes_transform eps b Hwf Hord); [rewrite CL; exact BL|rewrite CU; exact BU|exact HE].
Qed.
End Run.

(** Starting samples from the Latin hypercube strategies. *)
Lemma sample_sound c attempts nodes : integral_categories eps b -> is_lhd (i_strategy c) = true \/ cat_vars eps b = [] ->
  (forall a, In a attempts -> good_attempt (requested c s) (sampled_dim c s) a) ->
  initial_sample c s attempts = InitOk nodes ->
  forall p, In p nodes -> encodes eps b p /\ feasible (box_lower s) (box_upper s) (s_ints s) p.
Proof.
  intros HI HL HA H p Hp.
  destruct (is_lhd (i_strategy c) && match s_expansion s with [] => false | _ => true end)%bool eqn:E.
  - destruct (initial_cat eps b Hwf Hord HI c attempts nodes E HA H p Hp) as (F & O & _). split; [|exact F].
    apply (feasible_encodes eps b Hwf Hord); assumption.
  - assert (SD : sampled_dim c s = s_dim s) by (unfold sampled_dim; destruct (is_lhd (i_strategy c)), (s_expansion s); try discriminate E; reflexivity).
    rewrite SD in HA.
    pose proof (initial_plain eps b Hwf Hord c attempts nodes E HA H p Hp) as F. split; [|exact F].
    apply (feasible_encodes eps b Hwf Hord); [exact F|]. split.
    + destruct F as (FL & _). rewrite FL. destruct (box_len eps b Hwf Hord) as [-> _]. apply (dim_spec eps b Hwf Hcord).
    + intros k Hk. exfalso. assert (N : cat_vars eps b = []).
      { destruct HL as [HL|HL]; [|exact HL]. rewrite HL in E. cbn in E.
        pose proof (expansion_length eps b Hwf) as L1. pose proof (cat_length eps b Hwf) as L2. fold s in L1, L2.
        destruct (s_expansion s); [|discriminate]. cbn in L1. destruct (cat_vars eps b); [reflexivity|cbn in L2; lia]. }
      rewrite N in Hk. cbn in Hk. lia.
Qed.
End Domain.

(** ** Serial runs *)
Section Serial.
Variables (args d : dict) (eps : Q) (b : bbox) (noisy : bool) (u : user_data) (c : cfg) (ok : inp -> Prop).
Hypotheses (HC : construct args = SOk d) (HE : setting d "eps_zero" eps) (HSc : scaling_safe d eps b) (Hord : ordered_bounds eps b)
  (HU : forall ps x, u_pos u = Some ps -> In x ps -> declared_free eps b x)
  (HM : make_algorithm d b noisy u = COk c) (HOK : forall i, ok i -> sound_inputs eps b i).
Let ps := construct_problem eps b.
Let AS : assembled d eps b noisy u c. Proof. exact (make_assembled _ _ _ _ _ _ HM HE). Qed.
Let Hwf : SpecCategorical.well_formed b. Proof. exact (as_wf _ _ _ _ _ _ AS). Qed.

Lemma user_in q : In q (init_node_pos c) -> encodes eps b q /\ within (box_lower ps) (box_upper ps) q.
Proof.
  intros Hq. destruct (as_pos _ _ _ _ _ _ AS q Hq) as (l & x & E1 & E2 & E3).
  apply (user_encodes eps b Hwf Hord x q); [|exact E3].
  destruct l as [|y l]; [|exact (HU (y :: l) x E1 E2)]. destruct E2 as [<-|[]].
  unfold user_point in E3. destruct (_ =? _)%nat eqn:EL; [|discriminate]. apply Nat.eqb_eq in EL. cbn [List.length] in EL. fold ps in EL.
  assert (L : length (free_vars eps b) = 0%nat).
  { pose proof (free_split eps b Hwf) as FS. fold ps in FS. rewrite <- EL in FS. symmetry. exact FS. }
  split; [cbn; lia|]. intros k Hk. lia.
Qed.
Let CS : affine c = true -> s_ints ps = []. Proof. exact (as_scaling _ _ _ _ _ _ AS HSc Hord). Qed.
Lemma serial_region s l : reach c ok s l ->
  (forall p, called_at (trace s) p -> encodes eps b p) /\ Forall (encodes eps b) (all_pos (T s)).
Proof.
  intros HR. assert (R : region (encodes eps b) s).
  { apply (region_runs c ok (encodes eps b)) with (l := l); auto.
    - exact (make_min_dist args d b noisy u c HC HM).
    - intros i pts p Hi E Hp. destruct (HOK i Hi) as [H1 _]. exact (proj1 (H1 pts p E Hp)).
    - intros p Hp. exact (proj1 (user_in p Hp)).
    - intros i p Hi E. destruct (HOK i Hi) as [_ H2]. exact (H2 p E).
    - intros p. apply (run_clip eps b Hwf Hord c); [apply (as_lower _ _ _ _ _ _ AS)|apply (as_upper _ _ _ _ _ _ AS)|exact CS].
    - intros p. apply (run_transform eps b Hwf Hord c); [apply (as_lower _ _ _ _ _ _ AS)|apply (as_upper _ _ _ _ _ _ AS)|apply (as_ints _ _ _ _ _ _ AS)].
    - intros p. apply (run_transform eps b Hwf Hord c); [apply (as_lower _ _ _ _ _ _ AS)|apply (as_upper _ _ _ _ _ _ AS)|apply (as_ints _ _ _ _ _ _ AS)]. }
  destruct R as (_ & R2 & R3). split; [|exact R2].
  intros p [(v & Hp)|(v & el & eu & Hp)]; eapply R3; try exact Hp; reflexivity.
Qed.
Lemma serial_box s l : reach c ok s l -> box_inv c s.
Proof.
  intros HR. destruct (box_len eps b Hwf Hord) as [BL BU]. fold ps in BL, BU.
  apply (box_reach c ok s l); auto.
  - rewrite (as_lower _ _ _ _ _ _ AS), (as_upper _ _ _ _ _ _ AS). fold ps. split; [lia|]. intros j Hj. apply (box_ordered eps b Hwf Hord). fold ps. lia.
  - rewrite (as_ints _ _ _ _ _ _ AS). exact CS.
  - exact (make_min_dist args d b noisy u c HC HM).
  - intros p Hp. rewrite (as_lower _ _ _ _ _ _ AS), (as_upper _ _ _ _ _ _ AS). exact (proj2 (user_in p Hp)).
  - intros i Hi. destruct (HOK i Hi) as [H1 H2]. unfold env_in_box. rewrite (as_lower _ _ _ _ _ _ AS), (as_upper _ _ _ _ _ _ AS). fold ps. split.
    + intros pts p E Hp. destruct (proj2 (H1 pts p E Hp)) as (F1 & F2 & _). fold ps in F1, F2. split; [exact F1|]. split; [lia|].
      intros j Hj. apply F2. lia.
    + intros q E. destruct (H2 q E) as (L & _). rewrite L, BL. symmetry. unfold ps. apply (dim_spec eps b Hwf).
      intros i' Hi'. apply Hord. unfold cat_vars in Hi'. apply filter_In in Hi'. tauto.
Qed.
Lemma serial_declared s l p : reach c ok s l -> called_at (trace s) p -> declared eps b (bbpt ps p).
Proof.
  intros HR Hp. apply (decode_declared eps b Hwf Hord).
  - destruct (serial_box s l HR) as (_ & _ & _ & B). rewrite (as_lower _ _ _ _ _ _ AS), (as_upper _ _ _ _ _ _ AS) in B.
    destruct Hp as [(v & Hp)|(v & el & eu & Hp)]; eapply B; try exact Hp; reflexivity.
  - apply (serial_region s l HR). exact Hp.
Qed.
Lemma serial_history s l p : reach c ok s l -> In p (all_pos (T s)) -> declared eps b (bbpt ps p) /\ one_hot eps b p.
Proof.
  intros HR Hp. destruct (serial_region s l HR) as [_ R]. rewrite Forall_forall in R. specialize (R p Hp). split.
  - apply (decode_declared eps b Hwf Hord); [|exact R].
    destruct (serial_box s l HR) as (_ & _ & B & _). rewrite (as_lower _ _ _ _ _ _ AS), (as_upper _ _ _ _ _ _ AS) in B.
    rewrite Forall_forall in B. exact (B p Hp).
  - apply encodes_one_hot. exact R.
Qed.
End Serial.
