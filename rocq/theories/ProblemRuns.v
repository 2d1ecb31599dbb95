(** * Parallel runs, computed inputs, acceptance by the constructor, no free variables, user black boxes. *)
From Coq Require Import Lia Lqa.
From Verif Require Export ProblemGlue.
From Verif Require Import ParBox AlgGlue RegionProofs CatProofs CatCodes CatGlue InitProofs InitGlue GAProofs GAGlue SettingsProofs SettingsGlue SpecProblem.
Open Scope string_scope.
Open Scope Q_scope.

(** ** Parallel *)
Section Par.
Variables (args d : dict) (eps : Q) (b : bbox) (noisy : bool) (u : user_data) (pc0 : pcfg) (ok : pin -> Prop).
Let c := base pc0.
Hypotheses (HC : construct args = SOk d) (HE : setting d "eps_zero" eps) (HSc : scaling_safe d eps b) (Hord : ordered_bounds eps b)
  (HNS : affine (base pc0) = true -> noisy = false)
  (HU : forall ps x, u_pos u = Some ps -> In x ps -> declared_free eps b x)
  (HM : make_algorithm d b noisy u = COk (base pc0)) (HOK : forall i, ok i -> sound_pins eps b i).
Let ps := construct_problem eps b.
Let AS : assembled d eps b noisy u c. Proof. exact (make_assembled _ _ _ _ _ _ HM HE). Qed.
Let Hwf : SpecCategorical.well_formed b. Proof. exact (as_wf _ _ _ _ _ _ AS). Qed.
Let CS : affine c = true -> s_ints ps = []. Proof. exact (as_scaling _ _ _ _ _ _ AS HSc Hord). Qed.
Lemma par_declared m P k p nz id : preach pc0 ok m P -> no_error m -> In (PSubmit k p nz id) (p_log P) ->
  declared eps b (bbpt ps p).
Proof.
  intros HR N HI. destruct (box_len eps b Hwf Hord) as [BL BU]. fold ps in BL, BU.
  assert (UI : forall q, In q (init_node_pos c) -> encodes eps b q /\ within (box_lower ps) (box_upper ps) q).
  { exact (user_in d eps b noisy u c HE Hord HU HM). }
  assert (G1 : encodes eps b p).
  { destruct (region_reach pc0 ok (encodes eps b)) with (m := m) (P := P) as (_ & R & _); auto.
    - intros q pts x Hq Hp Hx. destruct (HOK q Hq) as [A _]. exact (proj1 (A pts x Hp Hx)).
    - intros q Hq. apply UI. exact Hq.
    - intros q x Hq Hp. destruct (HOK q Hq) as [_ A]. fold c. unfold to_orig.
      apply (run_transform eps b Hwf Hord c); [apply (as_lower _ _ _ _ _ _ AS)|apply (as_upper _ _ _ _ _ _ AS)|apply (as_ints _ _ _ _ _ _ AS)|].
      apply (run_clip eps b Hwf Hord c); [apply (as_lower _ _ _ _ _ _ AS)|apply (as_upper _ _ _ _ _ _ AS)|exact CS|exact (A x Hp)].
    - intros _ x Hx. apply (run_transform eps b Hwf Hord c); [apply (as_lower _ _ _ _ _ _ AS)|apply (as_upper _ _ _ _ _ _ AS)|apply (as_ints _ _ _ _ _ _ AS)|exact Hx].
    - rewrite Forall_forall in R. exact (R _ HI). }
  apply (decode_declared eps b Hwf Hord); [|exact G1].
  assert (G2 : within (var_lower c) (var_upper c) p).
  { assert (BO : box_ok (var_lower c) (var_upper c)).
    { rewrite (as_lower _ _ _ _ _ _ AS), (as_upper _ _ _ _ _ _ AS). fold ps. split; [unfold point in *; lia|].
      intros j Hj. apply (box_ordered eps b Hwf Hord). fold ps. unfold point in *. lia. }
    destruct (region_reach pc0 ok (within (var_lower c) (var_upper c))) with (m := m) (P := P) as (_ & R & _); auto.
    - intros q pts x Hq Hp Hx. destruct (HOK q Hq) as [A _]. destruct (proj2 (A pts x Hp Hx)) as (F1 & F2 & _). fold ps in F1, F2.
      rewrite (as_lower _ _ _ _ _ _ AS), (as_upper _ _ _ _ _ _ AS). fold ps. unfold point in *. split; [exact F1|]. split; [lia|]. intros j Hj. apply F2. lia.
    - intros q Hq. rewrite (as_lower _ _ _ _ _ _ AS), (as_upper _ _ _ _ _ _ AS). apply UI. exact Hq.
    - intros q x Hq Hp. destruct (HOK q Hq) as [_ A]. apply (proposal_in_box c x BO).
      + intros Ha. rewrite (as_ints _ _ _ _ _ _ AS). exact (CS Ha).
      + destruct (A x Hp) as (L & _). rewrite (as_lower _ _ _ _ _ _ AS). fold ps. unfold point in *. rewrite L, BL. symmetry. unfold ps. apply (dim_spec eps b Hwf).
        intros i' Hi'. apply Hord. unfold cat_vars in Hi'. apply filter_In in Hi'. tauto.
    - intros Hn x Hx. unfold to_orig, transform_domain, scaling_on. fold c.
      destruct (affine c) eqn:Ea; [|exact Hx]. fold c in Hn. rewrite (as_noisy _ _ _ _ _ _ AS), (HNS Ea) in Hn. discriminate.
    - rewrite Forall_forall in R. exact (R _ HI). }
  rewrite (as_lower _ _ _ _ _ _ AS), (as_upper _ _ _ _ _ _ AS) in G2. exact G2.
Qed.
End Par.

(** ** Computed inputs *)
Lemma computed_sound eps b i : SpecCategorical.well_formed b -> ordered_bounds eps b -> integral_categories eps b ->
  (0 < s_dim (construct_problem eps b))%nat -> computed_inputs eps b i -> sound_inputs eps b i.
Proof.
  intros Hwf Hord HI HD [H1 H2]. split.
  - intros pts q E Hq. destruct (H1 pts E) as (ic & at_ & A1 & A2 & A3). exact (sample_sound eps b Hwf Hord ic at_ pts HI A1 A2 A3 q Hq).
  - intros q E. destruct (H2 q E) as (lo & up & bs & N & f & rows & gens & final & A1 & A2 & A3 & A4 & A5 & ->).
    set (s := construct_problem eps b) in *. set (sp := search_space s lo up (s_ints s)) in *.
    destruct (ga_invariant eps b Hwf Hord HI lo up A1 bs N f rows gens HD A2 A3 A4) as [PL PF]. fold s sp in PL, PF.
    set (pop := ga_population sp bs (s_dim s) rows gens) in *.
    assert (P4 : (0 < List.length pop)%nat).
    { rewrite PL. unfold population_size. replace (20 * s_dim s / 5)%nat with (4 * s_dim s)%nat; [lia|]. apply Nat.div_unique with 0%nat; lia. }
    destruct A5 as ((FL & FN & FB) & FS). rewrite A2 in FL, FB.
    assert (IN : In (ga_optimize sp bs (s_dim s) rows gens final) pop).
    { unfold ga_optimize. fold pop. apply nth_In. apply FB. destruct final; [cbn in FL; lia|left; reflexivity]. }
    destruct (PF _ IN) as [F O]. destruct A1 as (B1 & B2 & B3 & B4 & B5).
    apply (feasible_encodes eps b Hwf Hord); [|exact O]. destruct F as (F1 & F2 & F3).
    destruct (box_len eps b Hwf Hord) as [BL BU]. fold s in BL, BU, B1, B2, B3. fold s. split; [unfold point in *; lia|]. split; [|exact F3].
    intros j Hj. fold s in Hj. destruct (F2 j ltac:(unfold point in *; lia)) as [G1 G2]. destruct (B3 j ltac:(unfold point in *; lia)) as (C1 & C2 & C3). fold s in C1, C3. fold s. split; lra.
Qed.

(** ** What the constructor accepts *)
Lemma setting_get k d v : setting d k v -> get_num k d = COk v.
Proof. unfold setting, get_num. intros [->|(x & -> & ->)]; reflexivity. Qed.
Lemma setting_count k d v z : setting d k v -> v == inject_Z z -> get_int k d = COk z.
Proof.
  intros H E. unfold get_int. rewrite (setting_get _ _ _ H). cbn [cbind].
  assert (F : Qfloor v = z) by (rewrite E; apply Qfloor_Z). rewrite F.
  assert (X : Qeq_bool v (inject_Z z) = true) by (apply Qeq_bool_iff; exact E). rewrite X. reflexivity.
Qed.
Lemma setting_truth k d v : setting d k v -> exists x, get_bool k d = COk x.
Proof. unfold setting, get_bool. intros [->|(x & -> & ->)]; eauto. Qed.

Lemma proper_auto d d' n lo up ints : set_auto_parameters n lo up ints d = SOk d' -> proper_settings d -> proper_settings d'.
Proof.
  intros HA (P1 & P2 & P3). pose proof (set_auto_lookup _ _ _ _ _ _ HA) as (K & _ & _ & _ & _ & KF & _).
  assert (X : forall k, In k (count_settings ++ number_settings ++ truth_settings)%list -> k <> "init_sample_fraction" -> lookup k d' = lookup k d).
  { intros k Hk Hn. apply K. intros H. unfold auto_keys in H. cbn [In] in H.
    unfold count_settings, number_settings, truth_settings in Hk. cbn [app In] in Hk.
    repeat (destruct H as [<-|H]; [first [now apply Hn|repeat (destruct Hk as [Hk|Hk]; [discriminate|]); exact Hk]|]); exact H. }
  split; [|split].
  - intros k Hk. destruct (P1 k Hk) as (v & z & H1 & H2). exists v, z. split; [|exact H2]. apply (setting_same k d); [|exact H1].
    apply X; [apply in_or_app; auto|]. intros ->. unfold count_settings in Hk. cbn [In] in Hk. decompose [or] Hk; discriminate || tauto.
  - intros k Hk. destruct (string_dec k "init_sample_fraction") as [->|Hne].
    + destruct (P2 _ Hk) as (v & H1). unfold setting in *. rewrite KF. destruct H1 as [H1|(x & H1 & ->)]; rewrite H1.
      * destruct (lookup "num_cpus" d) as [[cp|?|?]|]; eexists; left; reflexivity.
      * eexists. right. eauto.
    + destruct (P2 k Hk) as (v & H1). exists v. apply (setting_same k d); [|exact H1]. apply X; [|exact Hne]. apply in_or_app. right. apply in_or_app. auto.
  - intros k Hk. destruct (P3 k Hk) as (v & H1). exists v. apply (setting_same k d); [|exact H1].
    apply X; [apply in_or_app; right; apply in_or_app; auto|]. intros ->. unfold truth_settings in Hk. cbn [In] in Hk. decompose [or] Hk; discriminate || tauto.
Qed.
Lemma assemble_total d s noisy u ups : proper_settings d ->
  match u_pos u with None => COk [] | Some ps => expand_all s (rows_of ps) end = COk ups ->
  exists c, assemble d s noisy u = COk c.
Proof.
  intros (P1 & P2 & P3) HU. unfold assemble. rewrite HU. cbn [cbind].
  assert (GI : forall k, In k count_settings -> exists z, get_int k d = COk z) by (intros k Hk; destruct (P1 k Hk) as (v & z & A & B); exists z; eapply setting_count; eauto).
  assert (GN : forall k, In k number_settings -> exists z, get_num k d = COk z) by (intros k Hk; destruct (P2 k Hk) as (v & A); exists v; apply setting_get; auto).
  assert (GB : forall k, In k truth_settings -> exists z, get_bool k d = COk z) by (intros k Hk; destruct (P3 k Hk) as (v & A); eapply setting_truth; eauto).
  clear P1 P2 P3 HU.
  repeat match goal with
  | |- exists _, cbind (get_int ?k d) _ = _ =>
      let z := fresh "z" in let E := fresh "E" in destruct (GI k) as (z & E); [unfold count_settings; cbn [In]; tauto|rewrite E; clear E; cbn [cbind]]
  | |- exists _, cbind (get_num ?k d) _ = _ =>
      let z := fresh "z" in let E := fresh "E" in destruct (GN k) as (z & E); [unfold number_settings; cbn [In]; tauto|rewrite E; clear E; cbn [cbind]]
  | |- exists _, cbind (get_bool ?k d) _ = _ =>
      let z := fresh "z" in let E := fresh "E" in destruct (GB k) as (z & E); [unfold truth_settings; cbn [In]; tauto|rewrite E; clear E; cbn [cbind]]
  end.
  eexists. reflexivity.
Qed.
Lemma expand_all_total s ps : (forall x, In x ps -> exists q, user_point s x = Some q) <-> exists qs, expand_all s ps = COk qs.
Proof.
  induction ps as [|p r [IH1 IH2]]; cbn; split; intros H.
  - eauto.
  - intros x [].
  - destruct (H p ltac:(auto)) as (q & E). rewrite E. destruct IH1 as (qs & E'); [auto|]. rewrite E'. cbn. eauto.
  - destruct H as (qs & H). destruct (user_point s p) as [q|] eqn:E; [|discriminate]. apply cbind_ok in H. destruct H as (qs' & H1 & _).
    intros x [<-|Hx]; [eauto|]. apply IH2; eauto.
Qed.
Lemma user_point_iff eps b x : SpecCategorical.well_formed b ->
  (exists q, user_point (construct_problem eps b) x = Some q) <-> length x = length (free_vars eps b).
Proof.
  intros Hwf. unfold user_point. pose proof (free_split eps b Hwf) as FS. rewrite FS.
  destruct (_ =? _)%nat eqn:E; [apply Nat.eqb_eq in E|apply Nat.eqb_neq in E]; split; intros H; try congruence; eauto.
  destruct H as (q & H). discriminate.
Qed.
Lemma rows_points eps b ps : SpecCategorical.well_formed b ->
  (exists qs, expand_all (construct_problem eps b) (rows_of ps) = COk qs) <->
  (forall x, In x ps -> length x = length (free_vars eps b)) /\ (ps = [] -> free_vars eps b = []).
Proof.
  intros Hwf. rewrite <- expand_all_total. destruct ps as [|p r]; cbn [rows_of].
  - split.
    + intros H. split; [intros x []|]. intros _. pose proof (H [] ltac:(left; reflexivity)) as Y. apply (user_point_iff eps b [] Hwf) in Y.
      destruct (free_vars eps b); [reflexivity|discriminate].
    + intros [_ H] x [<-|[]]. apply (user_point_iff eps b [] Hwf). rewrite H; reflexivity.
  - split.
    + intros H. split; [|discriminate]. intros x Hx. apply (user_point_iff eps b x Hwf). apply H. exact Hx.
    + intros [H _] x Hx. apply (user_point_iff eps b x Hwf). apply H. exact Hx.
Qed.
Lemma zero_dim eps b : SpecCategorical.well_formed b -> ordered_bounds eps b ->
  s_dim (construct_problem eps b) = 0%nat <-> free_vars eps b = [].
Proof.
  intros Hwf Hord. assert (Hcord : cat_ordered eps b) by (intros i Hi; apply Hord; unfold cat_vars in Hi; apply filter_In in Hi; tauto).
  rewrite (dim_spec eps b Hwf Hcord). unfold encoded_dim, plain_vars.
  assert (T : total_values b (cat_vars eps b) = 0%nat <-> cat_vars eps b = []).
  { split; [|intros ->; reflexivity]. destruct (cat_vars eps b) as [|a l] eqn:E; [reflexivity|]. intros H. exfalso.
    cbn [total_values] in H. unfold num_values in H.
    assert (O : lower b a <= upper b a) by (apply Hcord; rewrite E; left; reflexivity).
    assert (F0 : (0 <= Qfloor (upper b a - lower b a))%Z) by (change 0%Z with (Qfloor 0); apply Qfloor_resp_le; lra). lia. }
  unfold cat_vars in *. split.
  - intros H. assert (H1 : length (filter (fun i => negb (categoricalb b i)) (free_vars eps b)) = 0%nat) by lia.
    assert (H2 : filter (categoricalb b) (free_vars eps b) = []) by (apply T; lia).
    destruct (free_vars eps b) as [|a l]; [reflexivity|exfalso]. cbn [filter] in H1, H2. destruct (categoricalb b a); [discriminate|cbn in H1; lia].
  - intros ->. reflexivity.
Qed.
Lemma auto_all_ok d eps b : SpecCategorical.well_formed b -> ordered_bounds eps b -> let s := construct_problem eps b in
  (exists d', set_auto_parameters (s_dim s) (s_lower s) (s_upper s) (s_ints s) d = SOk d') <->
  ~ (free_vars eps b = [] /\ lookup "domain_scaling" d = Some (PStr "auto")).
Proof.
  intros Hwf Hord s. rewrite <- (zero_dim eps b Hwf Hord). apply auto_total.
  - reflexivity.
  - apply (upper_len eps b Hwf Hord).
  - apply (ints_lt eps b Hwf Hord).
Qed.
Lemma accepted_iff d eps frac b noisy u : proper_settings d -> ordered_bounds eps b ->
  setting d "eps_zero" eps -> setting d "init_sample_fraction" frac ->
  (exists c, make_algorithm d b noisy u = COk c) <-> consistent_arguments d eps frac b u.
Proof.
  intros HP Hord HE HF. split.
  - intros (c & H). apply make_ok in H. destruct H as (eps' & frac' & d' & H1 & H2 & H3 & H4 & H5 & H6 & H7).
    pose proof (setting_unique _ _ _ _ (get_num_setting _ _ _ H2) HE) as ->.
    pose proof (setting_unique _ _ _ _ (get_num_setting _ _ _ H4) HF) as ->.
    apply check_bb_wf in H1. destruct H1 as [W D]. pose proof W as [W1 W2].
    split; [exact D|]. split; [exact W1|]. split; [exact W2|]. split.
    { intros ps vs E1 E2. unfold check_values in H3. rewrite E1, E2 in H3. apply Nat.eqb_eq in H3. exact H3. }
    split.
    { unfold check_enough in H5. apply Bool.orb_true_iff in H5. destruct H5 as [H5|H5]; [left; exact H5|right].
      destruct (u_pos u) as [ps|]; [|discriminate]. exists ps. split; [reflexivity|]. apply Z.leb_le in H5. exact H5. }
    split.
    { intros ps E. apply (rows_points eps b ps W). apply assemble_ok in H7. destruct H7 as (ups & U & _). rewrite E in U. eauto. }
    apply (auto_all_ok d eps b W Hord). eauto.
  - intros (D & W1 & W2 & HV & HEn & HR & HN). assert (W : SpecCategorical.well_formed b) by (split; assumption).
    unfold make_algorithm. rewrite (setting_get _ _ _ HE), (setting_get _ _ _ HF).
    assert (C1 : check_bb b = true) by (unfold check_bb; rewrite !Bool.andb_true_iff, !Nat.eqb_eq, Nat.leb_le; auto).
    assert (C2 : check_values u = true).
    { unfold check_values. destruct (u_pos u) as [ps|] eqn:E1, (u_val u) as [vs|] eqn:E2; try reflexivity. apply Nat.eqb_eq. apply HV; auto. }
    assert (C3 : check_enough u frac (s_dim (construct_problem eps b)) = true).
    { unfold check_enough. destruct HEn as [->|(ps & -> & HL)]; [reflexivity|]. apply Bool.orb_true_iff. right. apply Z.leb_le. exact HL. }
    rewrite C1, C2. cbn [cassert cbind]. rewrite C3. cbn [cassert cbind].
    destruct (proj2 (auto_all_ok d eps b W Hord) HN) as (d' & EA). rewrite EA.
    assert (HU : exists ups, match u_pos u with None => COk [] | Some ps => expand_all (construct_problem eps b) (rows_of ps) end = COk ups).
    { destruct (u_pos u) as [ps|]; [|eauto]. apply (rows_points eps b ps W). apply HR. reflexivity. }
    destruct HU as (ups & HU). exact (assemble_total d' _ noisy u ups (proper_auto _ _ _ _ _ _ EA HP) HU).
Qed.
(** The automatic sample fraction is negative: the test for enough points always passes. *)
Lemma enough_negative dimension frac len : frac <= 0 -> (round_half_even (inject_Z (Z.of_nat dimension + 1) * frac) <= Z.of_nat len)%Z.
Proof.
  intros H. set (x := inject_Z (Z.of_nat dimension + 1) * frac).
  assert (X : x <= 0).
  { unfold x. assert (0 <= inject_Z (Z.of_nat dimension + 1)) by (change 0 with (inject_Z 0); rewrite <- Zle_Qle; lia).
    setoid_replace 0 with (inject_Z (Z.of_nat dimension + 1) * 0) by ring. rewrite !(Qmult_comm (inject_Z _)). apply Qmult_le_compat_r; assumption. }
  assert (R : (round_half_even x <= 0)%Z).
  { unfold round_half_even. assert (F : (Qfloor x <= 0)%Z) by (change 0%Z with (Qfloor 0); apply Qfloor_resp_le; exact X).
    destruct (Z.eq_dec (Qfloor x) 0) as [E|NE].
    - assert (x == 0). { pose proof (Qfloor_le x) as Y. rewrite E in Y. change (inject_Z 0) with 0 in Y. lra. }
      rewrite E. assert (Y : Qltb (x - inject_Z 0) (1#2) = true) by (apply Qltb_lt; change (inject_Z 0) with 0; lra). rewrite Y. lia.
    - repeat match goal with |- context [if ?b then _ else _] => destruct b end; lia. }
  lia.
Qed.

(** ** No free variables *)
Lemma fixed_calls_state : forall vs s, let s' := fixed_calls vs s in
  all_val (T s') = (all_val (T s) ++ vs)%list /\ all_pos (T s') = (all_pos (T s) ++ map (fun _ => []) vs)%list /\
  trace s' = (trace s ++ map (EvAcc []) vs)%list /\ evalcount (C s') = (evalcount (C s) + Z.of_nat (List.length vs))%Z /\
  noisy_evalcount (C s') = noisy_evalcount (C s) /\ itercount (C s') = itercount (C s).
Proof.
  induction vs as [|v r IH]; intros s; cbn zeta; cbn [fixed_calls fold_left].
  - cbn. rewrite !app_nil_r. repeat split; try lia.
  - specialize (IH (fixed_call v s)). cbn zeta in IH. unfold fixed_calls in IH. destruct IH as (A1 & A2 & A3 & A4 & A5 & A6).
    rewrite A1, A2, A3, A4, A5, A6. unfold fixed_call, add_node, insert_node, tabs_add. cbn [T C I trace set_C set_T set_I emit all_val all_pos evalcount noisy_evalcount itercount add_evals map List.length].
    rewrite <- !app_assoc. cbn [app]. repeat split; try reflexivity; lia.
Qed.

Lemma fixed_setup eps b : SpecCategorical.well_formed b -> ordered_bounds eps b -> free_vars eps b = [] ->
  let s := construct_problem eps b in bbpt s [] = bb_lower b /\ returned_point s [] = [] /\ s_dim s = 0%nat.
Proof.
  intros Hwf Hord HF s. pose proof (proj2 (zero_dim eps b Hwf Hord) HF) as Z0. fold s in Z0.
  destruct (fixed_spec eps b Hwf [] (eq_sym Z0)) as (BL & BF & _). fold s in BL, BF.
  split; [|split; [|exact Z0]].
  - apply (nth_ext _ _ 0 0); [rewrite BL; reflexivity|]. intros i Hi. rewrite BL in Hi. apply BF; [exact Hi|].
    destruct (fixedb eps b i) eqn:E; [reflexivity|exfalso]. assert (X : In i (free_vars eps b)).
    { unfold free_vars. apply filter_In. split; [apply in_seq; lia|]. rewrite E. reflexivity. }
    rewrite HF in X. destruct X.
  - pose proof (returned_length eps b Hwf [] (eq_sym Z0)) as RL. rewrite HF in RL. fold s in RL.
    destruct (returned_point s []); [reflexivity|discriminate].
Qed.
Lemma fixed_result eps b c vs : SpecCategorical.well_formed b -> ordered_bounds eps b -> free_vars eps b = [] -> vs <> [] ->
  let s := fixed_calls vs (init_st c) in
  exists v, quintuple (construct_problem eps b) s = Some (v, [], 0%Z, Z.of_nat (List.length vs), 0%Z) /\
    In v vs /\ forall w, In w vs -> v <= w.
Proof.
  intros Hwf Hord HF Hne s. destruct (fixed_calls_state vs (init_st c)) as (A1 & A2 & A3 & A4 & A5 & A6). fold s in A1, A2, A3, A4, A5, A6.
  cbn [init_st T tabs0 all_val all_pos app] in A1, A2. cbn [init_st C evalcount noisy_evalcount itercount ctrs0] in A4, A5, A6.
  assert (HM : first_min vs (argmin vs)) by (apply argmin_spec; exact Hne). destruct HM as (H1 & H2 & _).
  assert (HP : nth (argmin vs) (map (fun _ : Q => @nil Q) vs) [] = []).
  { generalize (argmin vs). clear. induction vs as [|v r IH]; intros [|j]; cbn; auto. }
  exists (nth (argmin vs) vs 0). split; [|split].
  - assert (R : result s = Some (nth (argmin vs) vs 0, [])).
    { unfold result. rewrite A1, A2. clear - Hne HP. destruct vs as [|v0 r]; [congruence|]. f_equal. f_equal. exact HP. }
    unfold quintuple. rewrite R, A4, A5, A6, (proj1 (proj2 (fixed_setup eps b Hwf Hord HF))). reflexivity.
  - apply nth_In. exact H1.
  - intros w Hw. destruct (In_nth _ _ 0 Hw) as (j & Hj & <-). apply H2. exact Hj.
Qed.
(** With domain scaling left to the program the constructor raises IndexError. *)
Lemma fixed_auto_fails d eps frac b noisy u : ordered_bounds eps b -> free_vars eps b = [] ->
  lookup "domain_scaling" d = Some (PStr "auto") -> setting d "eps_zero" eps -> setting d "init_sample_fraction" frac ->
  check_bb b = true -> check_values u = true -> check_enough u frac 0 = true ->
  make_algorithm d b noisy u = CFail CIndex.
Proof.
  intros Hord HF HD HE HFr C1 C2 C3. destruct (check_bb_wf b C1) as [W _].
  unfold make_algorithm. rewrite (setting_get _ _ _ HE), (setting_get _ _ _ HFr), C1, C2. cbn [cassert cbind].
  pose proof (proj2 (zero_dim eps b W Hord) HF) as Z0. rewrite Z0, C3. cbn [cassert cbind].
  pose proof (upper_len eps b W Hord) as UL. set (s := construct_problem eps b) in *. rewrite Z0 in UL.
  assert (L0 : s_lower s = []) by (unfold s_dim in Z0; destruct (s_lower s); [reflexivity|discriminate]).
  assert (U0 : s_upper s = []) by (destruct (s_upper s); [reflexivity|discriminate]).
  assert (I0 : s_ints s = []).
  { pose proof (ints_lt eps b W Hord) as IL. fold s in IL. rewrite Z0 in IL. destruct (s_ints s) as [|j r]; [reflexivity|]. specialize (IL j ltac:(left; reflexivity)). lia. }
  rewrite L0, U0, I0. rewrite set_auto_all_fixed; [reflexivity|]. apply is_str_iff. exact HD.
Qed.

(** ** User black boxes *)
Section UserBB.
Variables (d : dict) (eps : Q) (B : user_bb) (u : user_data) (c : cfg) (ok : inp -> Prop).
Hypotheses (HMD : 0 <= min_dist c) (HE : setting d "eps_zero" eps) (Hord : ordered_bounds eps (ub_box B))
  (HM : make_algorithm d (ub_box B) (ub_has_noisy B) u = COk c) (HB : user_black_box (ub_dim B) (ub_lower B) (ub_upper B) (ub_type B) (ub_fun B) (ub_noisy B) = Some B).
Let b := ub_box B.
Let ps := construct_problem eps b.
Hypothesis HOK : forall i, ok i ->
  (forall pts q, i_samples i = Some pts -> In q pts -> List.length q = s_dim ps) /\ (forall q, i_prop i = Some q -> List.length q = s_dim ps).
Let AS : assembled d eps b (ub_has_noisy B) u c. Proof. exact (make_assembled _ _ _ _ _ _ HM HE). Qed.
Let Hwf : SpecCategorical.well_formed b. Proof. exact (as_wf _ _ _ _ _ _ AS). Qed.
Lemma user_lengths s l p : reach c ok s l -> called_at (trace s) p -> List.length p = s_dim ps.
Proof.
  intros HR Hp. destruct (box_len eps b Hwf Hord) as [BL BU]. fold ps in BL, BU.
  assert (LL : List.length (var_lower c) = s_dim ps) by (rewrite (as_lower _ _ _ _ _ _ AS); exact BL).
  assert (LU : List.length (var_upper c) = s_dim ps) by (rewrite (as_upper _ _ _ _ _ _ AS); exact BU).
  destruct (search_bounds_length c) as (S1 & S2); [unfold point in *; lia|].
  assert (R : region (fun q => List.length q = s_dim ps) s).
  { apply (region_runs c ok _) with (l := l); auto.
    - intros i pts q Hi E Hq. destruct (HOK i Hi) as [A _]. eauto.
    - intros q Hq. destruct (as_pos _ _ _ _ _ _ AS q Hq) as (l0 & x & _ & _ & E). unfold user_point in E. fold ps in E.
      destruct (_ =? _)%nat eqn:EL; [|discriminate]. apply Nat.eqb_eq in EL. injection E as <-. unfold round_integer_vars. rewrite round_at_length.
      set (uf := free_vars eps b).
      assert (HEn : encoded ps (take 0 uf (bb_lower b)) (take 0 uf (bb_upper b)) (take VReal uf (bb_type b)))
        by (unfold uf, ps; rewrite (free_unfixed eps b Hwf); apply construct_encoded; apply wf_iff; exact Hwf).
      apply (expand_spec ps _ _ _ x HEn).
    - intros i q Hi E. destruct (HOK i Hi) as [_ A]. eauto.
    - intros q Hq. rewrite clip_length; unfold point in *; lia.
    - intros q Hq. unfold to_orig. rewrite transform_length; unfold point in *; lia.
    - intros q Hq. unfold to_scaled. rewrite transform_length; unfold point in *; lia. }
  destruct R as (_ & _ & R3). destruct Hp as [(v & Hp)|(v & el & eu & Hp)]; eapply R3; try exact Hp; reflexivity.
Qed.
Lemma user_dim : bb_dim b = ub_dim B.
Proof.
  unfold user_black_box in HB. destruct (_ =? _)%nat eqn:E1 in HB; [|discriminate]. apply Nat.eqb_eq in E1. unfold b, ub_box, bb_dim. cbn. exact E1.
Qed.
Lemma user_evaluate s l p : reach c ok s l -> called_at (trace s) p -> ub_evaluate B (bbpt ps p) = UOk (ub_fun B (bbpt ps p)).
Proof.
  intros HR Hp. pose proof (user_lengths s l p HR Hp) as HL. destruct (fixed_spec eps b Hwf p HL) as (BLn & _). fold ps in BLn.
  unfold ub_evaluate. rewrite BLn, user_dim, Nat.eqb_refl. reflexivity.
Qed.
Lemma user_evaluate_noisy s l p v el eu : reach c ok s l -> In (EvNoisy p v el eu) (trace s) ->
  exists g, ub_noisy B = Some g /\ ub_evaluate_noisy B (bbpt ps p) = UOk (g (bbpt ps p)).
Proof.
  intros HR Hp. assert (CA : called_at (trace s) p) by (right; eauto).
  pose proof (user_lengths s l p HR CA) as HL. destruct (fixed_spec eps b Hwf p HL) as (BLn & _). fold ps in BLn. pose proof user_dim as UD. rewrite UD in BLn.
  destruct (ub_noisy B) as [g|] eqn:EN.
  - exists g. split; [reflexivity|]. unfold ub_evaluate_noisy. rewrite BLn, Nat.eqb_refl, EN. reflexivity.
  - exfalso. assert (HN : has_noisy c = false) by (rewrite (as_noisy _ _ _ _ _ _ AS); unfold ub_has_noisy; rewrite EN; reflexivity).
    pose proof (phase_spec c ok s l HR HN) as Z0. revert Hp Z0. clear.
    assert (X : forall tr, (0 <= noisy_calls tr)%Z) by (induction tr as [|[] r IH]; cbn [noisy_calls]; lia).
    generalize (trace s). induction l as [|e r IH]; intros H Z0; [destruct H|]. destruct H as [->|H].
    + cbn [noisy_calls] in Z0. specialize (X r). lia.
    + apply IH; [exact H|]. specialize (X r). destruct e; cbn [noisy_calls] in Z0; lia.
Qed.
End UserBB.

(** ** Returned points *)
Lemma in_history c ok s l v p : reach c ok s l -> result s = Some (v, p) -> In p (all_pos (T s)).
Proof.
  intros HR H.
  assert (L : List.length (all_val (T s)) = List.length (all_pos (T s))).
  { pose proof (aligned_spec c ok s l HR) as X. cbn zeta in X. tauto. }
  unfold result in H. destruct (all_val (T s)) as [|a r] eqn:E; [discriminate|]. injection H as _ <-.
  apply nth_In. rewrite <- L. rewrite <- E. destruct (argmin_spec (all_val (T s))) as (H1 & _); [rewrite E; discriminate|]. rewrite E in *. exact H1.
Qed.
Lemma declared_values eps b x : declared eps b x -> declared_free eps b (values_at (free_vars eps b) x).
Proof.
  intros (HL & H). split; [apply map_length|]. intros k Hk.
  assert (HI : In (nth k (free_vars eps b) 0%nat) (free_vars eps b)) by (apply nth_In; exact Hk).
  unfold values_at. rewrite (nth_indep _ 0 (nth 0%nat x 0)) by (rewrite map_length; exact Hk).
  rewrite (map_nth (fun i => nth i x 0)). unfold free_vars in HI at 2. apply filter_In in HI. destruct HI as [H1 H2].
  apply in_seq in H1. specialize (H (nth k (free_vars eps b) 0%nat) ltac:(lia)).
  destruct (fixedb eps b (nth k (free_vars eps b) 0%nat)); [discriminate|exact H].
Qed.

(** ** Settings reach the optimizer unchanged *)
Lemma fields_spec d b noisy u c : make_algorithm d b noisy u = COk c ->
  (forall k z, In (k, z) (count_fields c) -> exists q, setting d k q /\ q == inject_Z z) /\
  (forall k q, In (k, q) (number_fields c) -> setting d k q) /\
  (forall k x, In (k, x) (truth_fields c) -> exists q, setting d k q /\ (x = true <-> ~ q == 0)).
Proof.
  intros H. apply make_reads in H. destruct H as (n & lo & up & ints & d' & HA & R).
  assert (X : forall k, In k (map fst (count_fields c) ++ map fst (number_fields c) ++ map fst (truth_fields c))%list -> lookup k d' = lookup k d).
  { intros k Hk. apply (set_auto_other _ _ _ _ _ _ _ HA). intros H. unfold auto_keys in H. cbn [In] in H.
    unfold count_fields, number_fields, truth_fields in Hk. cbn [map fst app In] in Hk.
    repeat (destruct H as [<-|H]; [repeat (destruct Hk as [Hk|Hk]; [discriminate|]); exact Hk|]). exact H. }
  assert (GI : forall k z, In (k, z) (count_fields c) -> get_int k d' = COk z).
  { intros k z Hk. unfold count_fields in Hk. cbn [In] in Hk. destruct R.
    repeat (destruct Hk as [Hk|Hk]; [injection Hk as <- <-; assumption|]). destruct Hk. }
  assert (GN : forall k z, In (k, z) (number_fields c) -> get_num k d' = COk z).
  { intros k z Hk. unfold number_fields in Hk. cbn [In] in Hk. destruct R.
    repeat (destruct Hk as [Hk|Hk]; [apply pair_equal_spec in Hk; destruct Hk as [<- <-]; assumption|]). destruct Hk. }
  assert (GB : forall k z, In (k, z) (truth_fields c) -> get_bool k d' = COk z).
  { intros k z Hk. unfold truth_fields in Hk. cbn [In] in Hk. destruct R.
    repeat (destruct Hk as [Hk|Hk]; [injection Hk as <- <-; assumption|]). destruct Hk. }
  split; [|split].
  - intros k z Hk. apply get_int_setting. rewrite <- (get_int_same k d d'); [exact (GI k z Hk)|].
    apply X. apply in_or_app. left. apply in_map_iff. exists (k, z). auto.
  - intros k z Hk. apply get_num_setting. rewrite <- (get_num_same k d d'); [exact (GN k z Hk)|].
    apply X. apply in_or_app. right. apply in_or_app. left. apply in_map_iff. exists (k, z). auto.
  - intros k x Hk. pose proof (GB k x Hk) as E. unfold get_bool in E. rewrite X in E
      by (apply in_or_app; right; apply in_or_app; right; apply in_map_iff; exists (k, x); auto).
    destruct (lookup k d) as [[q|s|y]|] eqn:EL; try discriminate; injection E as <-.
    + exists q. split; [left; exact EL|]. destruct (Qeq_bool q 0) eqn:EQ; cbn [negb].
      * apply Qeq_bool_iff in EQ. split; [discriminate|]. intros HN. contradiction.
      * apply Qeq_bool_neq in EQ. split; auto.
    + exists (if y then 1 else 0). split; [right; eauto|]. destruct y; split; intros HH; auto; try discriminate. exfalso. apply HH. reflexivity.
Qed.
