(** * The optimizer as a whole: C125 - C129.

    [construct args] is the settings object built from keyword arguments, [make_algorithm d b noisy u] the
    optimizer built from it for the black box [b]; runs are those of the serial and the parallel model for the
    problem data built that way; [bb_point (construct_problem eps b) p] is the point handed to the black
    box.  Vocabulary: [SpecProblem]. *)
From Coq Require Import Lia Lqa.
From Verif Require Import PropertiesGA WitnessPar WitnessAlg ProblemRuns SpecProblem.
Open Scope string_scope.
Open Scope Q_scope.
Notation bb_point := ModelCategorical.bb_point.
Notation well_formed := SpecCategorical.well_formed.

(** ** C125 *)
(** From the user's data to the calls of the black box: in every serial run, the black box is only called at points
    of the declared problem, with all coordinates, fixed variables at their value, integer variables integral,
    categorical variables at one of their categories. *)
Theorem C125_evaluations_declared : forall args d eps b noisy u c (ok : inp -> Prop) s l p,
  construct args = SOk d -> setting d "eps_zero" eps -> scaling_safe d eps b -> ordered_bounds eps b ->
  (forall ps x, u_pos u = Some ps -> In x ps -> declared_free eps b x) ->
  make_algorithm d b noisy u = COk c -> (forall i, ok i -> sound_inputs eps b i) ->
  reach c ok s l -> called_at (trace s) p ->
  declared eps b (bb_point (construct_problem eps b) p).
Proof. intros args d eps b noisy u c ok s l p H1 H2 H3 H4 H5 H6 H7 H8 H9. exact (serial_declared args d eps b noisy u c ok H1 H2 H3 H4 H5 H6 H7 s l p H8 H9). Qed.
Print Assumptions C125_evaluations_declared.
(** The hypothesis on the search steps holds when they use the program's own Latin hypercube sample and genetic search. *)
Theorem C125_own_search : forall args d eps b noisy u c s l p,
  construct args = SOk d -> setting d "eps_zero" eps -> scaling_safe d eps b -> ordered_bounds eps b ->
  integral_categories eps b -> free_vars eps b <> [] ->
  (forall ps x, u_pos u = Some ps -> In x ps -> declared_free eps b x) ->
  make_algorithm d b noisy u = COk c ->
  reach c (computed_inputs eps b) s l -> called_at (trace s) p ->
  declared eps b (bb_point (construct_problem eps b) p).
Proof.
  intros args d eps b noisy u c s l p H1 H2 H3 H4 HI HF H5 H6. apply (serial_declared args d eps b noisy u c _ H1 H2 H3 H4 H5 H6).
  pose proof (as_wf _ _ _ _ _ _ (make_assembled _ _ _ _ _ _ H6 H2)) as W.
  intros i Hi. apply (computed_sound eps b i W H4 HI); [|exact Hi].
  destruct (s_dim (construct_problem eps b)) eqn:E; [|lia]. exfalso. apply HF. apply (zero_dim eps b W H4). exact E.
Qed.
Print Assumptions C125_own_search.
(** The point returned is an allowed choice of the free variables; the value belongs to it. *)
Theorem C125_result_declared : forall args d eps b noisy u c (ok : inp -> Prop) s l v x it ev nev,
  construct args = SOk d -> setting d "eps_zero" eps -> scaling_safe d eps b -> ordered_bounds eps b ->
  (forall ps x, u_pos u = Some ps -> In x ps -> declared_free eps b x) ->
  make_algorithm d b noisy u = COk c -> (forall i, ok i -> sound_inputs eps b i) ->
  reach c ok s l -> quintuple (construct_problem eps b) s = Some (v, x, it, ev, nev) ->
  declared_free eps b x /\
  exists p, produced (trace s) p v /\ x = values_at (free_vars eps b) (bb_point (construct_problem eps b) p).
Proof.
  intros args d eps b noisy u c ok s l v x it ev nev H1 H2 H3 H4 H5 H6 H7 H8 H9.
  pose proof (as_wf _ _ _ _ _ _ (make_assembled _ _ _ _ _ _ H6 H2)) as W.
  unfold quintuple in H9. destruct (result s) as [[v' p]|] eqn:ER; [|discriminate].
  apply (f_equal (fun o => match o with Some y => y | None => (v, x, it, ev, nev) end)) in H9.
  apply pair_equal_spec in H9. destruct H9 as [H9 _]. apply pair_equal_spec in H9. destruct H9 as [H9 _].
  apply pair_equal_spec in H9. destruct H9 as [H9 _]. apply pair_equal_spec in H9. destruct H9 as [-> <-].
  destruct (serial_history args d eps b noisy u c ok H1 H2 H3 H4 H5 H6 H7 s l p H8 (in_history c ok s l _ p H8 ER)) as [D O].
  assert (CO : cat_ordered eps b) by (intros i Hi; apply H4; unfold cat_vars in Hi; apply filter_In in Hi; tauto).
  pose proof (CatGlue.returned_agrees eps b W CO p O) as R. rewrite R. split; [apply declared_values; exact D|].
  exists p. split; [exact (AlgExact.result_exact c ok s l _ p H8 ER)|reflexivity].
Qed.
Print Assumptions C125_result_declared.

(** A real, an integer and a categorical variable with values 1, 2, 3. *)
Definition d5 : dict := match construct [("eps_zero", PNum ga_eps)] with SOk d => d | _ => [] end.
Definition u5 : user_data := mkUser (Some [[1#4; 3; 2]]) None true.
Definition c5 : cfg := match make_algorithm d5 ga_bb false u5 with COk c => c | _ => wcfg kn0 end.
Example c5_built : construct [("eps_zero", PNum ga_eps)] = SOk d5 /\ setting d5 "eps_zero" ga_eps /\ scaling_safe d5 ga_eps ga_bb /\
  ordered_bounds ga_eps ga_bb /\ integral_categories ga_eps ga_bb /\ make_algorithm d5 ga_bb false u5 = COk c5 /\
  (forall ps x, u_pos u5 = Some ps -> In x ps -> declared_free ga_eps ga_bb x) /\ init_node_pos c5 = [[1#4; 3; 0; 1; 0]].
Proof.
  split; [vm_compute; reflexivity|]. split; [left; vm_compute; reflexivity|]. split; [left; vm_compute; reflexivity|].
  assert (FV : free_vars ga_eps ga_bb = [0; 1; 2]%nat) by (vm_compute; reflexivity).
  assert (CV : cat_vars ga_eps ga_bb = [2]%nat) by (vm_compute; reflexivity).
  split; [intros i Hi; rewrite FV in Hi; destruct Hi as [<-|[<-|[<-|[]]]]; discriminate|].
  split; [intros i Hi; rewrite CV in Hi; destruct Hi as [<-|[]]; split; [exists 1%Z|exists 3%Z]; reflexivity|].
  split; [vm_compute; reflexivity|]. split; [|vm_compute; reflexivity].
  intros ps x E Hx. injection E as <-. destruct Hx as [<-|[]]. split; [vm_compute; reflexivity|].
  intros k Hk. rewrite FV in *. cbn [List.length] in Hk. destruct k as [|[|[|k]]]; [| | |lia]; cbn [nth].
  - cbn. split; discriminate.
  - split; [exists 3%Z; reflexivity|split; discriminate].
  - vm_compute. exists 1%Z. repeat split; try discriminate; reflexivity.
Qed.
(** The sample: four points computed by the program from Latin hypercube draws. *)
Definition att5 : attempt :=
  mkAttempt [] [([[2; 0; 4; 1; 3; 5]; [1; 3; 0; 2; 4; 5]; [5; 4; 3; 2; 1; 0]]%nat, repeat [1#2; 1#3; 1#4] 6)] 0 (fun _ => true).
Definition ic5 : init_cfg := mkInit LhdMaximin 1 0 1 true (1 # 100000) 2.
Definition sample5 : list point := match initial_sample ic5 ga_setup [att5] with InitOk pts => pts | _ => [] end.
Definition search5 : point := ga_optimize ga_sp 0 (s_dim ga_setup) (ga_rows 20) [] (seq 0 20).
Definition i5 : inp := with_samples (Some sample5) (fun j => inject_Z (5 + Z.of_nat j)) (prop search5 (1#7) (nz 0)).
Lemma some_inj {A} (x y : A) : Some x = Some y -> x = y.
Proof. intros H. injection H. auto. Qed.
Lemma i5_computed : computed_inputs ga_eps ga_bb i5.
Proof.
  pose proof C63_case as (_ & _ & _ & SB & SD & FS & UR & _). split.
  - intros pts E. cbn [i5 with_samples i_samples] in E. apply some_inj in E. subst pts. exists ic5, [att5]. split; [left; reflexivity|]. split; [|vm_compute; reflexivity].
    intros a [<-|[]]. change (requested _ _) with 6%nat. change (sampled_dim _ _) with 3%nat.
    split; [intros x []|]. split; [discriminate|]. split; [|cbn; lia].
    intros t [<-|[]]. split; [reflexivity|]. split; [|split; [reflexivity|]].
    + intros pm [<-|[<-|[<-|[]]]]; (split; [reflexivity|split; [repeat (constructor; [cbn; lia|]); constructor|]]); intros k Hk; cbn in Hk; lia.
    + intros r Hr. cbn [snd att5 a_trials] in Hr. apply repeat_spec in Hr. subst r. split; [reflexivity|].
      intros x [<-|[<-|[<-|[]]]]; split; vm_compute; (reflexivity || discriminate).
  - intros q E. cbn [i5 with_samples prop i_prop] in E. apply some_inj in E. subst q.
    exists (box_lower ga_setup), (box_upper ga_setup), 0%nat, 20%nat, ga_objfun, (ga_rows 20), [], (seq 0 20). cbn zeta.
    split; [exact SB|]. split; [intros m; apply map_length|]. split; [rewrite <- SD in UR; exact UR|]. split; [exact Logic.I|]. split; [|reflexivity].
    split; [rewrite (map_length ga_score); exact (perm_seq 20)|]. rewrite seq_length. intros i j Hij. rewrite !seq_nth by lia. cbn [Nat.add].
    assert (E : forall k, (k < 20)%nat -> nth k (ga_objfun (ga_population ga_sp 0 (s_dim ga_setup) (ga_rows 20) [])) None = Some ((Z.of_nat k # 20) * (1 - 0) + 0)).
    { intros k Hk. do 20 (destruct k as [|k]; [vm_compute; reflexivity|]). lia. }
    change (ga_objfun (ga_population _ _ _ _ _)) with (ga_objfun (ga_population ga_sp 0 (s_dim ga_setup) (ga_rows 20) [])).
    rewrite !E by lia. cbn [xle]. apply Qle_bool_iff.
    assert (A : Z.of_nat i # 20 <= Z.of_nat j # 20) by (unfold Qle; cbn [Qnum Qden]; lia). lra.
Qed.
Definition run5 := call c5 i5 1000 [i5; i5; i5] (init_st c5).
Example C125_case : reach c5 (computed_inputs ga_eps ga_bb) (at_state c5 run5) (at_loc run5) /\
  called_at (trace (at_state c5 run5)) search5 /\ bb_point ga_setup search5 = [0 # 20; 0; 1 + 0] /\
  called_at (trace (at_state c5 run5)) [1#4; 3; 0; 1; 0] /\
  quintuple ga_setup (at_state c5 run5) = Some (1#7, [0 # 20; 0; 1 + 0], 3%Z, 9%Z, 0%Z).
Proof.
  split; [|split; [|split; [|split]]].
  - apply (reach_call c5 (computed_inputs ga_eps ga_bb) i5 1000 [i5; i5; i5]); [exact i5_computed|do 3 (constructor; [exact i5_computed|]); constructor|vm_compute; reflexivity].
  - left. exists (1#7). vm_compute. tauto.
  - vm_compute. reflexivity.
  - left. exists 20. vm_compute. tauto.
  - vm_compute. reflexivity.
Qed.
(** Starting points of the user are not checked: one outside the bounds is evaluated as it is. *)
Definition bb6 : bbox := mkBB [0] [1] [VReal].
Definition u6 : user_data := mkUser (Some [[5]]) None true.
Definition c6 : cfg := match make_algorithm d5 bb6 false u6 with COk c => c | _ => wcfg kn0 end.
Definition i6 : inp := with_samples (Some [[0]; [1]]) (fun j => inject_Z (5 + Z.of_nat j)) dflt_inp.
Theorem C125_unchecked_points_refuted : exists d b u c s l p,
  construct [("eps_zero", PNum ga_eps)] = SOk d /\ ordered_bounds ga_eps b /\
  make_algorithm d b false u = COk c /\ reach c (sound_inputs ga_eps b) s l /\ called_at (trace s) p /\
  ~ declared ga_eps b (bb_point (construct_problem ga_eps b) p).
Proof.
  exists d5, bb6, u6, c6, (at_state c6 (call c6 i6 1000 [] (init_st c6))), (at_loc (call c6 i6 1000 [] (init_st c6))), [5].
  split; [vm_compute; reflexivity|]. split; [intros i Hi; change (free_vars ga_eps bb6) with [0%nat] in Hi; destruct Hi as [<-|[]]; discriminate|].
  split; [vm_compute; reflexivity|]. split; [|split].
  - apply (reach_call c6 (sound_inputs ga_eps bb6) i6 1000 []); [|constructor|vm_compute; reflexivity].
    split; [|discriminate]. intros pts q E Hq. injection E as <-. destruct Hq as [<-|[<-|[]]];
    (split; [split; [reflexivity|]; split; [intros k Hk HV; change (plain_vars ga_eps bb6) with [0%nat] in *; destruct k as [|k]; [elim HV; reflexivity|cbn in Hk; lia]|intros k Hk; cbn in Hk; lia]
    |split; [reflexivity|]; split; [intros j Hj; change (List.length _) with 1%nat in Hj; destruct j as [|j]; [split; discriminate|lia]|intros j []]]).
  - left. exists 20. vm_compute. tauto.
  - intros (_ & H). specialize (H 0%nat ltac:(cbn; lia)). vm_compute in H. destruct H as [_ H]. apply H. reflexivity.
Qed.
Print Assumptions C125_unchecked_points_refuted.

(** ** C126 *)
(** The same in parallel mode, for every order of completions (affine scaling with a noisy oracle excepted, see C103). *)
Theorem C126_parallel_evaluations_declared : forall d eps b noisy u pc0 (ok : pin -> Prop) m P k p nz id,
  setting d "eps_zero" eps -> scaling_safe d eps b -> ordered_bounds eps b ->
  (affine (base pc0) = true -> noisy = false) ->
  (forall ps x, u_pos u = Some ps -> In x ps -> declared_free eps b x) ->
  make_algorithm d b noisy u = COk (base pc0) -> (forall q, ok q -> sound_pins eps b q) ->
  preach pc0 ok m P -> no_error m -> In (PSubmit k p nz id) (p_log P) ->
  declared eps b (bb_point (construct_problem eps b) p).
Proof.
  intros d eps b noisy u pc0 ok m P k p nz0 id H2 H3 H4 H5 H6 H7 H8 H9 H10 H11.
  exact (par_declared d eps b noisy u pc0 ok H2 H3 H4 H5 H6 H7 H8 m P k p nz0 id H9 H10 H11).
Qed.
Print Assumptions C126_parallel_evaluations_declared.
Definition pc5 : pcfg := mkPcfg c5 true 5.
Definition q5 (j : option nat) : pin := mkPin i5 j (APoint (Some search5) false) 0.
Definition qs5 : list pin := [q5 None; q5 None; q5 (Some 0%nat); q5 (Some 1%nat); q5 None] ++ repeat (q5 (Some 0%nat)) 20.
Notation prun5 := (pcall pc5 (q5 None) 1000 qs5).
Example C126_case : preach pc5 (sound_pins ga_eps ga_bb) (fst prun5) (snd prun5) /\ no_error (fst prun5) /\
  (exists k id, In (PSubmit k search5 false id) (p_log (snd prun5))) /\ affine (base pc5) = false.
Proof.
  assert (S : forall j, sound_pins ga_eps ga_bb (q5 j)).
  { intros j. pose proof C63_case as (W & O & IC & _ & SD & _).
    pose proof (computed_sound ga_eps ga_bb i5 W O IC ltac:(fold ga_setup; rewrite SD; lia) i5_computed) as [S1 S2].
    split; [exact S1|]. intros x [H|[(ind & H)|(adj & H)]]; try discriminate. apply S2. cbn [q5 q_ans] in H.
    assert (X : search5 = x) by congruence. rewrite <- X. reflexivity. }
  split; [|split; [|split]].
  - assert (F : Forall (sound_pins ga_eps ga_bb) qs5); [|exact (reach_pcall pc5 (sound_pins ga_eps ga_bb) (q5 None) 1000 qs5 (fst prun5) (snd prun5) (S None) F (surjective_pairing prun5))].
    apply Forall_forall. intros q Hq. unfold qs5 in Hq. apply in_app_or in Hq. destruct Hq as [Hq|Hq].
    + destruct Hq as [<-|[<-|[<-|[<-|[<-|[]]]]]]; apply S.
    + apply repeat_spec in Hq. subst q. apply S.
  - intros e. vm_compute. discriminate.
  - do 2 eexists. vm_compute. tauto.
  - vm_compute. reflexivity.
Qed.

(** ** C127 *)
(** The constructor accepts exactly the consistent arguments: the shapes of the black box' data agree, there is a
    variable, as many values as points if both are given, enough points if no sample is generated, each
    point with one coordinate per free variable; and not all variables are fixed unless the user chooses the scaling. *)
Theorem C127_accepted : forall d eps frac b noisy u, proper_settings d -> ordered_bounds eps b ->
  setting d "eps_zero" eps -> setting d "init_sample_fraction" frac ->
  (exists c, make_algorithm d b noisy u = COk c) <-> consistent_arguments d eps frac b u.
Proof. exact accepted_iff. Qed.
Print Assumptions C127_accepted.
(** Every limit, tolerance and switch of the optimizer is the user's setting of that name. *)
Theorem C127_settings_used : forall d b noisy u c, make_algorithm d b noisy u = COk c ->
  (forall k z, In (k, z) (count_fields c) -> exists q, setting d k q /\ q == inject_Z z) /\
  (forall k q, In (k, q) (number_fields c) -> setting d k q) /\
  (forall k x, In (k, x) (truth_fields c) -> exists q, setting d k q /\ (x = true <-> ~ q == 0)).
Proof. exact fields_spec. Qed.
Print Assumptions C127_settings_used.
(** For instance the budget: no iteration starts when the number of evaluations has reached the user's [max_evaluations]. *)
Theorem C127_budget : forall d b noisy u c i s l s' l' m, make_algorithm d b noisy u = COk c ->
  setting d "max_evaluations" m -> pass c i s l = Cont s' l' -> inject_Z (evalcount (C s)) < m.
Proof.
  intros d b noisy u c i s l s' l' m HM HS HP. destruct (fields_spec d b noisy u c HM) as [H _].
  destruct (H "max_evaluations" (max_evaluations c)) as (q & H1 & H2); [unfold count_fields; cbn [In]; tauto|].
  rewrite (setting_unique _ _ _ _ HS H1), H2, <- Zlt_Qlt. exact (pass_within_budget c i s l s' l' HP).
Qed.
Print Assumptions C127_budget.
(** The test for enough points uses the sample fraction before the automatic value is filled in: with the default (-1) one
    point passes, and the first call of [optimize] fails (C87). *)
Definition u7 : user_data := mkUser (Some [[1#2]]) (Some [3]) false.
Theorem C127_too_few_points_refuted : exists d c, construct [] = SOk d /\ make_algorithm d bb6 false u7 = COk c /\
  (forall i0 pa is, call c i0 pa is (init_st c) = Failed EAssert) /\
  (min_num_init_samples_parallel (init_sample_fraction c) (n c) = 2)%Z.
Proof.
  exists (match construct [] with SOk d => d | _ => [] end).
  exists (match make_algorithm (match construct [] with SOk d => d | _ => [] end) bb6 false u7 with COk c => c | _ => wcfg kn0 end).
  split; [vm_compute; reflexivity|]. split; [vm_compute; reflexivity|]. split; [|vm_compute; reflexivity].
  intros i0 pa is. vm_compute. reflexivity.
Qed.
Print Assumptions C127_too_few_points_refuted.
Lemma d5_proper : proper_settings d5 /\ setting d5 "init_sample_fraction" (-1).
Proof.
  split; [|left; vm_compute; reflexivity]. split; [|split]; intros k Hk.
  - unfold count_settings in Hk. cbn [In] in Hk.
    repeat (destruct Hk as [<-|Hk]; [eexists; eexists; split; [left; vm_compute; reflexivity|reflexivity]|]). destruct Hk.
  - unfold number_settings in Hk. cbn [In] in Hk.
    repeat (destruct Hk as [<-|Hk]; [eexists; left; vm_compute; reflexivity|]). destruct Hk.
  - unfold truth_settings in Hk. cbn [In] in Hk.
    repeat (destruct Hk as [<-|Hk]; [eexists; right; eexists; split; [vm_compute; reflexivity|reflexivity]|]). destruct Hk.
Qed.
Example C127_case : proper_settings d5 /\ ordered_bounds ga_eps ga_bb /\ setting d5 "eps_zero" ga_eps /\
  setting d5 "init_sample_fraction" (-1) /\ consistent_arguments d5 ga_eps (-1) ga_bb u5 /\
  make_algorithm d5 (mkBB [0; 1] [1; 2] [VReal]) false u5 = CFail CAssert /\
  make_algorithm d5 ga_bb false (mkUser None None false) = CFail CAssert /\
  make_algorithm d5 ga_bb false (mkUser (Some [[1; 2]]) None true) = CFail CAssert /\
  make_algorithm d5 ga_bb false (mkUser (Some [[1; 2; 3]]) (Some [1; 2]) true) = CFail CAssert.
Proof.
  destruct d5_proper as [P1 P2]. pose proof c5_built as (_ & E & _ & O & _ & M & _).
  split; [exact P1|]. split; [exact O|]. split; [exact E|]. split; [exact P2|].
  split; [apply (accepted_iff d5 ga_eps (-1) ga_bb false u5 P1 O E P2); eauto|].
  repeat split; vm_compute; reflexivity.
Qed.

(** ** C128: all variables fixed *)
(** With the default settings the constructor raises [IndexError]. *)
Theorem C128_all_fixed_default_refuted : forall d eps frac b noisy u, proper_settings d -> ordered_bounds eps b ->
  setting d "eps_zero" eps -> setting d "init_sample_fraction" frac -> free_vars eps b = [] ->
  lookup "domain_scaling" d = Some (PStr "auto") -> well_formed b -> (1 <= bb_dim b)%nat ->
  u_pos u = None -> u_init u = true -> make_algorithm d b noisy u = CFail CIndex.
Proof.
  intros d eps frac b noisy u HP HO HE HF HV HD [W1 W2] HB HU HI.
  apply (fixed_auto_fails d eps frac b noisy u HO HV HD HE HF).
  - unfold check_bb. rewrite !Bool.andb_true_iff, !Nat.eqb_eq, Nat.leb_le. auto.
  - unfold check_values. rewrite HU. reflexivity.
  - unfold check_enough. rewrite HI. reflexivity.
Qed.
Print Assumptions C128_all_fixed_default_refuted.
(** Otherwise every call of [optimize] evaluates the only point once, whatever the limits, and returns the least
    value so far with a point without coordinates, no iterations, and the number of calls as evaluation count. *)
Theorem C128_all_fixed_result : forall eps b c vs, well_formed b -> ordered_bounds eps b -> free_vars eps b = [] -> vs <> [] ->
  let s := fixed_calls vs (init_st c) in
  trace s = map (EvAcc []) vs /\ bb_point (construct_problem eps b) [] = bb_lower b /\
  exists v, quintuple (construct_problem eps b) s = Some (v, [], 0%Z, Z.of_nat (List.length vs), 0%Z) /\
    In v vs /\ forall w, In w vs -> v <= w.
Proof.
  intros eps b c vs W O F NE s. split; [|split].
  - destruct (fixed_calls_state vs (init_st c)) as (_ & _ & A & _). exact A.
  - apply (fixed_setup eps b W O F).
  - exact (fixed_result eps b c vs W O F NE).
Qed.
Print Assumptions C128_all_fixed_result.
Definition bb8 : bbox := mkBB [3; 1 # 2] [3; 1 # 2] [VInt; VReal].
Example C128_case : free_vars ga_eps bb8 = [] /\ make_algorithm d5 bb8 false (mkUser None None true) = CFail CIndex /\
  lookup "domain_scaling" d5 = Some (PStr "auto") /\
  exists d c, construct [("domain_scaling", PStr "off"); ("max_evaluations", PNum 0)] = SOk d /\
    make_algorithm d bb8 false (mkUser None None true) = COk c /\
    quintuple (construct_problem ga_eps bb8) (fixed_calls [4; 3] (init_st c)) = Some (3, [], 0%Z, 2%Z, 0%Z).
Proof.
  split; [vm_compute; reflexivity|]. split; [vm_compute; reflexivity|]. split; [vm_compute; reflexivity|].
  eexists (match construct [("domain_scaling", PStr "off"); ("max_evaluations", PNum 0)] with SOk d => d | _ => [] end).
  exists (match make_algorithm (match construct [("domain_scaling", PStr "off"); ("max_evaluations", PNum 0)] with SOk d => d | _ => [] end) bb8 false (mkUser None None true) with COk c => c | _ => wcfg kn0 end).
  repeat split; vm_compute; reflexivity.
Qed.

(** ** C129: black boxes built from functions *)
(** A black box built from a dimension, bounds, types and functions is only asked for points of its dimension, so its
    own assertion never fires, and [evaluate_noisy] is only called when the user provided it. *)
Theorem C129_user_function_total : forall d eps B u c (ok : inp -> Prop) s l p, (0 <= min_dist c) -> setting d "eps_zero" eps ->
  ordered_bounds eps (ub_box B) -> make_algorithm d (ub_box B) (ub_has_noisy B) u = COk c ->
  user_black_box (ub_dim B) (ub_lower B) (ub_upper B) (ub_type B) (ub_fun B) (ub_noisy B) = Some B ->
  (forall i, ok i -> let n := s_dim (construct_problem eps (ub_box B)) in
     (forall pts q, i_samples i = Some pts -> In q pts -> List.length q = n) /\ (forall q, i_prop i = Some q -> List.length q = n)) ->
  reach c ok s l -> let x := bb_point (construct_problem eps (ub_box B)) p in
  (called_at (trace s) p -> ub_evaluate B x = UOk (ub_fun B x)) /\
  (forall v el eu, In (EvNoisy p v el eu) (trace s) -> exists g, ub_noisy B = Some g /\ ub_evaluate_noisy B x = UOk (g x)) /\
  (has_noisy c = true <-> exists g, ub_noisy B = Some g).
Proof.
  intros d eps B u c ok s l p H1 H2 H3 H4 H5 H6 H7 x. split; [|split].
  - intros H8. exact (user_evaluate d eps B u c ok H1 H2 H3 H4 H5 H6 s l p H7 H8).
  - intros v el eu H8. exact (user_evaluate_noisy d eps B u c ok H1 H2 H3 H4 H5 H6 s l p v el eu H7 H8).
  - rewrite (as_noisy _ _ _ _ _ _ (make_assembled _ _ _ _ _ _ H4 H2)). unfold ub_has_noisy.
    destruct (ub_noisy B) as [g|]; split; [eauto|reflexivity|discriminate|intros (g & E); discriminate].
Qed.
Print Assumptions C129_user_function_total.
Definition B5 : user_bb := mkUserBB 3 (bb_lower ga_bb) (bb_upper ga_bb) (bb_type ga_bb) (fun x => nth 0 x 0) None.
Example C129_case : user_black_box 3 (bb_lower ga_bb) (bb_upper ga_bb) (bb_type ga_bb) (fun x => nth 0 x 0) None = Some B5 /\
  ub_box B5 = ga_bb /\ make_algorithm d5 (ub_box B5) (ub_has_noisy B5) u5 = COk c5 /\ 0 <= min_dist c5 /\
  ub_evaluate B5 (bb_point ga_setup search5) = UOk (0 # 20) /\ ub_evaluate_noisy B5 (bb_point ga_setup search5) = UNotImplemented /\
  ub_evaluate B5 [1; 2] = UAssert /\
  user_black_box 2 (bb_lower ga_bb) (bb_upper ga_bb) (bb_type ga_bb) (fun x => nth 0 x 0) None = None.
Proof. repeat split; vm_compute; (reflexivity || discriminate). Qed.
