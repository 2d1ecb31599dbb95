(** * Properties of the settings (C37 - C40).

    Vocabulary: [SpecSettings] (written from the class documentation); model: [ModelSettings]. *)
From Verif Require Import SettingsProofs SettingsGlue WitnessAlg.
Open Scope string_scope.
Open Scope Q_scope.

(** ** C37 *)
Theorem C37_settings_validation : forall args, valid_args args <-> exists d, construct args = SOk d.
Proof. exact construct_valid. Qed.
Print Assumptions C37_settings_validation.
Theorem C37_invalid_raises : forall args,
  valid_args args \/ construct args = SFail SValue \/ construct args = SFail SType.
Proof. exact construct_error. Qed.
Print Assumptions C37_invalid_raises.
(** An accepted setting that makes every run fail: with save_state_interval = 0 no pass of the
    main loop ever completes an iteration (it raises ZeroDivisionError). *)
Theorem C37_zero_interval_never_completes : forall c i s l s' l', save_state_interval c = 0%Z ->
  pass c i s l = Cont s' l' -> itercount (C s') = itercount (C s).
Proof. exact pass_zero. Qed.
Print Assumptions C37_zero_interval_never_completes.
Theorem C37_accepted_settings_fail_refuted :
  (exists d, construct [("save_state_interval", PNum 0)] = SOk d) /\
  exists c i0 is, save_state_interval c = 0%Z /\ call c i0 1000 is (init_st c) = Failed EZeroDiv.
Proof.
  split; [eexists; vm_compute; reflexivity|].
  exists (wcfg (mkKnobs false false [] [0%Q] [10%Q] 30 40 (1#1000000) (1#1000) (-100) [] [] 0 20 2 false true 10 2 100 true)),
    dflt_inp, [prop [5%Q] 3%Q (0,0,0)]. split; [reflexivity|]. vm_compute. reflexivity.
Qed.
Print Assumptions C37_accepted_settings_fail_refuted.
Example C37_case : valid_args [("rbf", PStr "cubic"); ("max_evaluations", PNum 20)] /\
  ~ valid_args [("rbf", PStr "spline")] /\ ~ valid_args [("eps_opt", PNum (-(1#2)))] /\
  ~ valid_args [("rbff", PStr "cubic")] /\ valid_args [("target_objval", PNum (-5))].
Proof.
  rewrite !construct_valid. split; [eexists; vm_compute; reflexivity|].
  split; [intros [d H]; vm_compute in H; discriminate|].
  split; [intros [d H]; vm_compute in H; discriminate|].
  split; [intros [d H]; vm_compute in H; discriminate|eexists; vm_compute; reflexivity].
Qed.

(** ** C38 *)
Theorem C38_from_dictionary : forall args,
  ((exists d, from_dictionary args = SOk d) <-> valid_args args) /\
  (forall d, from_dictionary args = SOk d ->
     (forall k v, parameter k -> (lookup k d = Some v <-> effective args k v)) /\
     (forall k v, lookup k d = Some v -> parameter k)).
Proof. exact from_dictionary_valid. Qed.
Print Assumptions C38_from_dictionary.
Theorem C38_unknown_name_raises_ValueError : forall args k v, In (k, v) args -> ~ parameter k ->
  from_dictionary args = SFail SValue.
Proof. exact from_dictionary_unknown. Qed.
Print Assumptions C38_unknown_name_raises_ValueError.
Theorem C38_constructor_keeps_values : forall args d, construct args = SOk d ->
  (forall k v, parameter k -> (lookup k d = Some v <-> effective args k v)) /\
  (forall k v, lookup k d = Some v -> parameter k).
Proof. exact construct_effective. Qed.
Print Assumptions C38_constructor_keeps_values.
Example C38_case : let args := [("max_iterations", PNum 7); ("debug", PBool true)] in
  exists d, from_dictionary args = SOk d /\ lookup "max_iterations" d = Some (PNum 7) /\
    lookup "debug" d = Some (PBool true) /\ lookup "max_cycles" d = Some (PNum 1000) /\
    from_dictionary [("maxiter", PNum 7)] = SFail SValue.
Proof. eexists. split; [vm_compute; reflexivity|]. repeat split; vm_compute; reflexivity. Qed.

(** ** C39 *)
Theorem C39_auto_resolves : forall args d n lo up ints d',
  construct args = SOk d -> set_auto_parameters n lo up ints d = SOk d' ->
  (forall k, ~ left_to_program d k -> lookup k d' = lookup k d) /\
  (forall k, enumerated k -> lookup k d' <> Some (PStr "auto")) /\
  (forall f cpus, lookup "init_sample_fraction" d = Some (PNum f) -> lookup "num_cpus" d = Some (PNum cpus) ->
     exists f', lookup "init_sample_fraction" d' = Some (PNum f') /\ 0 <= f').
Proof. exact auto_spec. Qed.
Print Assumptions C39_auto_resolves.
Theorem C39_auto_values : forall n lo up ints d d', set_auto_parameters n lo up ints d = SOk d' ->
  (lookup "rbf" d = Some (PStr "auto") -> lookup "rbf" d' = Some (PStr "thin_plate_spline")) /\
  (lookup "function_scaling" d = Some (PStr "auto") -> lookup "function_scaling" d' = Some (PStr "off")) /\
  (lookup "dynamism_clipping" d = Some (PStr "auto") -> lookup "dynamism_clipping" d' = Some (PStr "median")) /\
  (forall f cpus, lookup "init_sample_fraction" d = Some (PNum f) -> f < 0 ->
     lookup "num_cpus" d = Some (PNum cpus) ->
     exists f', lookup "init_sample_fraction" d' = Some (PNum f') /\
       (cpus <= 2 -> (n <= 20)%nat -> f' = 1#2) /\ (cpus <= 2 -> (20 < n)%nat -> f' = 2#5) /\
       (2 < cpus -> (n <= 20)%nat -> f' = 1) /\ (2 < cpus -> (20 < n <= 50)%nat -> f' = 3#4) /\
       (2 < cpus -> (50 < n)%nat -> f' = 1#2)).
Proof. exact auto_values. Qed.
Print Assumptions C39_auto_values.
Theorem C39_auto_idempotent : forall n lo up ints d d',
  set_auto_parameters n lo up ints d = SOk d' -> set_auto_parameters n lo up ints d' = SOk d'.
Proof. exact set_auto_idem. Qed.
Print Assumptions C39_auto_idempotent.
(** On a heap of settings objects: the result is a new object, every existing object (the
    user's in particular) is unchanged. *)
Theorem C39_user_object_untouched : forall n lo up ints heap self heap' r,
  auto_on_heap n lo up ints heap self = SOk (heap', r) ->
  r <> self /\ (forall j, (j < List.length heap)%nat -> nth_error heap' j = nth_error heap j) /\
  exists d d', nth_error heap self = Some d /\ nth_error heap' r = Some d' /\
    set_auto_parameters n lo up ints d = SOk d'.
Proof. exact auto_heap. Qed.
Print Assumptions C39_user_object_untouched.
Example C39_case : exists d d', construct [("num_cpus", PNum 4); ("function_scaling", PStr "log")] = SOk d /\
  set_auto_parameters 2 [0; 0] [1; 2] [1%nat] d = SOk d' /\
  lookup "init_sample_fraction" d' = Some (PNum 1) /\ lookup "function_scaling" d' = Some (PStr "log") /\
  lookup "rbf" d' = Some (PStr "thin_plate_spline").
Proof.
  do 2 eexists. split; [vm_compute; reflexivity|]. split; [vm_compute; reflexivity|].
  repeat split; vm_compute; reflexivity.
Qed.

(** ** C40 *)
Theorem C40_automatic_domain_scaling : forall n lo up ints d d',
  set_auto_parameters n lo up ints d = SOk d' -> lookup "domain_scaling" d = Some (PStr "auto") ->
  (forall j, (j < n)%nat -> 0 <= range lo up j) ->
  (lookup "domain_scaling" d' = Some (PStr "affine") <->
   ints = [] /\ exists i j, (i < n)%nat /\ (j < n)%nat /\ 5 * range lo up i <= range lo up j) /\
  (lookup "domain_scaling" d' = Some (PStr "affine") \/ lookup "domain_scaling" d' = Some (PStr "off")).
Proof. exact auto_domain_range. Qed.
Print Assumptions C40_automatic_domain_scaling.
(** Fails exactly on a problem without free variables left to automatic scaling. *)
Theorem C40_fails_only_when_all_fixed : forall n lo up ints d,
  List.length lo = n -> List.length up = n -> (forall j, In j ints -> (j < n)%nat) ->
  ((exists d', set_auto_parameters n lo up ints d = SOk d') <->
   ~ (n = 0%nat /\ lookup "domain_scaling" d = Some (PStr "auto"))).
Proof. exact auto_total. Qed.
Print Assumptions C40_fails_only_when_all_fixed.
Example C40_case : exists d d1 d2 d3, construct [] = SOk d /\
  set_auto_parameters 2 [0; 0] [1; 5] [] d = SOk d1 /\ lookup "domain_scaling" d1 = Some (PStr "affine") /\
  set_auto_parameters 2 [0; 0] [1; 4] [] d = SOk d2 /\ lookup "domain_scaling" d2 = Some (PStr "off") /\
  set_auto_parameters 2 [0; 0] [1; 5] [0%nat] d = SOk d3 /\ lookup "domain_scaling" d3 = Some (PStr "off") /\
  set_auto_parameters 0 [] [] [] d = SFail SIndex.
Proof.
  do 4 eexists. split; [vm_compute; reflexivity|]. split; [vm_compute; reflexivity|]. split; [vm_compute; reflexivity|].
  split; [vm_compute; reflexivity|]. split; [vm_compute; reflexivity|]. split; [vm_compute; reflexivity|].
  split; vm_compute; reflexivity.
Qed.
