(** * Finite search spaces: C134.

    When every free variable is integer the optimizer computes the number of points and stops when the number of
    evaluations has reached it.  Vocabulary: [SpecSpace]. *)
From Coq Require Import Lia Lqa.
From Verif Require Import AlgGlue ProblemProofs ProblemGlue SpaceProofs SpaceRun PropertiesGA PropertiesProblem WitnessPar WitnessAlg SpecSpace.
Notation same_point := SpecCategorical.same_point.
Open Scope string_scope.
Open Scope Q_scope.

(** ** C134 *)
(** The size used by the stopping test is the number of allowed choices of the free variables. *)
Theorem C134_size : forall d eps b noisy u c, make_algorithm d b noisy u = COk c -> setting d "eps_zero" eps ->
  ordered_bounds eps b ->
  (all_discrete eps b -> cat_vars eps b = [] -> exists z, search_space_size c = Some z /\ number_of_points eps b z) /\
  ((exists i, In i (free_vars eps b) /\ vtype_of b i = VReal) -> search_space_size c = None).
Proof.
  intros d eps b noisy u c HM HE Hord. pose proof (as_wf _ _ _ _ _ _ (make_assembled _ _ _ _ _ _ HM HE)) as W.
  destruct (make_space d b noisy u c eps HM HE) as (ES & _). rewrite ES. split.
  - intros HD HC. eexists. split; [exact (space_grid eps b W Hord HD)|]. eexists. split; [apply nodup_grid|]. split; [reflexivity|].
    exact (grid_declared eps b W Hord HD HC).
  - exact (space_none eps b W Hord).
Qed.
Print Assumptions C134_size.
(** No iteration starts when that many evaluations have been made. *)
Theorem C134_stops : forall c i s l s' l' z, search_space_size c = Some z -> pass c i s l = Cont s' l' -> (evalcount (C s) < z)%Z.
Proof.
  intros c i s l s' l' z HZ H. unfold pass in H.
  destruct (loop_cond c s l (i_clock_ok i)) eqn:E; cbn [negb] in H; [|discriminate].
  unfold loop_cond in E. rewrite HZ, !Bool.andb_true_iff in E. intuition lia.
Qed.
Print Assumptions C134_stops.
(** The evaluations are at different points: there are never more of them than points, and when there are as many, every
    point has been evaluated and the value returned is the minimum. *)
Theorem C134_exhaustive : forall args d eps m b u c (ok : inp -> Prop) s l z,
  construct args = SOk d -> setting d "eps_zero" eps -> setting d "min_dist" m -> 0 < eps <= 1 -> eps <= m ->
  scaling_safe d eps b -> ordered_bounds eps b -> free_vars eps b <> [] -> valued_points eps b u -> all_discrete eps b ->
  make_algorithm d b false u = COk c -> (forall i, ok i -> distinct_inputs eps b i) ->
  cat_vars eps b = [] -> reach c ok s l -> number_of_points eps b z ->
  (evalcount (C s) <= z)%Z /\
  (evalcount (C s) = z -> forall x, declared_free eps b x -> exists p w, In (EvAcc p w) (trace s) /\
     same_point x (values_at (free_vars eps b) (bb_point (construct_problem eps b) p)) /\
     forall v q, result s = Some (v, q) -> v <= w).
Proof.
  intros args d eps m b u c ok s l z HC HE HMD He Hem HSc Hord HF HU HD HM HOK HCat HR (L & N & LZ & HL).
  pose proof (as_wf _ _ _ _ _ _ (make_assembled _ _ _ _ _ _ HM HE)) as W.
  pose proof (size_eq d eps b u c HE Hord HD HM) as SZ.
  assert (EL : Z.of_nat (List.length (grid (box_lower (construct_problem eps b)) (box_upper (construct_problem eps b)))) = z).
  { rewrite <- LZ. f_equal. apply Nat.le_antisymm; apply NoDup_incl_length; try apply nodup_grid; try exact N;
      intros v Hv; [apply HL; apply (grid_declared eps b W Hord HD HCat)|apply (grid_declared eps b W Hord HD HCat); apply HL]; exact Hv. }
  rewrite EL in SZ. split; [exact (never_exceeds args d eps m b u c ok HC HE HMD He Hem HSc Hord HF HU HD HM HOK s l z HR SZ)|].
  intros HQ x Hx.
  destruct (exhausted args d eps m b u c ok HC HE HMD He Hem HSc Hord HF HU HD HM HOK s l z HCat HR SZ HQ x Hx) as (p & w & H1 & H2).
  exists p, w. split; [exact H1|]. split; [exact H2|]. intros v q Hres. eapply (result_optimal c ok s l v q); eauto.
  split; [exact (as_noisy _ _ _ _ _ _ (make_assembled _ _ _ _ _ _ HM HE))|]. exact (make_min_dist args d b false u c HC HM).
Qed.
Print Assumptions C134_exhaustive.
(** With a categorical variable the size counts the 0/1 vectors of its encoding, and is never reached: a finite problem is
    not recognised as exhausted. *)
Theorem C134_categorical_refuted : forall args d eps m b u c (ok : inp -> Prop) s l,
  construct args = SOk d -> setting d "eps_zero" eps -> setting d "min_dist" m -> 0 < eps <= 1 -> eps <= m ->
  scaling_safe d eps b -> ordered_bounds eps b -> free_vars eps b <> [] -> valued_points eps b u -> all_discrete eps b ->
  make_algorithm d b false u = COk c -> (forall i, ok i -> distinct_inputs eps b i) ->
  cat_vars eps b <> [] -> reach c ok s l -> exists z, search_space_size c = Some z /\ (evalcount (C s) < z)%Z.
Proof.
  intros args d eps m b u c ok s l HC HE HMD He Hem HSc Hord HF HU HD HM HOK HCat HR.
  eexists. split; [exact (size_eq d eps b u c HE Hord HD HM)|].
  apply (never_reached args d eps m b u c ok HC HE HMD He Hem HSc Hord HF HU HD HM HOK s l); [exact HCat|exact HR|].
  exact (size_eq d eps b u c HE Hord HD HM).
Qed.
Print Assumptions C134_categorical_refuted.

(** One integer variable in [0, 2]: the third evaluation ends the run at the optimum. *)
Definition bb9 : bbox := mkBB [0] [2] [VInt].
Definition u9 : user_data := mkUser None None true.
Definition c9 : cfg := match make_algorithm d5 bb9 false u9 with COk c => c | _ => wcfg kn0 end.
Definition i9 : inp := with_samples (Some [[0]; [2]]) (fun j => inject_Z (5 + Z.of_nat j)) (prop [1] 3 (nz 0)).
Definition run9 := call c9 i9 1000 [i9] (init_st c9).
Lemma i9_distinct : distinct_inputs ga_eps bb9 i9.
Proof.
  assert (E : forall z, encodes ga_eps bb9 [inject_Z z]).
  { intros z. split; [reflexivity|]. split; [|intros k Hk; vm_compute in Hk; lia].
    intros k Hk HV. change (plain_vars ga_eps bb9) with [0%nat] in Hk. destruct k as [|k]; [|cbn in Hk; lia]. exists z. reflexivity. }
  assert (F : forall z, (0 <= z <= 2)%Z -> feasible (box_lower (construct_problem ga_eps bb9)) (box_upper (construct_problem ga_eps bb9)) (s_ints (construct_problem ga_eps bb9)) [inject_Z z]).
  { intros z Hz. change (construct_problem ga_eps bb9) with (mkSetup [] [0] [2] [0%nat] [] [0%nat] []).
    split; [reflexivity|]. split.
    - intros j Hj. change (List.length _) with 1%nat in Hj. destruct j as [|j]; [|lia]. cbn. rewrite !Zle_Qle in Hz. exact Hz.
    - intros j [<-|[]]. exists z. reflexivity. }
  split; [split|].
  - intros pts q H Hq. cbn [i9 with_samples i_samples] in H. apply some_inj in H. subst pts.
    destruct Hq as [<-|[<-|[]]]; [split; [exact (E 0%Z)|apply (F 0%Z); lia]|split; [exact (E 2%Z)|apply (F 2%Z); lia]].
  - intros q H. cbn [i9 with_samples prop i_prop] in H. apply some_inj in H. subst q. exact (E 1%Z).
  - intros pts H. cbn [i9 with_samples i_samples] in H. apply some_inj in H. subst pts.
    intros i j Hij. cbn [List.length] in Hij. assert (i = 0%nat /\ j = 1%nat) as (-> & ->) by lia. intros (_ & H). specialize (H 0%nat ltac:(cbn; lia)). discriminate.
Qed.
Example C134_case : construct [("eps_zero", PNum ga_eps)] = SOk d5 /\ setting d5 "eps_zero" ga_eps /\ setting d5 "min_dist" (1 # 100000) /\
  0 < ga_eps <= 1 /\ ga_eps <= 1 # 100000 /\ scaling_safe d5 ga_eps bb9 /\ ordered_bounds ga_eps bb9 /\ free_vars ga_eps bb9 = [0%nat] /\
  valued_points ga_eps bb9 u9 /\ all_discrete ga_eps bb9 /\ make_algorithm d5 bb9 false u9 = COk c9 /\ distinct_inputs ga_eps bb9 i9 /\
  cat_vars ga_eps bb9 = [] /\ reach c9 (distinct_inputs ga_eps bb9) (at_state c9 run9) (at_loc run9) /\
  number_of_points ga_eps bb9 3 /\ evalcount (C (at_state c9 run9)) = 3%Z /\ result (at_state c9 run9) = Some (3, [1]) /\
  search_space_size c9 = Some 3%Z /\ pass c9 i9 (at_state c9 run9) (at_loc run9) = Stop.
Proof.
  assert (FV : free_vars ga_eps bb9 = [0%nat]) by reflexivity.
  assert (HM : make_algorithm d5 bb9 false u9 = COk c9) by (vm_compute; reflexivity).
  assert (HE : setting d5 "eps_zero" ga_eps) by (left; vm_compute; reflexivity).
  assert (HO : ordered_bounds ga_eps bb9) by (intros i Hi; rewrite FV in Hi; destruct Hi as [<-|[]]; discriminate).
  assert (HD : all_discrete ga_eps bb9) by (intros i Hi; rewrite FV in Hi; destruct Hi as [<-|[]]; discriminate).
  assert (HS : search_space_size c9 = Some 3%Z) by (vm_compute; reflexivity).
  split; [vm_compute; reflexivity|]. split; [exact HE|]. split; [left; vm_compute; reflexivity|]. split; [split; [reflexivity|discriminate]|].
  split; [discriminate|]. split; [left; vm_compute; reflexivity|]. split; [exact HO|]. split; [exact FV|].
  split; [intros ps H; discriminate|]. split; [exact HD|]. split; [exact HM|]. split; [exact i9_distinct|]. split; [reflexivity|].
  split; [apply (reach_call c9 (distinct_inputs ga_eps bb9) i9 1000 [i9]); [exact i9_distinct|constructor; [exact i9_distinct|constructor]|vm_compute; reflexivity]|].
  split. { destruct (C134_size d5 ga_eps bb9 false u9 c9 HM HE HO) as [X _]. destruct (X HD eq_refl) as (z & Z1 & Z2).
    rewrite HS in Z1. apply some_inj in Z1. subst z. exact Z2. }
  split; [vm_compute; reflexivity|]. split; [vm_compute; reflexivity|]. split; [exact HS|vm_compute; reflexivity].
Qed.
(** One categorical variable with the values 0, 1, 2: after three evaluations at its three values the run goes on. *)
Definition bb10 : bbox := mkBB [0] [2] [VCat].
Definition c10 : cfg := match make_algorithm d5 bb10 false u9 with COk c => c | _ => wcfg kn0 end.
Definition i10 : inp := with_samples (Some [[1; 0; 0]; [0; 1; 0]; [0; 0; 1]]) (fun j => inject_Z (5 + Z.of_nat j)) (prop [1; 0; 0] 3 (nz 0)).
Definition run10 := call c10 i10 1000 [i10; i10; i10] (init_st c10).
Example C134_categorical_case : make_algorithm d5 bb10 false u9 = COk c10 /\ cat_vars ga_eps bb10 = [0%nat] /\ all_discrete ga_eps bb10 /\
  search_space_size c10 = Some 8%Z /\ evalcount (C (at_state c10 run10)) = 3%Z /\
  map (fun p => bb_point (construct_problem ga_eps bb10) p) [[1; 0; 0]; [0; 1; 0]; [0; 0; 1]] = [[0 + 0]; [0 + 1]; [0 + 2]] /\
  (forall p, In p [[1; 0; 0]; [0; 1; 0]; [0; 0; 1]] -> called_at (trace (at_state c10 run10)) p) /\
  exists s' l', pass c10 i10 (at_state c10 run10) (at_loc run10) = Cont s' l'.
Proof.
  split; [vm_compute; reflexivity|]. split; [reflexivity|].
  split; [intros i Hi; change (free_vars ga_eps bb10) with [0%nat] in Hi; destruct Hi as [<-|[]]; discriminate|].
  split; [vm_compute; reflexivity|]. split; [vm_compute; reflexivity|]. split; [vm_compute; reflexivity|]. split.
  - intros p [<-|[<-|[<-|[]]]]; left; [exists 5|exists 6|exists 7]; vm_compute; tauto.
  - destruct (pass c10 i10 (at_state c10 run10) (at_loc run10)) as [s' l'| |] eqn:E; [eauto|..]; vm_compute in E; discriminate.
Qed.
(** The program's own starting sample can contain a point twice: five samples for two variables with the values 0 and 1.
    The black box is then called twice at the same point, five times in all for a space of four points. (The five points span
    the plane: the rank test of the program is passed.) *)
Definition bb11 : bbox := mkBB [0; 0] [1; 1] [VInt; VInt].
Definition d11 : dict := match construct [("eps_zero", PNum ga_eps); ("init_sample_fraction", PNum (5#3))] with SOk d => d | _ => [] end.
Definition c11 : cfg := match make_algorithm d11 bb11 false u9 with COk c => c | _ => wcfg kn0 end.
Definition ic11 : init_cfg := mkInit LhdMaximin (init_sample_fraction c11) 0 1 false (min_dist c11) 2.
Definition att11 : attempt := mkAttempt [] [([[3; 4; 0; 1; 2]; [0; 3; 1; 4; 2]]%nat, repeat [1#2; 1#2] 5)] 0 (fun _ => true).
Definition sample11 : list point := match initial_sample ic11 (construct_problem ga_eps bb11) [att11] with InitOk pts => pts | _ => [] end.
Definition i11 : inp := with_samples (Some sample11) (fun j => inject_Z (5 + Z.of_nat j)) dflt_inp.
Definition run11 := call c11 i11 1000 [] (init_st c11).
Theorem C134_repeated_sample_refuted : exists args d b c pts s l,
  construct args = SOk d /\ make_algorithm d b false u9 = COk c /\ all_discrete ga_eps b /\ cat_vars ga_eps b = [] /\
  search_space_size c = Some 4%Z /\
  computed_sample ga_eps b pts /\ pts = [[1; 0]; [1; 1]; [0; 0]; [0; 1]; [0; 0]] /\
  reach c (fun i => i_samples i = Some pts) s l /\ evalcount (C s) = 5%Z /\
  In (EvAcc [0; 0] 7) (trace s) /\ In (EvAcc [0; 0] 9) (trace s).
Proof.
  exists [("eps_zero", PNum ga_eps); ("init_sample_fraction", PNum (5#3))], d11, bb11, c11, sample11, (at_state c11 run11), (at_loc run11).
  split; [vm_compute; reflexivity|]. split; [vm_compute; reflexivity|].
  split; [intros i Hi; change (free_vars ga_eps bb11) with [0%nat; 1%nat] in Hi; destruct Hi as [<-|[<-|[]]]; discriminate|].
  split; [reflexivity|]. split; [vm_compute; reflexivity|]. split; [|split; [vm_compute; reflexivity|]].
  - exists ic11, [att11]. split; [left; reflexivity|]. split; [|vm_compute; reflexivity].
    assert (RQ : requested ic11 (construct_problem ga_eps bb11) = 5%nat) by (vm_compute; reflexivity).
    assert (SD : sampled_dim ic11 (construct_problem ga_eps bb11) = 2%nat) by (vm_compute; reflexivity). rewrite RQ, SD.
    intros a [<-|[]]. split; [intros x []|]. split; [discriminate|]. split; [|cbn; lia].
    intros t [<-|[]]. split; [reflexivity|]. split; [|split; [reflexivity|]].
    + intros pm [<-|[<-|[]]]; (split; [reflexivity|split; [repeat (constructor; [cbn; lia|]); constructor|]]); intros k Hk; cbn in Hk; lia.
    + intros r Hr. cbn [snd att11 a_trials] in Hr. apply repeat_spec in Hr. subst r. split; [reflexivity|].
      intros x [<-|[<-|[]]]; split; vm_compute; (reflexivity || discriminate).
  - split; [|split; [vm_compute; reflexivity|split; vm_compute; tauto]].
    apply (reach_call c11 (fun i => i_samples i = Some sample11) i11 1000 []); [reflexivity|constructor|vm_compute; reflexivity].
Qed.
Print Assumptions C134_repeated_sample_refuted.
