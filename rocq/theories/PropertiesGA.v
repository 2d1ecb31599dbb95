(** * Genetic search over the surrogate: C63, C98. *)
From Verif Require Import SpecGA GAProofs GAGlue InitProofs InitSample CatProofs CatGlue BaseLemmas.
From Coq Require Import Lia Lqa.
Open Scope Q_scope.

(** ** C63 *)
(** For every problem with integral categorical bounds, every search box inside it, every scoring and
    every sequence of random draws: after any number of generations the population has the same
    size, and each individual lies in the box, is whole in the integer variables and has exactly one
    active value per categorical variable. *)
Theorem C63_population : forall eps b lo up base N objfun rows gens,
  let s := construct_problem eps b in
  let sp := search_space s lo up (s_ints s) in
  well_formed b -> ordered_bounds eps b -> integral_categories eps b -> search_box eps b lo up ->
  (0 < s_dim s)%nat -> (forall m, length (objfun m) = length m) ->
  uniform_rows (population_size base (s_dim s)) (sp_dim sp) rows ->
  run_ok sp base (s_dim s) N 0 objfun (generate_sample_points sp rows) gens ->
  length (ga_population sp base (s_dim s) rows gens) = population_size base (s_dim s) /\
  forall p, In p (ga_population sp base (s_dim s) rows gens) -> feasible lo up (s_ints s) p /\ one_hot eps b p.
Proof.
  intros eps b lo up base N objfun rows gens s sp Hwf Hord Hint HB Hd HO HR HG.
  exact (ga_invariant eps b Hwf Hord Hint lo up HB base N objfun rows gens Hd HO HR HG).
Qed.
Print Assumptions C63_population.

(** With a scoring that depends only on the individual, no later generation loses the best score. *)
Theorem C63_best_never_worse : forall eps b lo up base N f objfun rows gens later,
  let s := construct_problem eps b in
  let sp := search_space s lo up (s_ints s) in
  well_formed b -> ordered_bounds eps b -> integral_categories eps b -> search_box eps b lo up ->
  (0 < s_dim s)%nat -> fixed_scoring f objfun ->
  uniform_rows (population_size base (s_dim s)) (sp_dim sp) rows ->
  run_ok sp base (s_dim s) N 0 objfun (generate_sample_points sp rows) (gens ++ later) ->
  forall p, In p (ga_population sp base (s_dim s) rows gens) ->
  exists q, In q (ga_population sp base (s_dim s) rows (gens ++ later)) /\ xle (f q) (f p) = true.
Proof.
  intros eps b lo up base N f objfun rows gens later s sp Hwf Hord Hint HB Hd HF HR HG.
  exact (ga_best eps b Hwf Hord Hint lo up HB base N objfun f rows gens later Hd HF HR HG).
Qed.
Print Assumptions C63_best_never_worse.

(** The point returned is a member of the last population with the least score, so it lies in the
    box and is integral; with a fixed scoring no individual of any generation was better. *)
Theorem C63_result : forall eps b lo up base N objfun rows gens final,
  let s := construct_problem eps b in
  let sp := search_space s lo up (s_ints s) in
  let pop := ga_population sp base (s_dim s) rows gens in
  let r := ga_optimize sp base (s_dim s) rows gens final in
  well_formed b -> ordered_bounds eps b -> integral_categories eps b -> search_box eps b lo up ->
  (0 < s_dim s)%nat -> (forall m, length (objfun m) = length m) ->
  uniform_rows (population_size base (s_dim s)) (sp_dim sp) rows ->
  run_ok sp base (s_dim s) N 0 objfun (generate_sample_points sp rows) gens ->
  sorts (objfun pop) final ->
  feasible lo up (s_ints s) r /\ one_hot eps b r /\
  (exists i, (i < length pop)%nat /\ r = nth i pop [] /\
     forall j, (j < length pop)%nat -> xle (nth i (objfun pop) None) (nth j (objfun pop) None) = true) /\
  forall f, fixed_scoring f objfun ->
    forall before after, gens = before ++ after ->
    forall p, In p (ga_population sp base (s_dim s) rows before) -> xle (f r) (f p) = true.
Proof.
  intros eps b lo up base N objfun rows gens final s sp pop r Hwf Hord Hint HB Hd HO HR HG HS.
  destruct (C63_population eps b lo up base N objfun rows gens Hwf Hord Hint HB Hd HO HR HG) as [PL PF]. fold s sp pop in PL, PF.
  assert (P4 : (0 < length pop)%nat).
  { rewrite PL. unfold population_size. replace (20 * s_dim s / 5)%nat with (4 * s_dim s)%nat; [lia|]. apply Nat.div_unique with 0%nat; lia. }
  destruct HS as ((FL & FN & FB) & FS). rewrite HO in FL, FB.
  assert (HF : hd 0%nat final = nth 0 final 0%nat) by (destruct final; reflexivity).
  assert (I0 : (nth 0 final 0%nat < length pop)%nat) by (apply FB, nth_In; lia).
  assert (ALL : forall j, (j < length pop)%nat -> xle (nth (nth 0 final 0%nat) (objfun pop) None) (nth j (objfun pop) None) = true).
  { intros j Hj. assert (IN : In j final).
    { destruct (in_dec Nat.eq_dec j final) as [|NI]; [assumption|exfalso].
      assert (X : (length (j :: final) <= length (seq 0 (length pop)))%nat).
      { apply NoDup_incl_length; [constructor; assumption|]. intros k [<-|Hk]; apply in_seq; (split; [apply Nat.le_0_l|cbn [Nat.add]]); [exact Hj|apply FB, Hk]. }
      cbn [length] in X. rewrite seq_length in X. lia. }
    destruct (In_nth _ _ 0%nat IN) as (k & Hk & <-). apply FS. lia. }
  assert (RI : In r pop) by (unfold r, ga_optimize; fold pop; rewrite HF; apply nth_In; exact I0).
  destruct (PF r RI) as [A B]. split; [exact A|]. split; [exact B|]. split.
  - exists (nth 0 final 0%nat). split; [exact I0|]. split; [unfold r, ga_optimize; fold pop; rewrite HF; reflexivity|exact ALL].
  - intros f HFS before after -> p Hp.
    destruct (C63_best_never_worse eps b lo up base N f objfun rows before after Hwf Hord Hint HB Hd HFS HR HG p Hp) as (q & Hq & Lq).
    fold s sp in Hq. fold pop in Hq. destruct (In_nth _ _ [] Hq) as (j & Hj & <-).
    eapply xle_trans; [|exact Lq]. specialize (ALL j Hj). rewrite (proj1 HFS) in ALL.
    rewrite !(nth_indep _ None (f [])) in ALL by (rewrite map_length; assumption). rewrite !map_nth in ALL.
    unfold r, ga_optimize. fold pop. rewrite HF. exact ALL.
Qed.
Print Assumptions C63_result.

(** A problem with a real, an integer and a categorical variable; one generation. *)
Definition ga_bb : bbox := mkBB [0; -(2); 1] [1; 3; 3] [VReal; VInt; VCat].
Definition ga_eps : Q := 1 # 1000000.
Definition ga_setup := construct_problem ga_eps ga_bb.
Definition ga_sp := search_space ga_setup (box_lower ga_setup) (box_upper ga_setup) (s_ints ga_setup).
Definition ga_rows (m : nat) : list point := map (fun i => [Z.of_nat i # 20; 1 # 2; Z.of_nat i # 20]) (seq 0 m).
Definition ga_score (p : point) : score := Some (nth 0 p 0).
Definition ga_objfun (l : list point) : list score := map ga_score l.
Definition ga_gen : gen_draw :=
  mkGen (seq 0 20) (seq 0 5) [4; 3; 2; 1; 0]%nat (repeat [true; false; true] 5) (ga_rows 9)
        [(1%nat, 9 # 10)] [None; Some [(2%nat, 1 # 10)]; None; None].
Lemma ga_rows_ok m : (m <= 20)%nat -> uniform_rows m 3 (ga_rows m).
Proof.
  intros H. split; [unfold ga_rows; rewrite map_length, seq_length; reflexivity|]. intros r Hr. apply in_map_iff in Hr.
  destruct Hr as (i & <- & Hi). apply in_seq in Hi. split; [reflexivity|].
  assert (A : 0 <= Z.of_nat i # 20 < 1) by (unfold Qle, Qlt; cbn [Qnum Qden]; lia).
  intros x [<-|[<-|[<-|[]]]]; [exact A| |exact A]. split; [discriminate|reflexivity].
Qed.
Lemma perm_seq m : permutation_of m (seq 0 m).
Proof. split; [apply seq_length|]. split; [apply seq_NoDup|]. intros k Hk. apply in_seq in Hk. lia. Qed.
Example C63_case :
  well_formed ga_bb /\ ordered_bounds ga_eps ga_bb /\ integral_categories ga_eps ga_bb /\
  search_box ga_eps ga_bb (box_lower ga_setup) (box_upper ga_setup) /\ s_dim ga_setup = 5%nat /\
  fixed_scoring ga_score ga_objfun /\
  uniform_rows (population_size 0 5) (sp_dim ga_sp) (ga_rows 20) /\
  run_ok ga_sp 0 5 20 0 ga_objfun (generate_sample_points ga_sp (ga_rows 20)) [ga_gen] /\
  nth 6 (ga_population ga_sp 0 5 (ga_rows 20) [ga_gen]) [] <> nth 6 (ga_population ga_sp 0 5 (ga_rows 20) []) [].
Proof.
  assert (FV : free_vars ga_eps ga_bb = [0; 1; 2]%nat) by (vm_compute; reflexivity).
  assert (CV : cat_vars ga_eps ga_bb = [2]%nat) by (vm_compute; reflexivity).
  assert (IN : s_ints ga_setup = [1; 2; 3; 4]%nat) by (vm_compute; reflexivity).
  split; [split; reflexivity|]. split.
  { intros i Hi. rewrite FV in Hi. destruct Hi as [<-|[<-|[<-|[]]]]; discriminate. }
  split.
  { intros i Hi. rewrite CV in Hi. destruct Hi as [<-|[]]. split; [exists 1%Z|exists 3%Z]; reflexivity. }
  split.
  { split; [reflexivity|]. split; [reflexivity|]. split; [|split].
    - intros j Hj. change (s_dim (construct_problem ga_eps ga_bb)) with 5%nat in Hj.
      do 5 (destruct j as [|j]; [repeat split; discriminate|]). lia.
    - intros j Hj. fold ga_setup in Hj. rewrite IN in Hj.
      destruct Hj as [<-|[<-|[<-|[<-|[]]]]]; split;
        first [exists (-2)%Z; reflexivity | exists 3%Z; reflexivity | exists 0%Z; reflexivity | exists 1%Z; reflexivity].
    - intros j Hj. change (s_dim (construct_problem ga_eps ga_bb)) with 5%nat in Hj.
      change (length (plain_vars ga_eps ga_bb)) with 2%nat in Hj. do 5 (destruct j as [|j]; [try lia; split; reflexivity|]). lia. }
  split; [reflexivity|]. split.
  { split; [reflexivity|]. intros p q [SL SE]. unfold ga_score, xle. apply Qle_bool_iff.
    destruct p as [|x p], q as [|y q]; cbn [length] in SL; try lia; cbn [nth]; [lra|].
    specialize (SE 0%nat ltac:(cbn; lia)). cbn [nth] in SE. rewrite SE. lra. }
  split; [apply ga_rows_ok; lia|]. split.
  { cbn [run_ok]. split; [|exact Logic.I]. change (num_surviving 0 5) with 5%nat. change (num_new 0 5) with 9%nat.
    change (sp_dim ga_sp) with 3%nat. change (max_size_pert 3 (mutation_rate 20 0)) with 2%nat.
    split.
    - split; [rewrite (map_length ga_score); exact (perm_seq 20)|]. cbn [g_rank ga_gen]. rewrite seq_length. intros i j Hij.
      rewrite !seq_nth by lia. cbn [Nat.add].
      assert (E : forall k, (k < 20)%nat -> nth k (ga_objfun (generate_sample_points ga_sp (ga_rows 20))) None = Some ((Z.of_nat k # 20) * (1 - 0) + 0)).
      { intros k Hk. do 20 (destruct k as [|k]; [vm_compute; reflexivity|]). lia. }
      rewrite !E by lia. cbn [xle]. apply Qle_bool_iff.
      assert (A : Z.of_nat i # 20 <= Z.of_nat j # 20) by (unfold Qle; cbn [Qnum Qden]; lia). lra.
    - split; [exact (perm_seq 5)|]. split.
      { split; [reflexivity|]. split; [repeat (constructor; [cbn; intuition discriminate|]); constructor|].
        intros k [<-|[<-|[<-|[<-|[<-|[]]]]]]; lia. }
      split; [reflexivity|]. split.
      { intros c Hc. cbn [g_coins ga_gen] in Hc. apply repeat_spec in Hc. subst c. reflexivity. }
      split; [apply (ga_rows_ok 9); lia|].
      assert (M : forall j r, (j < 3)%nat -> 0 <= r < 1 -> mutation_ok 3 2 [(j, r)]).
      { intros j r Hj Hr. split; [constructor; [intros []|constructor]|]. split; [cbn; lia|]. intros j' r' [E|[]]. inversion E; subst. auto. }
      split; [apply M; [lia|split; [discriminate|reflexivity]]|]. split; [reflexivity|].
      intros mu Hmu. cbn [g_mutations ga_gen] in Hmu. destruct Hmu as [E|[E|[E|[E|[]]]]]; try discriminate. inversion E; subst.
      apply M; [lia|split; [discriminate|reflexivity]]. }
  vm_compute. discriminate.
Qed.

(** The hypothesis on categorical bounds is needed: with bounds 1/2 and 5/2 the categories are 1/2,
    3/2, 5/2, but individuals are created by rounding to whole numbers, so none is valid. *)
Definition frac_bb : bbox := mkBB [0; 1 # 2] [1; 5 # 2] [VReal; VCat].
Theorem C63_fractional_categories_refuted :
  let s := construct_problem ga_eps frac_bb in
  let sp := search_space s (box_lower s) (box_upper s) (s_ints s) in
  well_formed frac_bb /\ ordered_bounds ga_eps frac_bb /\
  search_box ga_eps frac_bb (box_lower s) (box_upper s) /\
  forall r, length r = 2%nat -> ~ one_hot ga_eps frac_bb (sample_point sp r).
Proof.
  intros s sp.
  assert (FV : free_vars ga_eps frac_bb = [0; 1]%nat) by (vm_compute; reflexivity).
  assert (IN : s_ints s = [1; 2; 3]%nat) by (vm_compute; reflexivity).
  split; [split; reflexivity|]. split.
  { intros i Hi. rewrite FV in Hi. destruct Hi as [<-|[<-|[]]]; discriminate. }
  split.
  { split; [reflexivity|]. split; [reflexivity|]. split; [|split].
    - intros j Hj. change (s_dim (construct_problem ga_eps frac_bb)) with 4%nat in Hj.
      do 4 (destruct j as [|j]; [repeat split; discriminate|]). lia.
    - intros j Hj. fold s in Hj. rewrite IN in Hj.
      destruct Hj as [<-|[<-|[<-|[]]]]; split; first [exists 0%Z; reflexivity | exists 1%Z; reflexivity].
    - intros j Hj. change (s_dim (construct_problem ga_eps frac_bb)) with 4%nat in Hj.
      change (length (plain_vars ga_eps frac_bb)) with 1%nat in Hj. do 4 (destruct j as [|j]; [try lia; split; reflexivity|]). lia. }
  intros r Hr [_ H]. destruct r as [|x [|y [|z r]]]; try discriminate.
  assert (CV : cat_vars ga_eps frac_bb = [1]%nat) by (vm_compute; reflexivity). rewrite CV in H.
  destruct (H 0%nat ltac:(cbn; lia)) as (j & Hj & E & _). cbn [nth] in Hj, E.
  change (num_values frac_bb 1) with 3%nat in Hj. change (block_start ga_eps frac_bb 0) with 1%nat in E.
  set (v := y * (5 # 2) ) in *.
  assert (SH : sample_point sp [x; y] = expand s [ x * (1 - 0) + 0; inject_Z (round_half_even (y * ((1#2) + inject_Z 3 - 1 - (1#2)) + (1#2)))]).
  { reflexivity. }
  rewrite SH in E. set (z := round_half_even _) in E.
  assert (EX : expand s [x * (1 - 0) + 0; inject_Z z] = (x * (1 - 0) + 0) :: expand_block (inject_Z z) (1#2) 3) by reflexivity.
  rewrite EX in E. cbn [Nat.add nth] in E.
  assert (NZ : forall k : nat, ~ inject_Z z == (1#2) + inject_Z (Z.of_nat k)).
  { intros k K. unfold Qeq, Qplus, inject_Z in K. cbn [Qnum Qden] in K. lia. }
  rewrite CatCodes.expand_block_nth in E by exact Hj.
  destruct (Qeq_bool _ _) eqn:QB; [apply Qeq_bool_iff in QB; exact (NZ j QB)|discriminate].
Qed.
Print Assumptions C63_fractional_categories_refuted.

(** ** C98 *)
(** A mutation changes fewer coordinates than its maximum size, each inside its bounds; with a
    single variable it changes nothing, so the "mutated best" is always a copy of the best. *)
Theorem C98_mutation_size : forall sp mu p max, mutation_ok (sp_dim sp) max mu ->
  exists J, (length J < max)%nat /\ forall j, ~ In j J -> nth j (mutate sp mu p) 0 = nth j p 0.
Proof.
  intros sp mu p max (_ & HL & _). exists (map fst mu). split; [rewrite map_length; exact HL|].
  intros j. unfold mutate. revert p. clear HL. induction mu as [|[i r] t IH]; intros p HN; cbn [map fst put In] in *; [reflexivity|].
  rewrite IH by tauto. apply nth_set_at_ne. tauto.
Qed.
Print Assumptions C98_mutation_size.
Theorem C98_mutation_in_bounds : forall sp mu p max, good_box (sp_lower sp) (sp_upper sp) (sp_ints sp) ->
  mutation_ok (sp_dim sp) max mu -> feasible (sp_lower sp) (sp_upper sp) (sp_ints sp) p ->
  feasible (sp_lower sp) (sp_upper sp) (sp_ints sp) (mutate sp mu p).
Proof. intros sp mu p max GB. exact (mutate_feas sp GB max mu p). Qed.
Print Assumptions C98_mutation_in_bounds.
(** Up to 29 variables at most one coordinate is perturbed, whatever the generation. *)
Theorem C98_few_variables : forall n N gen mu, (n <= 29)%nat -> (gen < N)%nat ->
  mutation_ok n (max_size_pert n (mutation_rate N gen)) mu -> (length mu <= 1)%nat.
Proof.
  intros n N gen mu Hn HN (_ & HL & _). unfold max_size_pert in HL.
  assert (T : (trunc (inject_Z (Z.of_nat n) * mutation_rate N gen) <= 2)%Z).
  { assert (R : 0 <= mutation_rate N gen /\ mutation_rate N gen <= 1#10).
    { unfold mutation_rate. assert (P : 0 < inject_Z (Z.of_nat N)) by (change 0 with (inject_Z 0); rewrite <- Zlt_Qlt; lia).
      assert (P2 : 0 <= inject_Z (Z.of_nat N - Z.of_nat gen)) by (change 0 with (inject_Z 0); rewrite <- Zle_Qle; lia).
      assert (P3 : inject_Z (Z.of_nat N - Z.of_nat gen) <= inject_Z (Z.of_nat N)) by (rewrite <- Zle_Qle; lia).
      split.
      - apply Qle_shift_div_l; [exact P|]. lra.
      - apply Qle_shift_div_r; [exact P|]. lra. }
    assert (B : 0 <= inject_Z (Z.of_nat n) /\ inject_Z (Z.of_nat n) <= 29).
    { split; [change 0 with (inject_Z 0)|change 29 with (inject_Z 29)]; rewrite <- Zle_Qle; lia. }
    assert (X0 : 0 <= inject_Z (Z.of_nat n) * mutation_rate N gen) by (apply Qmult_le_0_compat; tauto).
    assert (X : inject_Z (Z.of_nat n) * mutation_rate N gen <= 29 * (1#10)).
    { apply Qle_trans with (29 * mutation_rate N gen); [apply Qmult_le_compat_r; tauto|].
      rewrite (Qmult_comm 29), (Qmult_comm 29). apply Qmult_le_compat_r; [tauto|discriminate]. }
    unfold trunc. apply Qle_bool_iff in X0. rewrite X0. apply Qfloor_resp_le in X. vm_compute (Qfloor (29 * (1#10))) in X. exact X. }
  lia.
Qed.
Print Assumptions C98_few_variables.
(** The exact maximum size: a tenth of the variables at the first generation, decreasing linearly, at least 2, at most n. *)
Theorem C98_max_size : forall n N gen, (gen <= N)%nat -> (0 < N)%nat ->
  max_size_pert n (mutation_rate N gen) = Nat.min n (Nat.max 2 (n * (N - gen) / (10 * N))).
Proof.
  intros n N gen HG HN. unfold max_size_pert. do 2 f_equal.
  assert (NZ : ~ inject_Z (Z.of_nat N) == 0) by (change 0 with (inject_Z 0); rewrite inject_Z_injective; lia).
  assert (X : inject_Z (Z.of_nat n) * mutation_rate N gen ==
              inject_Z (Z.of_nat n * (Z.of_nat N - Z.of_nat gen)) / inject_Z (10 * Z.of_nat N)).
  { unfold mutation_rate. rewrite !inject_Z_mult. change (inject_Z 10) with 10. field. exact NZ. }
  assert (P0 : 0 <= inject_Z (Z.of_nat n) * mutation_rate N gen).
  { rewrite X. apply Qle_shift_div_l; [change 0 with (inject_Z 0); rewrite <- Zlt_Qlt; lia|].
    rewrite Qmult_0_l. change 0 with (inject_Z 0). rewrite <- Zle_Qle. nia. }
  unfold trunc. apply Qle_bool_iff in P0. rewrite P0. rewrite (Qfloor_comp _ _ X). rewrite <- Zdiv_Qdiv.
  replace (Z.of_nat n * (Z.of_nat N - Z.of_nat gen))%Z with (Z.of_nat (n * (N - gen))) by nia.
  replace (10 * Z.of_nat N)%Z with (Z.of_nat (10 * N)) by lia.
  rewrite <- Nat2Z.inj_div. apply Nat2Z.id.
Qed.
Print Assumptions C98_max_size.
Example C98_max_size_case : max_size_pert 100 (mutation_rate 20 0) = 10%nat /\ max_size_pert 100 (mutation_rate 20 10) = 5%nat /\
  max_size_pert 100 (mutation_rate 20 19) = 2%nat /\ max_size_pert 30 (mutation_rate 20 0) = 3%nat.
Proof. vm_compute. auto. Qed.
Theorem C98_one_variable : forall sp mu p rate, sp_dim sp = 1%nat ->
  mutation_ok (sp_dim sp) (max_size_pert (sp_dim sp) rate) mu -> mutate sp mu p = p.
Proof.
  intros sp mu p rate H1 (_ & HL & _). rewrite H1 in HL. unfold max_size_pert in HL. destruct mu; [reflexivity|]. cbn [length] in HL. lia.
Qed.
Print Assumptions C98_one_variable.
(** The last individual of every generation, meant to be a mutation of the best, is then the best
    itself, re-encoded. *)
Theorem C98_wasted_individual : forall sp base n population d N gen scores, sp_dim sp = 1%nat ->
  draws_ok (num_surviving base n) (num_new base n) (sp_dim sp) (max_size_pert (sp_dim sp) (mutation_rate N gen)) scores d ->
  (0 < length (firstn (num_surviving base n) (g_rank d)))%nat ->
  last (generation sp base n population d) [] = hd [] (generation sp base n population d).
Proof.
  intros sp base n population d N gen scores H1 HD HL. destruct HD as (_ & _ & _ & _ & _ & _ & MU & _).
  unfold generation. rewrite (C98_one_variable sp _ _ _ H1 MU). rewrite !app_assoc, last_last. rewrite <- !app_assoc.
  destruct (firstn _ (g_rank d)) as [|i r]; [cbn in HL; lia|]. reflexivity.
Qed.
Print Assumptions C98_wasted_individual.
Example C98_case :
  mutation_ok 3 2 [(1%nat, 9 # 10)] /\ mutate ga_sp [(1%nat, 9 # 10)] [0; 0; 0] <> [0; 0; 0] /\
  let sp1 := mkSpace [0] [1] [] (fun p => p) (fun p => p) in sp_dim sp1 = 1%nat /\ mutation_ok 1 (max_size_pert 1 (1#10)) [].
Proof.
  split.
  { split; [constructor; [intros []|constructor]|]. split; [cbn; lia|]. intros j' r' [E|[]]. inversion E; subst. split; [lia|split; [discriminate|reflexivity]]. }
  split; [vm_compute; discriminate|]. split; [reflexivity|]. split; [constructor|]. split; [cbn; lia|]. intros ? ? [].
Qed.
