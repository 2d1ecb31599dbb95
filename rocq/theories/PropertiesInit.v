(** * Properties of initial sampling and utilities (C28, C41 - C47, C56, C85, C89, C90).

    [initial_sample c s attempts] is what the initialization at a (re)start returns for the
    problem [s] with settings [c]; [attempts] are the random draws.  Vocabulary: [SpecInit]. *)
From Verif Require Import InitUtil.
From Coq Require Import Lia Lqa Sorted.
Open Scope Q_scope.

(** An integer variable in [0,4] and a categorical one with values 1, 2, 3. *)
Definition eps1 : Q := 1 # 1000000.
Definition bb1 : bbox := mkBB [0; 1] [4; 3] [VInt; VCat].
Definition cfg1 (st : strategy) (m : nat) : init_cfg := mkInit st 1 0 1 true (1 # 100000) m.
Definition att1 : attempt :=
  mkAttempt [] [([[2; 0; 4; 1; 3]; [1; 3; 0; 2; 4]]%nat, repeat [1#2; 1#3] 5)] 0 (fun _ => true).
Example bb1_ok : well_formed bb1 /\ ordered_bounds eps1 bb1 /\ integral_categories eps1 bb1 /\
  good_attempt (requested (cfg1 LhdMaximin 2) (construct_problem eps1 bb1)) (sampled_dim (cfg1 LhdMaximin 2) (construct_problem eps1 bb1)) att1.
Proof.
  split; [split; reflexivity|]. split; [|split].
  - intros i Hi. vm_compute in Hi. destruct Hi as [<-|[<-|[]]]; vm_compute; discriminate.
  - intros i Hi. vm_compute in Hi. destruct Hi as [<-|[]]. split; [exists 1%Z|exists 3%Z]; reflexivity.
  - change (requested _ _) with 5%nat. change (sampled_dim _ _) with 2%nat.
    split; [intros d []|]. split; [discriminate|]. split; [|cbn; lia].
    intros t [<-|[]]. split; [reflexivity|]. split; [|split; [reflexivity|]].
    + intros pm [<-|[<-|[]]]; (split; [reflexivity|split; [repeat (constructor; [cbn; lia|]); constructor|]]); intros k Hk; cbn in Hk; lia.
    + intros r Hr. cbn [snd att1 a_trials] in Hr. apply repeat_spec in Hr. subst r. split; [reflexivity|].
      intros x [<-|[<-|[]]]; split; vm_compute; (reflexivity || discriminate).
Qed.

(** ** C28 *)
(** Latin hypercube strategies: every initial point has exactly one active entry per
    categorical variable, and the black box is called with the fixed variables at their
    values and every categorical variable at one of its values. *)
Theorem C28_lhd_categories_in_range : forall eps b, well_formed b -> ordered_bounds eps b -> integral_categories eps b ->
  let s := construct_problem eps b in
  forall c attempts nodes, is_lhd (i_strategy c) = true -> cat_vars eps b <> [] ->
  (forall a, In a attempts -> good_attempt (requested c s) (sampled_dim c s) a) ->
  initial_sample c s attempts = InitOk nodes ->
  forall p, In p nodes -> one_hot eps b p /\ representable eps b (bb_point s p).
Proof.
  intros eps b H1 H2 H3 s c attempts nodes HL HC HA HI p Hp.
  assert (HE : (is_lhd (i_strategy c) && match s_expansion s with [] => false | _ => true end)%bool = true).
  { rewrite HL. destruct (s_expansion s) eqn:E; [|reflexivity]. exfalso.
    pose proof (CatGlue.expansion_length eps b H1) as L. fold s in L. rewrite E in L.
    pose proof (CatGlue.cat_length eps b H1) as L2. fold s in L2. cbn in L. rewrite <- L in L2. destruct (cat_vars eps b); [congruence|discriminate]. }
  exact (proj2 (initial_cat eps b H1 H2 H3 c attempts nodes HE HA HI p Hp)).
Qed.
Print Assumptions C28_lhd_categories_in_range.
(** The corner strategies always evaluate a point with every categorical variable at 0,
    below the variable's lower bound whenever that is positive. *)
Theorem C28_corner_category_refuted : forall eps b i, well_formed b -> ordered_bounds eps b ->
  In i (cat_vars eps b) -> 0 < lower b i ->
  let s := construct_problem eps b in
  forall c attempts nodes, i_strategy c = AllCorners \/ i_strategy c = LowerCorners ->
  initial_sample c s attempts = InitOk nodes ->
  exists p, In p nodes /\ nth i (bb_point s p) 0 < lower b i.
Proof.
  intros eps b i H1 H2 Hi Hl s c attempts nodes HS HI.
  destruct (corner_decodes_zero eps b c attempts nodes i H1 H2 HS Hi HI) as (p & Hp & E). exists p. split; [exact Hp|]. fold s in E. rewrite E. exact Hl.
Qed.
Print Assumptions C28_corner_category_refuted.
Example C28_case :
  (exists nodes, initial_sample (cfg1 LhdMaximin 2) (construct_problem eps1 bb1) [att1] = InitOk nodes /\ length nodes = 6%nat) /\
  (exists nodes, initial_sample (cfg1 LowerCorners 2) (construct_problem eps1 bb1) [att1] = InitOk nodes) /\
  In 1%nat (cat_vars eps1 bb1) /\ 0 < lower bb1 1.
Proof.
  split; [eexists; split; [vm_compute; reflexivity|reflexivity]|]. split; [eexists; vm_compute; reflexivity|].
  split; [vm_compute; auto|vm_compute; reflexivity].
Qed.

(** ** C41 *)
Theorem C41_at_least_two : forall frac incr cpus n, (2 <= num_init_samples frac incr cpus n)%Z.
Proof. exact num_init_ge. Qed.
Print Assumptions C41_at_least_two.
Theorem C41_monotone : forall frac frac' incr cpus n, frac <= frac' -> 0 <= incr ->
  (num_init_samples frac incr cpus n <= num_init_samples frac' incr cpus n)%Z.
Proof. exact num_init_mono. Qed.
Print Assumptions C41_monotone.
Theorem C41_awaited_at_most_requested : forall frac incr cpus n, 0 <= frac -> 0 <= incr ->
  (min_num_init_samples_parallel frac n <= num_init_samples frac incr cpus n)%Z.
Proof. exact min_le_num. Qed.
Print Assumptions C41_awaited_at_most_requested.
Example C41_case : num_init_samples (3#2) (1#20) 4 6 = 13%Z /\ min_num_init_samples_parallel (3#2) 6 = 10%Z.
Proof. split; reflexivity. Qed.

(** ** C42 *)
Theorem C42_all_corners : forall lo up, length up = length lo ->
  length (all_corners lo up) = (2 ^ length lo)%nat /\ nth 0 (all_corners lo up) [] = lo /\
  (forall p, In p (all_corners lo up) <-> is_corner lo up p) /\
  ((forall i, (i < length lo)%nat -> ~ nth i lo 0 == nth i up 0) -> pairwise_distinct (all_corners lo up)).
Proof.
  intros lo up H. split; [exact (all_corners_length lo up H)|]. split.
  - destruct (all_corners_first lo up H) as [r ->]. reflexivity.
  - split; [exact (all_corners_In lo up H)|]. intros D. apply apart_pairwise. exact (all_corners_apart lo up H D).
Qed.
Print Assumptions C42_all_corners.
Theorem C42_lower_corners : forall lo up, length up = length lo ->
  length (lower_corners lo up) = S (length lo) /\ nth 0 (lower_corners lo up) [] = lo /\
  (forall i, (i < length lo)%nat -> let p := nth (S i) (lower_corners lo up) [] in
     length p = length lo /\ nth i p 0 = nth i up 0 /\ forall j, j <> i -> nth j p 0 = nth j lo 0) /\
  ((forall i, (i < length lo)%nat -> ~ nth i lo 0 == nth i up 0) -> pairwise_distinct (lower_corners lo up)).
Proof.
  intros lo up H. destruct (lower_corners_spec lo up H) as (A & B & D). split; [exact A|]. split; [exact B|]. split.
  - intros i Hi p. unfold p. rewrite (D i Hi). split; [apply BaseLemmas.set_at_length|]. split; [apply BaseLemmas.nth_set_at; exact Hi|].
    intros j Hj. apply BaseLemmas.nth_set_at_ne. auto.
  - exact (lower_corners_apart lo up H).
Qed.
Print Assumptions C42_lower_corners.
Theorem C42_random_corners : forall lo up draws r, length up = length lo ->
  (forall d, In d draws -> length d = length lo) -> random_corners lo up draws = Some r ->
  length r = S (length lo) /\ (forall p, In p r -> is_corner lo up p) /\ pairwise_distinct r.
Proof. exact random_corners_spec. Qed.
Print Assumptions C42_random_corners.
(** The search ends as soon as n+1 distinct corners have been drawn. *)
Theorem C42_random_corners_end : forall lo up draws, length up = length lo ->
  (forall d, In d draws -> length d = length lo) ->
  (exists ps, length ps = S (length lo) /\ pairwise_distinct ps /\
     forall p, In p ps -> exists d, In d draws /\ p = pick_corner d lo up) ->
  exists r, random_corners lo up draws = Some r.
Proof. exact random_corners_total. Qed.
Print Assumptions C42_random_corners_end.
Example C42_case : all_corners [0; 1] [5; 7] = [[0; 1]; [0; 7]; [5; 1]; [5; 7]] /\
  lower_corners [0; 1] [5; 7] = [[0; 1]; [5; 1]; [0; 7]] /\
  random_corners [0; 1] [5; 7] [[true; false]; [true; false]; [false; false]; [true; true]] = Some [[0; 7]; [5; 7]; [0; 1]].
Proof. repeat split. Qed.

(** ** C43 *)
Theorem C43_one_sample_per_interval : forall num n perms rands, lhs_draws num n (perms, rands) ->
  forall j k, (j < n)%nat -> (k < num)%nat ->
  exists i, (i < num)%nat /\ in_part num k (nth j (nth i (uniform_lhs num perms rands) []) 0) /\
    forall i', (i' < num)%nat -> in_part num k (nth j (nth i' (uniform_lhs num perms rands) []) 0) -> i' = i.
Proof. intros num n perms rands HD j k Hj Hk. exact (lhs_one_per_part num n (perms, rands) j k HD Hj Hk). Qed.
Print Assumptions C43_one_sample_per_interval.
Example C43_case : length (uniform_lhs 5 [[2; 0; 4; 1; 3]; [1; 3; 0; 2; 4]]%nat (repeat [1#2; 1#3] 5)) = 5%nat /\
  in_part 5 4 (nth 0 (nth 2 (uniform_lhs 5 [[2; 0; 4; 1; 3]; [1; 3; 0; 2; 4]]%nat (repeat [1#2; 1#3] 5)) []) 0).
Proof. split; [reflexivity|]. split; vm_compute; [discriminate|reflexivity]. Qed.

(** ** C44 *)
(** For every strategy, every initial point is inside the (rounded) box and integral in the
    integer variables. *)
Theorem C44_initial_points_feasible : forall eps b, well_formed b -> ordered_bounds eps b -> integral_categories eps b ->
  let s := construct_problem eps b in
  forall c attempts nodes,
  (forall a, In a attempts -> good_attempt (requested c s) (sampled_dim c s) a) ->
  initial_sample c s attempts = InitOk nodes ->
  forall p, In p nodes -> feasible (box_lower s) (box_upper s) (s_ints s) p.
Proof.
  intros eps b H1 H2 H3 s c attempts nodes HA HI p Hp.
  destruct (is_lhd (i_strategy c) && match s_expansion s with [] => false | _ => true end)%bool eqn:E.
  - exact (proj1 (initial_cat eps b H1 H2 H3 c attempts nodes E HA HI p Hp)).
  - unfold sampled_dim in HA. rewrite E in HA. exact (initial_plain eps b H1 H2 c attempts nodes E HA HI p Hp).
Qed.
Print Assumptions C44_initial_points_feasible.
Example C44_case : exists nodes, initial_sample (cfg1 LhdMaximin 2) (construct_problem eps1 bb1) [att1] = InitOk nodes /\ nodes <> [].
Proof. eexists. split; [vm_compute; reflexivity|discriminate]. Qed.

(** ** C45 *)
(** When each pass yields a sample, initialization succeeds exactly if a pass before the
    last allowed one gives an independent sample. *)
Theorem C45_succeeds_iff : forall c s attempts, (i_max c <= length attempts)%nat ->
  let cat := (is_lhd (i_strategy c) && match s_expansion s with [] => false | _ => true end)%bool in
  let lo := if cat then compress_bounds s (box_lower s) else box_lower s in
  let up := if cat then compress_bounds s (box_upper s) else box_upper s in
  let ints := if cat then compress_ints s (s_ints s) else s_ints s in
  let sample := sample_nodes (i_strategy c) (num_init_samples (i_frac c) (i_incr c) (i_cpus c) (length (box_lower s))) lo up ints in
  (forall a, In a attempts -> exists raw, sample a = Some raw) ->
  (exists nodes, initial_sample c s attempts = InitOk nodes) <->
  (exists i a raw, (i + 1 < i_max c)%nat /\ nth_error attempts i = Some a /\ sample a = Some raw /\
     a_independent a (finish_nodes c cat s lo up ints raw) = true).
Proof.
  intros c s attempts HL cat lo up ints sample HS. unfold initial_sample, initialize_nodes. fold (box_lower s) (box_upper s).
  destruct (Nat.eqb_spec (i_max c) 0) as [Z0|Z0].
  - split; [intros (n & H); discriminate|]. intros (i & a & raw & H & _). lia.
  - fold cat. fold lo. fold up. fold ints.
    rewrite (init_loop_success c _ cat s lo up ints attempts 0) by (lia || exact HS). fold sample. split.
    + intros (i & raw & Hi & A & B). exists i, (nth i attempts (mkAttempt [] [] 0 (fun _ => false))), raw. split; [lia|].
      split; [apply nth_error_nth'; lia|]. auto.
    + intros (i & a & raw & Hi & N & A & B). exists i, raw. apply nth_error_nth with (d := mkAttempt [] [] 0 (fun _ => false)) in N.
      rewrite N. split; [lia|]. auto.
Qed.
Print Assumptions C45_succeeds_iff.
(** With max_random_init = 1 initialization always fails, however good the sample. *)
Theorem C45_last_attempt_refuted : forall c s attempts nodes, i_max c = 1%nat -> initial_sample c s attempts <> InitOk nodes.
Proof.
  intros c s attempts nodes H1. unfold initial_sample, initialize_nodes. rewrite H1. cbn [Nat.eqb].
  destruct attempts as [|a r]; cbn [init_loop]; [discriminate|]. destruct (sample_nodes _ _ _ _ _ _); [|discriminate].
  destruct (a_independent _ _); rewrite H1; cbn [Nat.eqb Nat.ltb Nat.leb]; discriminate.
Qed.
Print Assumptions C45_last_attempt_refuted.
Example C45_case : (exists nodes, initial_sample (cfg1 LowerCorners 2) (construct_problem eps1 bb1) [att1; att1] = InitOk nodes) /\
  initial_sample (cfg1 LowerCorners 1) (construct_problem eps1 bb1) [att1; att1] = InitError.
Proof. split; [eexists; vm_compute; reflexivity|vm_compute; reflexivity]. Qed.

(** ** C46 *)
Theorem C46_index_formula : forall k g n0 step, (1 <= step)%nat -> (0 < g)%Z ->
  sigma_n k (step - 1) g n0 = (k - 1 - (Z.of_nat step - 1) * ((k - n0) / g))%Z.
Proof. intros k g n0 step Hs Hg. rewrite sigma_closed, Qfloor_div_Z by exact Hg. rewrite Nat2Z.inj_sub by exact Hs. reflexivity. Qed.
Print Assumptions C46_index_formula.
(** With at least as many values as assumed initial points, the value used is the
    corresponding order statistic of the values. *)
Theorem C46_order_statistic : forall all frac n g step vals, (0 < g)%Z -> (1 <= step)%nat -> (Z.of_nat step <= g)%Z ->
  vals <> [] -> (0 <= assumed_init_points all frac n <= Z.of_nat (length vals))%Z ->
  let i := (length vals - 1 - (step - 1) * Z.to_nat ((Z.of_nat (length vals) - assumed_init_points all frac n) / g))%nat in
  exists v, fmax_current_iter all frac n g step vals = Some v /\ ith_smallest vals i v.
Proof. exact fmax_valid. Qed.
Print Assumptions C46_order_statistic.
(** With fewer values the lookup fails (IndexError) at every step after the first. *)
Theorem C46_few_points_refuted : forall all frac n g step vals, (0 < g)%Z -> (2 <= step)%nat ->
  (Z.of_nat (length vals) < assumed_init_points all frac n)%Z -> fmax_current_iter all frac n g step vals = None.
Proof. exact fmax_fails. Qed.
Print Assumptions C46_few_points_refuted.
(** The number of initial points assumed: 2^n with all corners, else the whole number nearest to (n+1) times the fraction. *)
Theorem C46_assumed_points : forall frac n, assumed_init_points true frac n = (2 ^ Z.of_nat n)%Z /\
  let x := inject_Z (Z.of_nat n + 1) * frac in
  x - (1#2) <= inject_Z (assumed_init_points false frac n) <= x + (1#2).
Proof. intros frac n. split; [reflexivity|]. apply InitProofs.rhe_bounds. Qed.
Print Assumptions C46_assumed_points.
Example C46_case : fmax_current_iter false 1 2 5 3 [4; 7; 1; 9; 3; 8; 2; 5; 6; 0] = Some 7 /\
  fmax_current_iter false 1 2 5 2 [4; 7] = None /\ fmax_current_iter false 1 2 5 1 [4; 7] = Some 7.
Proof. repeat split. Qed.

(** ** C47 *)
(** Rounding contains the user's box, changes nothing for integral bounds and continuous
    variables, and produces integral bounds for the integer variables. *)
Theorem C47_rounded_bounds : forall lo up ints, length up = length lo ->
  let lo' := fst (round_integer_bounds lo up ints) in let up' := snd (round_integer_bounds lo up ints) in
  length lo' = length lo /\ length up' = length lo /\
  forall i, (i < length lo)%nat ->
    (nth i lo' 0 <= nth i lo 0 /\ nth i up 0 <= nth i up' 0) /\
    (~ In i ints \/ integral (nth i lo 0) /\ integral (nth i up 0) -> nth i lo' 0 == nth i lo 0 /\ nth i up' 0 == nth i up 0) /\
    (In i ints -> integral (nth i lo' 0) /\ integral (nth i up' 0)).
Proof. exact rounded_bounds_spec. Qed.
Print Assumptions C47_rounded_bounds.
(** A fractional lower bound of an integer variable is always rounded to below itself. *)
Theorem C47_never_enlarges_refuted : forall lo up ints i, length up = length lo -> (i < length lo)%nat -> In i ints ->
  ~ integral (nth i lo 0) -> nth i (fst (round_integer_bounds lo up ints)) 0 < nth i lo 0.
Proof. exact rounded_bounds_enlarge. Qed.
Print Assumptions C47_never_enlarges_refuted.
(** With a corner strategy the black box is handed, among the initial points, one whose value
    for the variable is below the bound the user gave. *)
Theorem C47_evaluated_outside_refuted : forall eps b i, well_formed b -> ordered_bounds eps b ->
  In i (plain_vars eps b) -> vtype_of b i <> VReal -> ~ integral (lower b i) ->
  let s := construct_problem eps b in
  forall c attempts nodes, i_strategy c = AllCorners \/ i_strategy c = LowerCorners ->
  initial_sample c s attempts = InitOk nodes ->
  exists p, In p nodes /\ nth i (bb_point s p) 0 < lower b i.
Proof. intros eps b i H1 H2 H3 H4 H5 s c attempts nodes HS HI. exact (corner_below_bound eps b c attempts nodes i H1 H2 HS H3 H4 H5 HI). Qed.
Print Assumptions C47_evaluated_outside_refuted.
Example C47_outside_case : let b := mkBB [1#2; 0] [7#2; 1] [VInt; VReal] in
  well_formed b /\ In 0%nat (plain_vars eps1 b) /\ vtype_of b 0 <> VReal /\
  exists nodes, initial_sample (cfg1 LowerCorners 2) (construct_problem eps1 b) [att1] = InitOk nodes.
Proof. repeat split; [vm_compute; auto|discriminate|]. eexists. vm_compute. reflexivity. Qed.
Example C47_case : round_integer_bounds [1#2; 1#2; 2] [7#2; 7#2; 5] [0; 2]%nat = ([0; 1#2; 2], [4; 7#2; 5]) /\ ~ integral (1#2).
Proof. split; [reflexivity|]. intros [z Hz]. unfold Qeq in Hz. cbn in Hz. lia. Qed.

(** ** C56 *)
(** A point is kept exactly when no earlier point of the list is within min_dist; the kept
    positions are increasing. *)
Theorem C56_kept_points : forall d pts j, In j (init_points_cleanup d pts) <->
  (j < length pts)%nat /\ forall i, (i < j)%nat -> dist_le (nth i pts []) (nth j pts []) d = false.
Proof. exact cleanup_In. Qed.
Print Assumptions C56_kept_points.
Theorem C56_first_sorted_separated : forall d pts, pts <> [] ->
  (exists r, init_points_cleanup d pts = 0%nat :: r) /\ StronglySorted lt (init_points_cleanup d pts) /\
  forall i j, In i (init_points_cleanup d pts) -> In j (init_points_cleanup d pts) -> (i < j)%nat ->
    dist_le (nth i pts []) (nth j pts []) d = false.
Proof.
  intros d pts NE. pose proof (cleanup_sorted d pts) as S. split; [|split; [exact S|]].
  - assert (H0 : In 0%nat (init_points_cleanup d pts)).
    { apply cleanup_In. split; [destruct pts; [congruence|cbn; lia]|]. intros i Hi. lia. }
    destruct (init_points_cleanup d pts) as [|x r]; [destruct H0|]. exists r. f_equal. destruct H0 as [E|H0]; [exact E|].
    inversion S as [|? ? _ F]; subst. rewrite Forall_forall in F. specialize (F 0%nat H0). lia.
  - intros i j _ Hj Hij. apply cleanup_In in Hj. apply Hj. exact Hij.
Qed.
Print Assumptions C56_first_sorted_separated.
(** The sample kept need not cover the others: a point can be dropped although every kept
    point is farther than min_dist from it. *)
Theorem C56_dropped_near_kept_refuted : exists d pts j, 0 <= d /\ (j < length pts)%nat /\
  ~ In j (init_points_cleanup d pts) /\
  forall i, In i (init_points_cleanup d pts) -> dist_le (nth i pts []) (nth j pts []) d = false.
Proof.
  exists 1, [[0]; [1]; [2]], 2%nat. split; [discriminate|]. split; [cbn; lia|]. split.
  - intros H. apply cleanup_In in H. destruct H as [_ H]. specialize (H 1%nat ltac:(lia)). discriminate.
  - intros i Hi. vm_compute in Hi. destruct Hi as [<-|[]]. reflexivity.
Qed.
Print Assumptions C56_dropped_near_kept_refuted.
Example C56_case : init_points_cleanup 1 [[0; 0]; [0; 1]; [3; 0]; [0; 2]; [3; 3]] = [0; 2; 4]%nat.
Proof. reflexivity. Qed.

(** ** C85 *)
Theorem C85_results_ready : forall l, results_ready l = true <-> In true l.
Proof. exact results_ready_iff. Qed.
Print Assumptions C85_results_ready.
Theorem C85_ready_index : forall l,
  (In true l -> (one_ready_index l < length l)%nat /\ nth (one_ready_index l) l false = true /\
     forall k, (one_ready_index l < k < length l)%nat -> nth k l false = false) /\
  (~ In true l -> one_ready_index l = length l).
Proof. exact one_ready_spec. Qed.
Print Assumptions C85_ready_index.
Example C85_case : one_ready_index [false; true; true; false] = 2%nat /\ one_ready_index [false; false] = 2%nat.
Proof. split; reflexivity. Qed.

(** ** C89 *)
(** The maximin strategy returns one of the generated designs, and no other has a larger
    smallest pairwise distance. *)
Theorem C89_maximin_design : forall designs, designs <> [] -> (forall d, In d designs -> (2 <= length d)%nat) ->
  In (maximin_choice designs) designs /\
  forall d, In d designs -> exists i j, (i < j < length d)%nat /\
    forall i' j', (i' < j' < length (maximin_choice designs))%nat ->
      sqdist (nth i d []) (nth j d []) <= sqdist (nth i' (maximin_choice designs) []) (nth j' (maximin_choice designs) []).
Proof.
  intros ds NE HL. destruct (maximin_spec ds NE) as [A B]. split; [exact A|]. intros d Hd.
  destruct (min_pair_spec d (HL d Hd)) as [(i & j & Hij & E) _]. exists i, j. split; [exact Hij|]. intros i' j' H'.
  rewrite <- E. destruct (min_pair_spec _ (HL _ A)) as [_ M]. specialize (M i' j' H'). specialize (B d Hd). lra.
Qed.
Print Assumptions C89_maximin_design.
Example C89_case : maximin_choice [[[0]; [1]; [5]]; [[0]; [2]; [4]]; [[1]; [3]; [6]]] = [[0]; [2]; [4]].
Proof. reflexivity. Qed.

(** ** C90 *)
Theorem C90_most_common : forall (A : Type) (eqb : A -> A -> bool), (forall x y, eqb x y = true <-> x = y) ->
  forall l excl, match most_common eqb l excl with
  | Some m => In m l /\ ~ In m excl /\ forall x, In x l -> ~ In x excl -> (count_eq eqb x l <= count_eq eqb m l)%nat
  | None => forall x, In x l -> In x excl
  end.
Proof. intros A eqb H l excl. exact (most_common_spec eqb H l excl). Qed.
Print Assumptions C90_most_common.
Example C90_case : most_common Nat.eqb [3; 1; 2; 2; 1; 3; 3]%nat [3]%nat = Some 1%nat /\ most_common Nat.eqb [3; 3]%nat [3]%nat = None.
Proof. split; reflexivity. Qed.
