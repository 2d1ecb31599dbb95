(** * Corner strategies with categorical variables, sample sizes, index and readiness
    utilities, clean-up of starting points. *)
From Verif Require Export InitGlue.
From Verif Require Import CatProofs CatCodes CatGlue BaseLemmas.
From Coq Require Import Lia Lqa Permutation Sorting.
Open Scope Q_scope.

(** ** C28: the lower corner decodes categorical variables to 0 *)
Lemma initial_first c s attempts nodes : i_strategy c = AllCorners \/ i_strategy c = LowerCorners ->
  length (s_upper s) = s_dim s -> initial_sample c s attempts = InitOk nodes ->
  In (round_integer_vars (box_lower s) (s_ints s)) nodes.
Proof.
  intros HS HL H. unfold initial_sample, initialize_nodes in H.
  assert (HC : (is_lhd (i_strategy c) && match s_expansion s with [] => false | _ => true end)%bool = false) by (destruct HS as [-> | ->]; reflexivity).
  rewrite HC in H. fold (box_lower s) (box_upper s) in H. destruct (i_max c =? 0)%nat; [discriminate|].
  apply init_loop_ok in H. destruct H as (a & raw & _ & Er & -> & _).
  assert (HU : length (box_upper s) = length (box_lower s)) by (unfold box_lower, box_upper; rewrite floor_at_len, ceil_at_len; exact HL).
  assert (HR : In (box_lower s) raw).
  { destruct HS as [E|E]; rewrite E in Er; cbn [sample_nodes] in Er; injection Er as <-.
    - destruct (all_corners_first (box_lower s) (box_upper s) HU) as [r ->]. left; reflexivity.
    - left; reflexivity. }
  unfold finish_nodes.
  assert (X : In (round_integer_vars (box_lower s) (s_ints s)) (map (fun p => round_integer_vars p (s_ints s)) raw)).
  { apply in_map_iff. exists (box_lower s). auto. }
  destruct (i_midpoint c && _)%bool; [apply in_or_app; left; exact X|exact X].
Qed.
Lemma corner_decodes_zero eps b c attempts nodes i : well_formed b -> ordered_bounds eps b ->
  i_strategy c = AllCorners \/ i_strategy c = LowerCorners -> In i (cat_vars eps b) ->
  initial_sample c (construct_problem eps b) attempts = InitOk nodes ->
  exists p, In p nodes /\ nth i (bb_point (construct_problem eps b) p) 0 = 0.
Proof.
  intros Hwf Hord HS Hi H. set (s := construct_problem eps b) in *.
  assert (Hc : cat_ordered eps b). { intros j Hj. apply Hord. unfold cat_vars in Hj. apply filter_In in Hj. tauto. }
  assert (UL := upper_len eps b Hwf Hord). fold s in UL.
  exists (round_integer_vars (box_lower s) (s_ints s)). split; [apply (initial_first c s attempts nodes HS UL H)|].
  destruct (In_nth _ _ 0%nat Hi) as (k & Hk & <-).
  assert (LP : length (round_integer_vars (box_lower s) (s_ints s)) = s_dim s).
  { unfold round_integer_vars, box_lower. rewrite round_at_len, floor_at_len. reflexivity. }
  apply (proj2 (decoded_spec eps b Hwf Hc _ LP) k Hk). intros j Hj.
  set (q := (block_start eps b k + j)%nat).
  assert (HB : (length (plain_vars eps b) <= q < s_dim s)%nat).
  { unfold q, s. rewrite (dim_spec eps b Hwf Hc). unfold block_start, encoded_dim. split; [lia|].
    clear - Hk Hj. revert k Hk Hj. induction (cat_vars eps b) as [|x r IH]; intros k Hk Hj; cbn [length] in Hk; [lia|].
    destruct k as [|k]; cbn [firstn total_values nth] in *; [lia|]. specialize (IH k ltac:(lia) Hj). lia. }
  destruct (bounds_at eps b Hwf Hord q (proj2 HB)) as [(Hx & _)|(_ & E1 & _ & HI)]; [lia|]. fold s in E1, HI.
  apply memn_In in HI. unfold round_integer_vars. rewrite round_at_val by (unfold box_lower; rewrite floor_at_len; fold (s_dim s); lia).
  cbn [Nat.add]. rewrite HI. unfold box_lower. rewrite floor_at_val by (fold (s_dim s); lia). cbn [Nat.add]. rewrite HI, E1. vm_compute. discriminate.
Qed.

(** With a corner strategy some initial point has every fractional integer bound violated. *)
Lemma rhe_Z z : round_half_even (inject_Z z) = z.
Proof. apply round_int. reflexivity. Qed.
Lemma corner_below_bound eps b c attempts nodes i : well_formed b -> ordered_bounds eps b ->
  i_strategy c = AllCorners \/ i_strategy c = LowerCorners -> In i (plain_vars eps b) -> vtype_of b i <> VReal ->
  ~ integral (lower b i) -> initial_sample c (construct_problem eps b) attempts = InitOk nodes ->
  exists p, In p nodes /\ nth i (bb_point (construct_problem eps b) p) 0 < lower b i.
Proof.
  intros Hwf Hord HS Hi HT HN H. set (s := construct_problem eps b) in *.
  assert (Hc : cat_ordered eps b). { intros j Hj. apply Hord. unfold cat_vars in Hj. apply filter_In in Hj. tauto. }
  assert (UL := upper_len eps b Hwf Hord). fold s in UL.
  exists (round_integer_vars (box_lower s) (s_ints s)). split; [apply (initial_first c s attempts nodes HS UL H)|].
  destruct (In_nth _ _ 0%nat Hi) as (k & Hk & <-).
  assert (LP : length (round_integer_vars (box_lower s) (s_ints s)) = s_dim s).
  { unfold round_integer_vars, box_lower. rewrite round_at_len, floor_at_len. reflexivity. }
  assert (HD : (k < s_dim s)%nat). { unfold s. rewrite (dim_spec eps b Hwf Hc). unfold encoded_dim. lia. }
  pose proof (proj1 (decoded_spec eps b Hwf Hc _ LP)) as DV. fold s in DV.
  rewrite <- (values_nth (plain_vars eps b) _ k Hk), DV.
  assert (X : forall l : point, nth k (firstn (length (plain_vars eps b)) l) 0 = nth k l 0).
  { intros l. rewrite <- (firstn_skipn (length (plain_vars eps b)) l) at 2.
    destruct (Nat.lt_ge_cases k (length l)) as [L|L].
    - rewrite app_nth1; [reflexivity|]. rewrite firstn_length. lia.
    - rewrite (nth_overflow (firstn _ _)) by (rewrite firstn_length; lia). rewrite firstn_skipn. symmetry. apply nth_overflow. lia. }
  rewrite X.
  destruct (bounds_at eps b Hwf Hord k HD) as [(_ & E1 & _)|(L & _)]; [|lia]. fold s in E1.
  assert (HI : In k (s_ints s)). { apply (proj2 (proj2 (proj2 (proj2 (proj2 (proj2 (structure eps b Hwf Hc))))))). left. split; [exact Hk|exact HT]. }
  apply memn_In in HI. unfold round_integer_vars. rewrite round_at_val by (unfold box_lower; rewrite floor_at_len; exact HD).
  cbn [Nat.add]. rewrite HI. unfold box_lower. rewrite floor_at_val by exact HD. cbn [Nat.add]. rewrite HI, E1, rhe_Z.
  pose proof (Qfloor_le (lower b (nth k (plain_vars eps b) 0%nat))) as F. apply Qle_lteq in F. destruct F as [F|F]; [exact F|].
  exfalso. apply HN. eexists. symmetry. exact F.
Qed.

(** ** C41 *)
Lemma num_init_ge frac incr cpus n : (2 <= num_init_samples frac incr cpus n)%Z.
Proof. unfold num_init_samples. destruct (1 <? cpus)%Z; lia. Qed.
Lemma pos_dim n : 0 <= inject_Z (Z.of_nat n + 1).
Proof. change 0 with (inject_Z 0). rewrite <- Zle_Qle. lia. Qed.
Lemma num_init_mono f1 f2 incr cpus n : f1 <= f2 -> 0 <= incr ->
  (num_init_samples f1 incr cpus n <= num_init_samples f2 incr cpus n)%Z.
Proof.
  intros H HI. unfold num_init_samples. pose proof (pos_dim n) as P. destruct (Z.ltb_spec 1 cpus) as [C|C].
  - apply Z.max_le_compat_l, rhe_mono.
    assert (0 <= inject_Z cpus) by (change 0 with (inject_Z 0); rewrite <- Zle_Qle; lia).
    apply Qmult_le_compat_r; [|nra]. rewrite !(Qmult_comm (inject_Z _)). apply Qmult_le_compat_r; assumption.
  - apply Z.max_le_compat_l, rhe_mono. rewrite !(Qmult_comm (inject_Z _)). apply Qmult_le_compat_r; assumption.
Qed.
Lemma min_le_num frac incr cpus n : 0 <= frac -> 0 <= incr ->
  (min_num_init_samples_parallel frac n <= num_init_samples frac incr cpus n)%Z.
Proof.
  intros HF HI. unfold min_num_init_samples_parallel, num_init_samples. pose proof (pos_dim n) as P. destruct (Z.ltb_spec 1 cpus) as [C|C]; [|lia].
  apply Z.max_le_compat_l, rhe_mono.
  assert (0 <= inject_Z cpus) by (change 0 with (inject_Z 0); rewrite <- Zle_Qle; lia).
  assert (0 <= inject_Z (Z.of_nat n + 1) * frac) by (apply Qmult_le_0_compat; assumption).
  set (a := inject_Z (Z.of_nat n + 1) * frac) in *. assert (0 <= inject_Z cpus * incr) by (apply Qmult_le_0_compat; assumption).
  set (d := inject_Z cpus * incr) in *. nra.
Qed.

(** ** C46 *)
Lemma sigma_closed k g n0 s : sigma_n k s g n0 = (k - 1 - Z.of_nat s * Qfloor (inject_Z (k - n0) / inject_Z g))%Z.
Proof. induction s as [|s IH]; [cbn; lia|]. cbn [sigma_n]. rewrite IH, Nat2Z.inj_succ. lia. Qed.
Lemma Qfloor_div_Z a g : (0 < g)%Z -> Qfloor (inject_Z a / inject_Z g) = (a / g)%Z.
Proof.
  intros Hg. unfold Qdiv, Qinv, inject_Z, Qmult. destruct g as [|p|p]; [lia| |lia]. cbn [Qnum Qden].
  unfold Qfloor. rewrite Z.mul_1_r. f_equal.
Qed.
Lemma sigma_range k g n0 s : (0 < g)%Z -> (0 <= n0 <= k)%Z -> (1 <= k)%Z -> (Z.of_nat s < g)%Z -> (0 <= sigma_n k s g n0 <= k - 1)%Z.
Proof.
  intros Hg Hn Hk Hs. rewrite sigma_closed, Qfloor_div_Z by exact Hg.
  assert (D0 : (0 <= (k - n0) / g)%Z) by (apply Z.div_pos; lia).
  assert (D1 : (g * ((k - n0) / g) <= k - n0)%Z) by (apply Z.mul_div_le; lia).
  set (d := ((k - n0) / g)%Z) in *. set (z := Z.of_nat s) in *.
  assert (z * d <= k - 1)%Z; [|assert (0 <= z * d)%Z by (apply Z.mul_nonneg_nonneg; lia); lia].
  assert (z * d <= (g - 1) * d)%Z by (apply Z.mul_le_mono_nonneg_r; lia).
  destruct (Z.eq_dec d 0) as [->|]; lia.
Qed.
Lemma sigma_out k g n0 s : (0 < g)%Z -> (k < n0)%Z -> (0 < s)%nat -> (k <= sigma_n k s g n0)%Z.
Proof.
  intros Hg Hn Hs. rewrite sigma_closed, Qfloor_div_Z by exact Hg.
  assert (D1 : ((k - n0) / g < 0)%Z) by (apply Z.div_lt_upper_bound; lia).
  set (d := ((k - n0) / g)%Z) in *. assert (Z.of_nat s * d <= 1 * d)%Z; [|lia]. apply Z.mul_le_mono_nonpos_r; lia.
Qed.
Lemma insertQ_perm x l : Permutation (insertQ x l) (x :: l).
Proof.
  induction l as [|y r IH]; cbn [insertQ]; [reflexivity|]. destruct (Qle_bool x y); [reflexivity|].
  rewrite IH. apply perm_swap.
Qed.
Lemma sortQ_perm l : Permutation (sortQ l) l.
Proof. induction l as [|x r IH]; cbn [sortQ]; [reflexivity|]. rewrite insertQ_perm, IH. reflexivity. Qed.
Fixpoint incr_list (l : list Q) : Prop :=
  match l with [] => True | x :: r => (forall y, In y r -> x <= y) /\ incr_list r end.
Lemma insertQ_incr x l : incr_list l -> incr_list (insertQ x l).
Proof.
  induction l as [|y r IH]; cbn [insertQ]; [cbn; split; [intros ? []|auto]|]. intros [A B].
  destruct (Qle_bool x y) eqn:E; qb.
  - cbn [incr_list]. split; [|auto]. intros z [<-|Hz]; [exact E|]. specialize (A z Hz). lra.
  - cbn [incr_list]. split; [|apply IH; exact B]. intros z Hz. apply (Permutation_in _ (insertQ_perm x r)) in Hz.
    destruct Hz as [<-|Hz]; [lra|auto].
Qed.
Lemma sortQ_incr l : incr_list (sortQ l).
Proof. induction l as [|x r IH]; cbn [sortQ]; [exact I|]. apply insertQ_incr, IH. Qed.
Lemma incr_nth l : incr_list l -> forall i j, (i <= j < length l)%nat -> nth i l 0 <= nth j l 0.
Proof.
  induction l as [|x r IH]; cbn [incr_list length]; intros H i j Hij; [lia|]. destruct H as [A B].
  destruct j as [|j]; [replace i with 0%nat by lia; apply Qle_refl|]. destruct i as [|i]; cbn [nth]; [apply A, nth_In; lia|apply IH; [exact B|lia]].
Qed.
Lemma count_perm f l m : Permutation l m -> count f l = count f m.
Proof.
  unfold count. induction 1; cbn [filter]; try (destruct (f x)); try (destruct (f y)); cbn [length]; lia.
Qed.
Lemma count_prefix f l : forall n, (n <= length l)%nat -> (forall i, (i < n)%nat -> f (nth i l 0) = true) -> (n <= count f l)%nat.
Proof.
  unfold count. induction l as [|x r IH]; intros n Hn H; cbn [length] in *; [lia|]. destruct n as [|n]; [lia|]. cbn [filter].
  rewrite (H 0%nat ltac:(lia) : f x = true). cbn [length]. specialize (IH n ltac:(lia) (fun i Hi => H (S i) ltac:(lia))). lia.
Qed.
Lemma count_suffix f l : forall n, (forall i, (n <= i < length l)%nat -> f (nth i l 0) = true) -> (length l - n <= count f l)%nat.
Proof.
  unfold count. induction l as [|x r IH]; intros n H; cbn [length] in *; [lia|]. cbn [filter].
  destruct n as [|n].
  - rewrite (H 0%nat ltac:(lia) : f x = true). cbn [length]. specialize (IH 0%nat (fun i Hi => H (S i) ltac:(lia))). lia.
  - specialize (IH n (fun i Hi => H (S i) ltac:(lia))). destruct (f x); cbn [length]; lia.
Qed.
Lemma sorted_ith l i : (i < length l)%nat -> ith_smallest l i (nth i (sortQ l) 0).
Proof.
  intros Hi. pose proof (sortQ_perm l) as P. pose proof (Permutation_length P) as PL. pose proof (sortQ_incr l) as SI.
  split; [apply (Permutation_in _ P), nth_In; lia|]. rewrite <- !(count_perm _ _ _ P). split.
  - assert (S i <= count (fun x => Qle_bool x (nth i (sortQ l) 0%Q)) (sortQ l))%nat; [|lia].
    apply count_prefix; [lia|]. intros j Hj. apply Qle_bool_iff. apply incr_nth; [exact SI|lia].
  - rewrite <- PL. apply count_suffix. intros j Hj. apply Qle_bool_iff. apply incr_nth; [exact SI|lia].
Qed.
Lemma fmax_valid all frac n g step vals : (0 < g)%Z -> (1 <= step)%nat -> (Z.of_nat step <= g)%Z ->
  vals <> [] -> (0 <= assumed_init_points all frac n <= Z.of_nat (length vals))%Z ->
  let i := (length vals - 1 - (step - 1) * Z.to_nat ((Z.of_nat (length vals) - assumed_init_points all frac n) / g))%nat in
  exists v, fmax_current_iter all frac n g step vals = Some v /\ ith_smallest vals i v.
Proof.
  intros Hg Hs Hsg NE Hn i. unfold fmax_current_iter, py_nth. set (k := Z.of_nat (length vals)) in *. set (n0 := assumed_init_points all frac n) in *.
  assert (K : (1 <= k)%Z) by (unfold k; destruct vals; [congruence|cbn [length]; lia]).
  pose proof (sigma_range k g n0 (step - 1) Hg Hn K ltac:(lia)) as R.
  destruct (Z.leb_spec 0 (sigma_n k (step - 1) g n0)); [|lia].
  assert (E : Z.to_nat (sigma_n k (step - 1) g n0) = i).
  { unfold i. fold k n0. rewrite sigma_closed, Qfloor_div_Z in * by exact Hg.
    assert (D0 : (0 <= (k - n0) / g)%Z) by (apply Z.div_pos; lia). set (d := ((k - n0) / g)%Z) in *.
    assert (T : Z.of_nat ((step - 1) * Z.to_nat d) = (Z.of_nat (step - 1) * d)%Z) by (rewrite Nat2Z.inj_mul, Z2Nat.id by exact D0; reflexivity).
    unfold k in *. lia. }
  rewrite E. assert (Hi : (i < length vals)%nat) by (unfold k in *; lia).
  pose proof (Permutation_length (sortQ_perm vals)) as PL.
  exists (nth i (sortQ vals) 0). split; [apply nth_error_nth'; lia|]. apply sorted_ith. exact Hi.
Qed.
Lemma fmax_fails all frac n g step vals : (0 < g)%Z -> (2 <= step)%nat ->
  (Z.of_nat (length vals) < assumed_init_points all frac n)%Z -> fmax_current_iter all frac n g step vals = None.
Proof.
  intros Hg Hs Hn. unfold fmax_current_iter, py_nth. set (k := Z.of_nat (length vals)) in *.
  pose proof (sigma_out k g _ (step - 1) Hg Hn ltac:(lia)) as R. destruct (Z.leb_spec 0 (sigma_n k (step - 1) g (assumed_init_points all frac n))); [|lia].
  apply nth_error_None. pose proof (Permutation_length (sortQ_perm vals)). lia.
Qed.

(** ** C47 *)
Lemma rounded_bounds_spec lo up ints : length up = length lo ->
  let lo' := fst (round_integer_bounds lo up ints) in let up' := snd (round_integer_bounds lo up ints) in
  length lo' = length lo /\ length up' = length lo /\
  forall i, (i < length lo)%nat ->
    (nth i lo' 0 <= nth i lo 0 /\ nth i up 0 <= nth i up' 0) /\
    (~ In i ints \/ integral (nth i lo 0) /\ integral (nth i up 0) -> nth i lo' 0 == nth i lo 0 /\ nth i up' 0 == nth i up 0) /\
    (In i ints -> integral (nth i lo' 0) /\ integral (nth i up' 0)).
Proof.
  intros HL. cbn zeta. unfold round_integer_bounds. cbn [fst snd]. rewrite floor_at_len, ceil_at_len. split; [reflexivity|]. split; [exact HL|].
  intros i Hi. rewrite floor_at_val, ceil_at_val by lia. cbn [Nat.add]. destruct (memn i ints) eqn:M.
  - split; [split; [apply Qfloor_le|apply Qle_ceiling]|]. split; [|intros _; split; eexists; reflexivity].
    intros [N|[[z1 H1] [z2 H2]]]; [apply memn_In in M; contradiction|].
    assert (F1 : Qfloor (nth i lo 0) = z1) by (rewrite (Qfloor_comp _ _ H1); apply Qfloor_Z).
    assert (F2 : Qceiling (nth i up 0) = z2) by (rewrite (Qceiling_comp _ _ H2); unfold Qceiling; rewrite <- inject_Z_opp, Qfloor_Z; lia).
    rewrite F1, F2. split; symmetry; assumption.
  - split; [split; apply Qle_refl|]. split; [intros _; split; reflexivity|]. intros H. apply memn_In in H. congruence.
Qed.
Lemma rounded_bounds_enlarge lo up ints i : length up = length lo -> (i < length lo)%nat -> In i ints ->
  ~ integral (nth i lo 0) -> nth i (fst (round_integer_bounds lo up ints)) 0 < nth i lo 0.
Proof.
  intros HL Hi HI HN. unfold round_integer_bounds. cbn [fst]. rewrite floor_at_val by exact Hi. cbn [Nat.add]. apply memn_In in HI. rewrite HI.
  pose proof (Qfloor_le (nth i lo 0)) as F. destruct (Qeq_dec (nth i lo 0) (inject_Z (Qfloor (nth i lo 0)))) as [E|N].
  - exfalso. apply HN. exists (Qfloor (nth i lo 0)). exact E.
  - apply Qle_lteq in F. destruct F as [F|F]; [exact F|]. symmetry in F. contradiction.
Qed.

(** ** C85 *)
Lemma results_ready_iff l : results_ready l = true <-> In true l.
Proof.
  induction l as [|b r IH]; cbn [results_ready]; [split; [discriminate|intros []]|]. destruct b.
  - split; auto. intros _; left; reflexivity.
  - rewrite IH. split; [right; assumption|]. intros [H|H]; [discriminate|exact H].
Qed.
Lemma last_ready_spec l : forall i acc,
  (In true l -> exists j, last_ready l i acc = Some (i + j)%nat /\ (j < length l)%nat /\ nth j l false = true /\
     forall k, (j < k < length l)%nat -> nth k l false = false) /\
  (~ In true l -> last_ready l i acc = acc).
Proof.
  induction l as [|b r IH]; intros i acc; cbn [last_ready]; [split; [intros []|auto]|].
  destruct (IH (S i) (if b then Some i else acc)) as [A B].
  destruct (in_dec bool_dec true r) as [H|H].
  - split; [intros _|intros N; exfalso; apply N; right; exact H]. destruct (A H) as (j & E & Hj & Hn & Hk).
    exists (S j). rewrite E. split; [f_equal; lia|]. cbn [length nth]. split; [lia|]. split; [exact Hn|].
    intros [|k] Hk'; [lia|]. cbn [nth]. apply Hk. lia.
  - rewrite (B H). destruct b.
    + split; [intros _|intros N; exfalso; apply N; left; reflexivity]. exists 0%nat. rewrite Nat.add_0_r. cbn [length nth].
      split; [reflexivity|]. split; [lia|]. split; [reflexivity|]. intros [|k] Hk; [lia|]. cbn [nth].
      destruct (nth k r false) eqn:E; [|reflexivity]. exfalso. apply H. rewrite <- E. apply nth_In. lia.
    + split; [intros [H'|H']; [discriminate|contradiction]|reflexivity].
Qed.
Lemma one_ready_spec l :
  (In true l -> (one_ready_index l < length l)%nat /\ nth (one_ready_index l) l false = true /\
     forall k, (one_ready_index l < k < length l)%nat -> nth k l false = false) /\
  (~ In true l -> one_ready_index l = length l).
Proof.
  unfold one_ready_index. destruct (last_ready_spec l 0 None) as [A B]. split.
  - intros H. destruct (A H) as (j & -> & C). exact C.
  - intros H. rewrite (B H). reflexivity.
Qed.

(** ** C56 *)
Lemma cleanup_drop_nth d pts i t j : length t = length pts -> (j < length pts)%nat ->
  nth j (cleanup_drop d pts i t) false = if ((i <? j)%nat && dist_le (nth i pts []) (nth j pts []) d)%bool then false else nth j t false.
Proof.
  intros HL Hj. unfold cleanup_drop. rewrite (nth_map2 _ 0%nat false) by (rewrite seq_length; lia). rewrite seq_nth by exact Hj. reflexivity.
Qed.
Lemma cleanup_drop_length d pts i t : length t = length pts -> length (cleanup_drop d pts i t) = length pts.
Proof. intros H. unfold cleanup_drop. rewrite map2_length by (rewrite seq_length; exact H). apply seq_length. Qed.
Lemma cleanup_fold d pts is : forall t, length t = length pts ->
  length (fold_left (fun t i => cleanup_drop d pts i t) is t) = length pts /\
  forall j, (j < length pts)%nat -> nth j (fold_left (fun t i => cleanup_drop d pts i t) is t) false =
    (nth j t false && forallb (fun i => negb ((i <? j)%nat && dist_le (nth i pts []) (nth j pts []) d)) is)%bool.
Proof.
  induction is as [|i is IH]; intros t HL; cbn [fold_left forallb].
  - split; [exact HL|]. intros j Hj. rewrite andb_true_r. reflexivity.
  - destruct (IH (cleanup_drop d pts i t) (cleanup_drop_length d pts i t HL)) as [A B]. split; [exact A|].
    intros j Hj. rewrite (B j Hj). rewrite cleanup_drop_nth by assumption.
    destruct (_ && dist_le _ _ _)%bool; cbn [negb andb]; [rewrite andb_false_r|]; reflexivity.
Qed.
Lemma nth_skipn {A} (l : list A) : forall n k d, nth k (skipn n l) d = nth (n + k) l d.
Proof. induction l as [|x r IH]; intros [|n] k d; cbn [skipn Nat.add nth]; try reflexivity; [destruct k; reflexivity|]. apply IH. Qed.
Lemma cleanup_In d pts j : In j (init_points_cleanup d pts) <->
  (j < length pts)%nat /\ forall i, (i < j)%nat -> dist_le (nth i pts []) (nth j pts []) d = false.
Proof.
  unfold init_points_cleanup. set (is := filter (bad_pair d pts) (seq 0 (length pts))).
  destruct (cleanup_fold d pts is (repeat true (length pts)) (repeat_length _ _)) as [A B].
  rewrite (where_In _ false), A. split.
  - intros [Hj H]. split; [exact Hj|]. intros i Hi. rewrite (B j Hj) in H. apply andb_prop in H. destruct H as [_ H].
    destruct (dist_le (nth i pts []) (nth j pts []) d) eqn:E; [|reflexivity]. exfalso.
    rewrite forallb_forall in H. specialize (H i).
    assert (X : In i is).
    { unfold is. apply filter_In. split; [apply in_seq; lia|]. unfold bad_pair. apply existsb_exists. exists (nth j pts []). split; [|exact E].
      replace (nth j pts []) with (nth (j - S i) (skipn (S i) pts) []) by (rewrite nth_skipn; f_equal; lia).
      apply nth_In. rewrite skipn_length. lia. }
    specialize (H X). rewrite E in H. apply Nat.ltb_lt in Hi. rewrite Hi in H. discriminate.
  - intros [Hj H]. split; [exact Hj|]. rewrite (B j Hj). apply andb_true_intro. split.
    + rewrite (nth_indep _ false true) by (rewrite repeat_length; exact Hj). apply nth_repeat.
    + apply forallb_forall. intros i _. destruct (Nat.ltb_spec i j) as [L|L]; [rewrite (H i L); reflexivity|reflexivity].
Qed.
Lemma cleanup_sorted d pts : StronglySorted lt (init_points_cleanup d pts).
Proof. apply where_sorted. Qed.

(** ** Most common element *)
Section Common.
Context {A : Type} (eqb : A -> A -> bool) (eqb_ok : forall x y, eqb x y = true <-> x = y).
Lemma best_count_spec all : forall l best,
  (forall x, best = Some x -> In x all) -> incl l all ->
  match best_count eqb all l best with
  | Some m => In m all /\ (forall x, In x l \/ best = Some x -> (count_eq eqb x all <= count_eq eqb m all)%nat)
  | None => l = [] /\ best = None
  end.
Proof.
  induction l as [|x r IH]; intros best HB HI; cbn [best_count].
  - destruct best as [m|]; [|auto]. split; [auto|]. intros y [[]|H]. injection H as ->. lia.
  - set (nb := match best with Some b => if (count_eq eqb b all <? count_eq eqb x all)%nat then Some x else best | None => Some x end).
    assert (Hx : In x all) by (apply HI; left; reflexivity).
    assert (NB : forall y, nb = Some y -> In y all).
    { intros y. unfold nb. destruct best as [b|]; [|intros E; injection E as <-; exact Hx]. destruct (_ <? _)%nat; [intros E; injection E as <-; exact Hx|apply HB]. }
    specialize (IH nb NB (fun y Hy => HI y (or_intror Hy))). destruct (best_count eqb all r nb) as [m|].
    + destruct IH as [I1 I2]. split; [exact I1|]. intros y Hy.
      assert (CX : (count_eq eqb x all <= count_eq eqb m all)%nat /\ (forall b, best = Some b -> (count_eq eqb b all <= count_eq eqb m all)%nat)).
      { unfold nb in I2. destruct best as [b|].
        - destruct (Nat.ltb_spec (count_eq eqb b all) (count_eq eqb x all)) as [L|L].
          + pose proof (I2 x (or_intror eq_refl)). split; [lia|]. intros b' E. injection E as <-. lia.
          + pose proof (I2 b (or_intror eq_refl)). split; [lia|]. intros b' E. injection E as <-. lia.
        - pose proof (I2 x (or_intror eq_refl)). split; [lia|]. intros b' E. discriminate. }
      destruct CX as [C1 C2]. destruct Hy as [[<-|Hy]|Hy]; [exact C1|apply I2; left; exact Hy|apply C2; exact Hy].
    + exfalso. destruct IH as [_ E]. unfold nb in E. destruct best; [destruct (_ <? _)%nat|]; discriminate.
Qed.
Lemma excl_In x l excl : In x (filter (fun x => negb (existsb (eqb x) excl)) l) <-> In x l /\ ~ In x excl.
Proof.
  rewrite filter_In, negb_true_iff. split; intros [H1 H2]; (split; [exact H1|]).
  - intros H. assert (X : existsb (eqb x) excl = true) by (apply existsb_exists; exists x; split; [exact H|apply eqb_ok; reflexivity]). congruence.
  - destruct (existsb (eqb x) excl) eqn:E; [|reflexivity]. apply existsb_exists in E. destruct E as (y & Hy & E). apply eqb_ok in E. subst y. contradiction.
Qed.
Lemma count_filter_excl x l excl : ~ In x excl -> count_eq eqb x (filter (fun x => negb (existsb (eqb x) excl)) l) = count_eq eqb x l.
Proof.
  intros N. unfold count_eq. induction l as [|y r IH]; [reflexivity|]. cbn [filter].
  destruct (eqb x y) eqn:E.
  - apply eqb_ok in E. subst y. destruct (existsb (eqb x) excl) eqn:X.
    + apply existsb_exists in X. destruct X as (z & Hz & E). apply eqb_ok in E. subst z. contradiction.
    + cbn [negb filter]. assert (R : eqb x x = true) by (apply eqb_ok; reflexivity). rewrite R. cbn [length]. rewrite IH. reflexivity.
  - destruct (negb _); [cbn [filter]; rewrite E|]; exact IH.
Qed.
Lemma most_common_spec l excl :
  match most_common eqb l excl with
  | Some m => In m l /\ ~ In m excl /\ forall x, In x l -> ~ In x excl -> (count_eq eqb x l <= count_eq eqb m l)%nat
  | None => forall x, In x l -> In x excl
  end.
Proof.
  unfold most_common. set (l' := filter (fun x => negb (existsb (eqb x) excl)) l).
  pose proof (best_count_spec l' l' None ltac:(discriminate) (incl_refl _)) as H.
  destruct (best_count eqb l' l' None) as [m|].
  - destruct H as [H1 H2]. apply excl_In in H1. destruct H1 as [M1 M2]. split; [exact M1|]. split; [exact M2|].
    intros x Hx Nx. specialize (H2 x (or_introl (proj2 (excl_In x l excl) (conj Hx Nx)))).
    unfold l' in H2. rewrite !count_filter_excl in H2 by assumption. exact H2.
  - destruct H as [H _]. intros x Hx. destruct (existsb (eqb x) excl) eqn:E.
    + apply existsb_exists in E. destruct E as (y & Hy & E). apply eqb_ok in E. subst y. exact Hy.
    + exfalso. assert (X : In x l') by (unfold l'; apply filter_In; rewrite E; auto). rewrite H in X. exact X.
Qed.
End Common.
