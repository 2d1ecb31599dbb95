(** * Proofs: number of points of an initial sample *)
From Coq Require Import Lia Lqa.
From Verif Require Import ParRestart BaseLemmas InitProofs InitSample InitUtil SpecInit ModelCategorical ModelInit.
Open Scope Z_scope.

Lemma finish_nodes_least c cat s lo up ints nodes : (length nodes <= length (finish_nodes c cat s lo up ints nodes))%nat.
Proof.
  unfold finish_nodes. destruct cat; rewrite ?map_length; destruct (_ && _); rewrite ?app_length, ?map_length; cbn [length]; lia.
Qed.
(** Is the sample drawn in the space of the original categorical variables? *)
Definition compressed (ic : init_cfg) (s : setup) : bool := is_lhd (i_strategy ic) && match s_expansion s with [] => false | _ => true end.
Definition drawn_lower (ic : init_cfg) (s : setup) (lo : point) : point := if compressed ic s then compress_bounds s lo else lo.

Lemma lhd_one choose lo up ints num trials : length lo = 1%nat -> lhd_points choose lo up ints num trials = [lo; up].
Proof. destruct lo as [|l [|l' r]]; [discriminate|reflexivity|discriminate]. Qed.
Lemma lhd_more choose lo up ints num trials : length lo <> 1%nat ->
  length (lhd_points choose lo up ints num trials) = length (choose (map (fun t => uniform_lhs num (fst t) (snd t)) trials)).
Proof. destruct lo as [|l [|l' r]]; cbn [length]; try (intros; cbn [lhd_points]; apply map_length). lia. Qed.
Lemma designs_size num trials d : In d (map (fun t => uniform_lhs num (fst t) (snd t)) trials) -> length d = num.
Proof. intros H. apply in_map_iff in H. destruct H as (t & <- & _). unfold uniform_lhs. rewrite map_length, seq_length. reflexivity. Qed.

Lemma one_variable_count ic s lo up ints attempts nodes : is_lhd (i_strategy ic) = true -> length (drawn_lower ic s lo) = 1%nat ->
  initialize_nodes ic s lo up ints attempts = InitOk nodes -> (length nodes <= 3)%nat.
Proof.
  intros HS HL H. unfold initialize_nodes in H. fold (compressed ic s) in H. fold (drawn_lower ic s lo) in H.
  destruct (i_max ic =? 0)%nat; [discriminate|]. apply init_loop_ok in H. destruct H as (a & raw & _ & Er & -> & _).
  assert (length raw = 2%nat).
  { destruct (i_strategy ic); try discriminate HS; cbn [sample_nodes] in Er; injection Er as <-; rewrite lhd_one by exact HL; reflexivity. }
  match goal with |- (length (finish_nodes ?a ?b ?c0 ?d ?e ?f ?g) <= _)%nat => pose proof (finish_nodes_count a b c0 d e f g) end. lia.
Qed.
Lemma all_corners_many m : (m + 1 <= 2 ^ m)%nat.
Proof. induction m as [|m IH]; cbn [Nat.pow]; lia. Qed.
Lemma awaited_small frac m : (frac <= 1)%Q -> (1 <= m)%nat -> min_num_init_samples_parallel frac m <= Z.of_nat m + 1.
Proof.
  intros HF HM. unfold min_num_init_samples_parallel.
  assert (X : round_half_even (inject_Z (Z.of_nat m + 1) * frac)%Q <= round_half_even (inject_Z (Z.of_nat m + 1) * 1)%Q).
  { apply rhe_mono. rewrite !(Qmult_comm (inject_Z _)). apply Qmult_le_compat_r; [exact HF|]. change 0%Q with (inject_Z 0). rewrite <- Zle_Qle. lia. }
  change 1%Q with (inject_Z 1) in X. rewrite <- inject_Z_mult, InitUtil.rhe_Z in X. lia.
Qed.
Lemma sample_suffices ic s lo up ints attempts nodes : (0 <= i_frac ic)%Q -> (i_frac ic <= 1)%Q -> (0 <= i_incr ic)%Q ->
  (1 <= length lo)%nat -> length up = length lo ->
  (is_lhd (i_strategy ic) = true -> length (drawn_lower ic s lo) <> 1%nat \/ length lo = 1%nat) ->
  (forall a, In a attempts -> a_trials a <> [] /\ (a_corr a < length (a_trials a))%nat) ->
  initialize_nodes ic s lo up ints attempts = InitOk nodes -> min_num_init_samples_parallel (i_frac ic) (length lo) <= Z.of_nat (length nodes).
Proof.
  intros HF0 HF1 HI HN HU HL HA H. unfold initialize_nodes in H. fold (compressed ic s) in H. fold (drawn_lower ic s lo) in H.
  destruct (i_max ic =? 0)%nat; [discriminate|]. apply init_loop_ok in H. destruct H as (a & raw & Ha & Er & -> & _).
  match goal with |- context [finish_nodes ?a ?b ?c0 ?d ?e ?f ?g] => pose proof (finish_nodes_least a b c0 d e f g) as FL end.
  assert (X : min_num_init_samples_parallel (i_frac ic) (length lo) <= Z.of_nat (length raw)); [|lia].
  pose proof (awaited_small (i_frac ic) (length lo) HF1 HN) as AS.
  pose proof (min_le_num (i_frac ic) (i_incr ic) (i_cpus ic) (length lo) HF0 HI) as AN.
  destruct (HA a Ha) as (A1 & A2).
  set (num := num_init_samples (i_frac ic) (i_incr ic) (i_cpus ic) (length lo)) in *.
  assert (N2 : 2 <= num) by (unfold num, num_init_samples; destruct (1 <? i_cpus ic); apply Z.le_max_l).
  assert (DS : map (fun t => uniform_lhs (Z.to_nat num) (fst t) (snd t)) (a_trials a) <> []) by (destruct (a_trials a); [congruence|discriminate]).
  assert (ONE : forall choose, In (choose (map (fun t => uniform_lhs (Z.to_nat num) (fst t) (snd t)) (a_trials a))) (map (fun t => uniform_lhs (Z.to_nat num) (fst t) (snd t)) (a_trials a)) ->
     is_lhd (i_strategy ic) = true -> forall up' ints', raw = lhd_points choose (drawn_lower ic s lo) up' ints' (Z.to_nat num) (a_trials a) ->
     min_num_init_samples_parallel (i_frac ic) (length lo) <= Z.of_nat (length raw)).
  { intros choose HC HS up' ints' ->. destruct (Nat.eq_dec (length (drawn_lower ic s lo)) 1) as [E1|E1].
    - rewrite lhd_one by exact E1. destruct (HL HS) as [C|C]; [contradiction|]. cbn [length]. lia.
    - rewrite lhd_more by exact E1. rewrite (designs_size _ _ _ HC). lia. }
  destruct (i_strategy ic) eqn:ES; cbn [sample_nodes] in Er.
  - injection Er as <-. unfold drawn_lower, compressed. rewrite ES. cbn [is_lhd andb]. rewrite all_corners_length by exact HU.
    pose proof (all_corners_many (length lo)). lia.
  - injection Er as <-. unfold drawn_lower, compressed. rewrite ES. cbn [is_lhd andb]. destruct (lower_corners_spec lo up HU) as (L & _). rewrite L. lia.
  - unfold drawn_lower, compressed in Er. rewrite ES in Er. cbn [is_lhd andb] in Er. unfold random_corners in Er. destruct (a_corners a) as [|d ds]; [discriminate|].
    apply more_corners_count in Er; [|cbn; lia]. lia.
  - injection Er as Er. symmetry in Er. eapply (ONE maximin_choice); [apply maximin_spec; exact DS|reflexivity|exact Er].
  - injection Er as Er. symmetry in Er. eapply (ONE (fun ds => nth (a_corr a) ds [])); [apply nth_In; rewrite map_length; exact A2|reflexivity|exact Er].
Qed.
