(** * Proofs: the sample of a problem with a single categorical variable *)
From Coq Require Import Lia Lqa.
From Verif Require Import BaseLemmas InitProofs InitSample InitUtil SpecInit ModelCategorical ModelInit ModelRank SampleSize.
Open Scope Q_scope.

Definition single_setup (l : Q) (k : nat) : setup := mkSetup [] (repeat 0 k) (repeat 1 k) (seq 0 k) [0%nat] [] [(0%nat, l, seq 0 k)].

Lemma single_construct eps zl k : 0 <= eps -> eps < 1 -> (3 <= k)%nat ->
  construct_problem eps (mkBB [inject_Z zl] [inject_Z (zl + Z.of_nat k - 1)] [VCat]) = single_setup (inject_Z zl) k.
Proof.
  intros E0 E1 HK. set (l := inject_Z zl). set (u := inject_Z (zl + Z.of_nat k - 1)).
  assert (D : u - l == inject_Z (Z.of_nat k - 1)). { unfold u, l. rewrite <- inject_Z_minus || unfold Qminus; rewrite <- ?inject_Z_opp, <- ?inject_Z_plus. apply inject_Z_injective. lia. }
  assert (K1 : 2 <= inject_Z (Z.of_nat k - 1)) by (change 2 with (inject_Z 2); rewrite <- Zle_Qle; lia).
  assert (CP : close_pair eps (l, u) = false).
  { unfold close_pair. cbn [fst snd]. destruct (Qle_bool (Qabs (l - u)) eps) eqn:X; [|reflexivity]. apply Qle_bool_iff in X. exfalso.
    assert (Y : - (l - u) <= Qabs (l - u)) by (rewrite <- Qabs_opp; apply Qle_Qabs). lra. }
  assert (BS : block_size l u = k).
  { unfold block_size, trunc. assert (T : u - l + 1 == inject_Z (Z.of_nat k)).
    { rewrite D. change 1 with (inject_Z 1). rewrite <- inject_Z_plus. apply inject_Z_injective. lia. }
    assert (P : 0 <= u - l + 1) by lra. apply Qle_bool_iff in P. rewrite P, (Qfloor_comp _ _ T), Qfloor_Z. apply Nat2Z.id. }
  assert (DM : demote VCat l u = VCat).
  { unfold demote. cbn [is_cat andb]. destruct (Qeq_bool (u - l) 1) eqn:X; [|reflexivity]. apply Qeq_bool_iff in X. exfalso. lra. }
  unfold construct_problem, fixed_idx, unfixed_idx, fixed_vars, fixed_idx, where_. cbn [bb_lower bb_upper bb_type combine where_from].
  rewrite CP. cbn [map map3]. rewrite DM. cbn [where_from is_cat negb blocks blocks_end nth length take map app seq filter]. rewrite BS.
  cbn [Nat.add]. rewrite Nat.sub_0_r. reflexivity.
Qed.

Lemma rhe_eq_Z x z : x == inject_Z z -> round_half_even x = z.
Proof.
  intros E. assert (A : (round_half_even x <= round_half_even (inject_Z z))%Z) by (apply rhe_mono; rewrite E; apply Qle_refl).
  assert (B : (round_half_even (inject_Z z) <= round_half_even x)%Z) by (apply rhe_mono; rewrite E; apply Qle_refl). rewrite rhe_Z in A, B. lia.
Qed.
Lemma sum_sq_ge p : 0 <= sum_sq p /\ forall x, In x p -> x * x <= sum_sq p.
Proof.
  induction p as [|y r [H0 IH]]; cbn [sum_sq fold_right]; [split; [apply Qle_refl|intros x []]|]. fold (sum_sq r).
  assert (Y : 0 <= y * y) by nra. split; [lra|]. intros x [<-|Hx]; [lra|]. specialize (IH x Hx). lra.
Qed.
Lemma single_compress l k B : (1 <= k)%nat -> compress_bounds (single_setup l k) B = [if Qeq_bool (nth 0 B 0) 0 then l else l + inject_Z (Z.of_nat k) - 1].
Proof. intros HK. unfold compress_bounds, single_setup. cbn [s_noncat s_expansion s_cat fold_left length]. rewrite seq_length. destruct k as [|k]; [lia|]. reflexivity. Qed.
Lemma filter_none {A} (f : A -> bool) l : (forall x, In x l -> f x = false) -> filter f l = [].
Proof. induction l as [|x r IH]; intros H; cbn [filter]; [reflexivity|]. rewrite H by (left; reflexivity). apply IH. intros y Hy. apply H. right; exact Hy. Qed.
Lemma filter_shorter {A} (f : A -> bool) l : (length (filter f l) <= length l)%nat.
Proof. induction l as [|x r IH]; cbn [filter length]; [lia|]. destruct (f x); cbn [length]; lia. Qed.
Lemma single_ints l k ints : compress_ints (single_setup l k) ints = [0%nat].
Proof. unfold compress_ints, single_setup. cbn [s_noncat s_expansion fold_left length fst]. rewrite filter_none by (intros; apply Nat.ltb_ge; lia). reflexivity. Qed.
Lemma single_expand l k v : expand (single_setup l k) [v] = expand_block v l k.
Proof. unfold expand, single_setup. cbn [s_noncat s_expansion take map concat app nth]. rewrite seq_length. apply app_nil_r. Qed.
(** The second point of the sample: the last value of the categorical variable. *)
Lemma last_value l k : (1 <= k)%nat ->
  forall j, (j < k)%nat -> nth j (expand_block (l + inject_Z (Z.of_nat k) - 1) l k) 0 = if (j =? k - 1)%nat then 1 else 0.
Proof.
  intros HK j Hj. unfold expand_block. set (F := fun j => if Qeq_bool (l + inject_Z (Z.of_nat k) - 1) (l + inject_Z (Z.of_nat j)) then 1 else 0).
  rewrite (nth_indep _ 0 (F 0%nat)) by (rewrite map_length, seq_length; exact Hj). rewrite (map_nth F), seq_nth by exact Hj. cbn [Nat.add]. unfold F.
  assert (N : inject_Z (Z.of_nat k) - 1 == inject_Z (Z.of_nat (k - 1))) by (change 1 with (inject_Z 1); unfold Qminus; rewrite <- inject_Z_opp, <- inject_Z_plus; apply inject_Z_injective; lia).
  destruct (Nat.eqb_spec j (k - 1)) as [->|NE].
  - replace (Qeq_bool _ _) with true; [reflexivity|]. symmetry. apply Qeq_bool_iff. lra.
  - destruct (Qeq_bool _ _) eqn:E; [|reflexivity]. apply Qeq_bool_iff in E. exfalso.
    assert (X : inject_Z (Z.of_nat j) == inject_Z (Z.of_nat (k - 1))) by lra. apply (proj1 (inject_Z_injective _ _)) in X. lia.
Qed.
Lemma seq_last k : (1 <= k)%nat -> last (seq 0 k) 0%nat = (k - 1)%nat.
Proof. destruct k as [|k]; [lia|]. intros _. rewrite seq_S, last_last. lia. Qed.

(** The test rejects a matrix with a zero row and no more rows than columns (its smallest singular value is 0). *)
Definition rejects_zero_rows (eps : Q) (s : setup) (a : attempt) : Prop :=
  forall nodes row, In row (tested_matrix eps s nodes) -> (forall x, In x row -> x == 0) -> (length (tested_matrix eps s nodes) <= length row)%nat ->
    a_independent a nodes = false.

Lemma loop_rejects c num cat s lo up ints attempts : forall k,
  (forall a raw, In a attempts -> sample_nodes (i_strategy c) num lo up ints a = Some raw -> a_independent a (finish_nodes c cat s lo up ints raw) = false) ->
  (forall a, In a attempts -> sample_nodes (i_strategy c) num lo up ints a <> None) ->
  init_loop c num cat s lo up ints k attempts = InitError.
Proof.
  induction attempts as [|a r IH]; intros k HR HN; cbn [init_loop]; [reflexivity|].
  destruct (sample_nodes (i_strategy c) num lo up ints a) as [raw|] eqn:E; [|exfalso; apply (HN a (or_introl eq_refl)); exact E].
  rewrite (HR a raw (or_introl eq_refl) E). destruct (_ <? _)%nat; [|reflexivity]. apply IH; intros; [eapply HR|eapply HN]; try right; eassumption.
Qed.

Lemma single_fails eps ic zl k attempts : 0 <= eps -> eps < 1 -> (4 <= k)%nat -> is_lhd (i_strategy ic) = true ->
  (forall a, In a attempts -> rejects_zero_rows eps (single_setup (inject_Z zl) k) a) ->
  initial_sample ic (single_setup (inject_Z zl) k) attempts = InitError.
Proof.
  intros E0 E1 HK HS HA. set (l := inject_Z zl). set (s := single_setup l k). unfold initial_sample, initialize_nodes.
  change (s_expansion s) with [(0%nat, l, seq 0 k)]. rewrite HS. cbn [andb]. destruct (i_max ic =? 0)%nat; [reflexivity|].
  set (B1 := floor_at _ _ _). set (B2 := ceil_at _ _ _). 
  assert (C1 : forall B, compress_bounds s B = [if Qeq_bool (nth 0 B 0) 0 then l else l + inject_Z (Z.of_nat k) - 1]) by (intros B; apply single_compress; lia).
  assert (C2 : forall ints, compress_ints s ints = [0%nat]) by (intros ints; apply single_ints).
  rewrite !C1, !C2.
  assert (N1 : nth 0 B1 0 = 0). { unfold B1. destruct k; [lia|]. reflexivity. }
  assert (N2 : nth 0 B2 0 = 1). { unfold B2. destruct k; [lia|]. reflexivity. }
  rewrite N1, N2. change (Qeq_bool 0 0) with true. change (Qeq_bool 1 0) with false. cbv iota. set (v := l + inject_Z (Z.of_nat k) - 1).
  apply loop_rejects.
  2:{ intros a _. destruct (i_strategy ic); try discriminate HS; cbn [sample_nodes]; discriminate. }
  intros a raw Ha Er.
  assert (RAW : raw = [[l]; [v]]) by (destruct (i_strategy ic); try discriminate HS; cbn [sample_nodes lhd_points] in Er; injection Er as <-; reflexivity).
  assert (RV : round_half_even v = (zl + Z.of_nat k - 1)%Z).
  { apply rhe_eq_Z. unfold v, l. change 1 with (inject_Z 1). unfold Qminus. rewrite <- inject_Z_opp, <- !inject_Z_plus. apply inject_Z_injective. lia. }
  assert (QV : inject_Z (zl + Z.of_nat k - 1) == v).
  { unfold v, l. change 1 with (inject_Z 1). unfold Qminus. rewrite <- inject_Z_opp, <- !inject_Z_plus. apply inject_Z_injective. lia. }
  set (nodes := finish_nodes ic true s [l] [v] [0%nat] raw).
  assert (LN : (length nodes <= 3)%nat) by (pose proof (ParRestart.finish_nodes_count ic true s [l] [v] [0%nat] raw) as X; rewrite RAW in X at 2; exact X).
  set (p2 := expand s [inject_Z (zl + Z.of_nat k - 1)]).
  assert (IN : In p2 nodes).
  { unfold nodes, finish_nodes. apply in_map. assert (In [inject_Z (zl + Z.of_nat k - 1)] (map (fun p => round_integer_vars p [0%nat]) raw)).
    { rewrite RAW. cbn [map]. right. left. unfold round_integer_vars. cbn [round_at existsb Nat.eqb orb]. rewrite RV. reflexivity. }
    destruct (_ && _)%bool; [apply in_or_app; left|]; assumption. }
  assert (LP : length p2 = k) by (unfold p2, s; rewrite single_expand; unfold expand_block; rewrite map_length, seq_length; reflexivity).
  assert (PV : forall j, (j < k)%nat -> nth j p2 0 = if (j =? k - 1)%nat then 1 else 0).
  { intros j Hj. unfold p2, s. rewrite single_expand. rewrite <- (last_value l k) by lia. unfold expand_block. f_equal. apply map_ext. intros i. fold v.
    destruct (Qeq_bool (inject_Z (zl + Z.of_nat k - 1)) _) eqn:Y1, (Qeq_bool v _) eqn:Y2; try reflexivity; exfalso;
      [apply Qeq_bool_iff in Y1; apply Qeq_bool_neq in Y2|apply Qeq_bool_iff in Y2; apply Qeq_bool_neq in Y1]; [apply Y2|apply Y1]; lra. }
  assert (NZ : In p2 (nonzero_nodes eps nodes)).
  { apply filter_In. split; [exact IN|]. apply negb_true_iff. destruct (Qle_bool (sum_sq p2) (eps * eps)) eqn:X; [|reflexivity]. apply Qle_bool_iff in X. exfalso.
    assert (Y : In 1 p2). { replace 1 with (nth (k - 1) p2 0); [apply nth_In; lia|]. rewrite PV by lia. rewrite Nat.eqb_refl. reflexivity. }
    apply (proj2 (sum_sq_ge p2)) in Y. nra. }
  set (row := take 0 (tested_columns s (length p2)) p2).
  assert (COL : forall j, In j (tested_columns s (length p2)) <-> (j < k)%nat /\ j <> (k - 1)%nat).
  { intros j. unfold tested_columns. rewrite filter_In, LP, in_seq. change (s_expansion s) with [(0%nat, l, seq 0 k)]. cbn [map snd]. rewrite seq_last by lia.
    unfold memn. cbn [existsb]. rewrite orb_false_r, negb_true_iff, Nat.eqb_neq. lia. }
  assert (LC : (3 <= length (tested_columns s (length p2)))%nat).
  { assert (X : incl [0; 1; 2]%nat (tested_columns s (length p2))) by (intros j [<-|[<-|[<-|[]]]]; apply COL; lia).
    apply NoDup_incl_length in X; [exact X|]. repeat constructor; cbn; lia. }
  apply (HA a Ha nodes row).
  - unfold tested_matrix. apply in_map_iff. exists p2. split; [reflexivity|exact NZ].
  - intros x Hx. unfold row, take in Hx. apply in_map_iff in Hx. destruct Hx as (j & <- & Hj). apply COL in Hj. rewrite PV by lia.
    destruct (Nat.eqb_spec j (k - 1)); [lia|reflexivity].
  - unfold tested_matrix, row, take. rewrite !map_length. pose proof (filter_shorter (fun p => negb (Qle_bool (sum_sq p) (eps * eps))) nodes) as FS.
    fold (nonzero_nodes eps nodes) in FS. eapply Nat.le_trans; [exact FS|]. eapply Nat.le_trans; [exact LN|exact LC].
Qed.
