(** * Fixed and categorical variables: from the lemmas to the specification vocabulary. *)
From Verif Require Export SpecCategorical.
From Verif Require Import CatCodes BaseLemmas.
From Coq Require Import Lia Lqa Sorted.
Open Scope Q_scope.

Lemma wf_iff b : well_formed b <-> wf_bb b.
Proof. unfold well_formed, wf_bb, bb_dim. tauto. Qed.
Lemma free_unfixed eps b : well_formed b -> free_vars eps b = unfixed_idx eps b.
Proof.
  intros [HU HT]. unfold bb_dim in *. apply sorted_ext; [apply filter_seq_sorted|apply unfixed_sorted|].
  intros i. rewrite (unfixed_In eps b i HU). unfold free_vars. rewrite filter_In, in_seq, negb_true_iff.
  unfold fixedb, close_pair, lower, upper, bb_dim. cbn [fst snd]. split; intros [A1 A2]; (split; [lia|exact A2]).
Qed.
Lemma map3_take (uf : list nat) lo up ty :
  map3 demote (take VReal uf ty) (take 0 uf lo) (take 0 uf up) =
  map (fun i => demote (nth i ty VReal) (nth i lo 0) (nth i up 0)) uf.
Proof. unfold take. induction uf as [|i r IH]; cbn; [reflexivity|]. f_equal. exact IH. Qed.
Lemma is_cat_demote b i : is_cat (demote (nth i (bb_type b) VReal) (nth i (bb_lower b) 0) (nth i (bb_upper b) 0)) = categoricalb b i.
Proof.
  unfold categoricalb, vtype_of, demote, lower, upper. destruct (nth i (bb_type b) VReal); cbn [is_cat andb]; try reflexivity.
  destruct (Qeq_bool _ 1); reflexivity.
Qed.
Lemma take_where_map {A} (f : A -> bool) (g : nat -> A) uf : take 0%nat (where_ f (map g uf)) uf = filter (fun i => f (g i)) uf.
Proof. unfold where_. rewrite where_map. fold (where_ (fun i => f (g i)) uf). apply take_where. Qed.

Section Problem.
Context (eps : Q) (b : bbox) (Hwf : well_formed b).
Let s := construct_problem eps b.
Let uf := free_vars eps b.
Let lo := take 0 uf (bb_lower b).
Let up := take 0 uf (bb_upper b).
Let ty := take VReal uf (bb_type b).
Let HE : encoded s lo up ty.
Proof. subst s lo up ty uf. rewrite (free_unfixed eps b Hwf). apply construct_encoded. apply wf_iff. exact Hwf. Qed.
Let HF : s_fixed s = fixed_vars eps b.
Proof. apply construct_encoded. apply wf_iff. exact Hwf. Qed.
Let L : length lo = length uf.
Proof. apply take_length. Qed.

Lemma plain_take : plain_vars eps b = take 0%nat (s_noncat s) uf.
Proof.
  rewrite (en_noncat _ _ _ _ HE). unfold lo, up, ty. rewrite map3_take, take_where_map.
  unfold plain_vars. fold uf. apply filter_ext_In'. intros i _. rewrite is_cat_demote. reflexivity.
Qed.
Lemma cat_take : cat_vars eps b = take 0%nat (s_cat s) uf.
Proof.
  rewrite (en_cat _ _ _ _ HE). unfold lo, up, ty. rewrite map3_take, take_where_map.
  unfold cat_vars. fold uf. apply filter_ext_In'. intros i _. rewrite is_cat_demote. reflexivity.
Qed.
Lemma plain_length : length (plain_vars eps b) = length (s_noncat s).
Proof. rewrite plain_take. apply take_length. Qed.
Lemma cat_length : length (cat_vars eps b) = length (s_cat s).
Proof. rewrite cat_take. apply take_length. Qed.
Lemma plain_nth k : (k < length (s_noncat s))%nat -> nth k (plain_vars eps b) 0%nat = nth (nth k (s_noncat s) 0%nat) uf 0%nat.
Proof. intros H. rewrite plain_take. apply nth_take. exact H. Qed.
Lemma cat_nth k : (k < length (s_cat s))%nat -> nth k (cat_vars eps b) 0%nat = nth (nth k (s_cat s) 0%nat) uf 0%nat.
Proof. intros H. rewrite cat_take. apply nth_take. exact H. Qed.
Lemma cat_bound i : In i (s_cat s) -> (i < length uf)%nat.
Proof. intros H. destruct (noncat_cat_partition s lo up ty HE) as (_ & _ & _ & _ & NC). apply NC in H. lia. Qed.
Lemma noncat_bound i : In i (s_noncat s) -> (i < length uf)%nat.
Proof. intros H. destruct (noncat_cat_partition s lo up ty HE) as (_ & _ & _ & NN & _). apply NN in H. lia. Qed.
Lemma lo_nth i : (i < length uf)%nat -> nth i lo 0 = lower b (nth i uf 0%nat).
Proof. intros H. apply nth_take. exact H. Qed.
Lemma up_nth i : (i < length uf)%nat -> nth i up 0 = upper b (nth i uf 0%nat).
Proof. intros H. apply nth_take. exact H. Qed.

Lemma block_size_values l u : l <= u -> block_size l u = S (Z.to_nat (Qfloor (u - l))).
Proof.
  intros H. unfold block_size, trunc. assert (P : 0 <= u - l + 1) by lra. apply Qle_bool_iff in P. rewrite P.
  assert (F : Qfloor (u - l + 1) = (Qfloor (u - l) + 1)%Z).
  { assert (G1 : inject_Z (Qfloor (u - l)) <= u - l) by apply Qfloor_le.
    assert (G2 : u - l < inject_Z (Qfloor (u - l) + 1)) by apply Qlt_floor.
    assert (G3 : inject_Z (Qfloor (u - l + 1)) <= u - l + 1) by apply Qfloor_le.
    assert (G4 : u - l + 1 < inject_Z (Qfloor (u - l + 1) + 1)) by apply Qlt_floor.
    rewrite inject_Z_plus in G2, G4. change (inject_Z 1) with 1 in *.
    assert (X1 : inject_Z (Qfloor (u - l + 1)) < inject_Z (Qfloor (u - l) + 2)).
    { rewrite inject_Z_plus. change (inject_Z 2) with 2. lra. }
    assert (X2 : inject_Z (Qfloor (u - l)) < inject_Z (Qfloor (u - l + 1))) by lra.
    rewrite <- Zlt_Qlt in X1, X2. lia. }
  rewrite F. assert (Z0 : (0 <= Qfloor (u - l))%Z).
  { change 0%Z with (Qfloor 0). apply Qfloor_resp_le. lra. }
  rewrite Z2Nat.inj_add by lia. change (Z.to_nat 1) with 1%nat. lia.
Qed.
Lemma blocks_end_total cats : forall cur, (forall i, In i cats -> (i < length uf)%nat /\ nth i lo 0 <= nth i up 0) ->
  blocks_end cur cats lo up = (cur + total_values b (take 0%nat cats uf))%nat.
Proof.
  induction cats as [|i r IH]; intros cur H; cbn [blocks_end take map total_values]; [lia|].
  destruct (H i (or_introl eq_refl)) as [Hi Hle].
  rewrite IH by (intros j Hj; apply H; right; exact Hj).
  rewrite block_size_values by exact Hle. rewrite lo_nth, up_nth by exact Hi. unfold take, num_values. lia.
Qed.
Context (Hord : cat_ordered eps b).
Lemma cat_le i : In i (s_cat s) -> (i < length uf)%nat /\ nth i lo 0 <= nth i up 0.
Proof.
  intros H. pose proof (cat_bound i H) as Hi. split; [exact Hi|]. rewrite lo_nth, up_nth by exact Hi.
  apply Hord. rewrite cat_take. unfold take. apply (in_map (fun i => nth i uf 0%nat)). exact H.
Qed.
Lemma dim_spec : s_dim s = encoded_dim eps b.
Proof.
  rewrite (en_total _ _ _ _ HE). rewrite blocks_end_total by apply cat_le.
  unfold encoded_dim. rewrite plain_length, cat_take. reflexivity.
Qed.
Lemma firstn_In {A} k (l : list A) x : In x (firstn k l) -> In x l.
Proof. rewrite <- (firstn_skipn k l) at 2. intros H. apply in_or_app. left; exact H. Qed.
Lemma take_firstn {A} (d : A) k idx l : take d (firstn k idx) l = firstn k (take d idx l).
Proof. unfold take. symmetry. apply firstn_map. Qed.
Lemma block_nth k : (k < length (s_cat s))%nat ->
  nth k (s_expansion s) (0%nat, 0, []) =
  (nth k (s_cat s) 0%nat, lower b (nth k (cat_vars eps b) 0%nat), seq (block_start eps b k) (num_values b (nth k (cat_vars eps b) 0%nat))).
Proof.
  intros Hk. rewrite (en_exp _ _ _ _ HE). rewrite blocks_nth by exact Hk.
  assert (Hin : In (nth k (s_cat s) 0%nat) (s_cat s)) by (apply nth_In; exact Hk).
  destruct (cat_le _ Hin) as [Hi Hle].
  rewrite blocks_end_total by (intros j Hj; apply cat_le; eapply firstn_In; exact Hj).
  rewrite block_size_values by exact Hle. rewrite lo_nth, up_nth by exact Hi. rewrite cat_nth by exact Hk.
  unfold block_start, num_values. rewrite plain_length, cat_take, take_firstn. reflexivity.
Qed.
Lemma expansion_length : length (s_expansion s) = length (s_cat s).
Proof.
  rewrite (en_exp _ _ _ _ HE). destruct (blocks_spec lo up (s_cat s) (length (s_noncat s))) as (B1 & _).
  rewrite <- B1 at 2. rewrite map_length. reflexivity.
Qed.
Lemma in_expansion i l ex : In (i, l, ex) (s_expansion s) <-> exists k, (k < length (s_cat s))%nat /\
  i = nth k (s_cat s) 0%nat /\ l = lower b (nth k (cat_vars eps b) 0%nat) /\
  ex = seq (block_start eps b k) (num_values b (nth k (cat_vars eps b) 0%nat)).
Proof.
  split.
  - intros H. destruct (In_nth _ _ (0%nat, 0, []) H) as (k & Hk & E). rewrite expansion_length in Hk.
    rewrite (block_nth k Hk) in E. injection E as <- <- <-. eauto.
  - intros (k & Hk & -> & -> & ->). rewrite <- (block_nth k Hk). apply nth_In. rewrite expansion_length. exact Hk.
Qed.

(** C26 *)
Lemma structure :
  s_dim s = encoded_dim eps b /\ length (s_upper s) = encoded_dim eps b /\
  s_lower s = values_at (plain_vars eps b) (bb_lower b) ++ repeat 0 (total_values b (cat_vars eps b)) /\
  s_upper s = values_at (plain_vars eps b) (bb_upper b) ++ repeat 1 (total_values b (cat_vars eps b)) /\
  map snd (s_expansion s) = map (fun k => seq (block_start eps b k) (num_values b (nth k (cat_vars eps b) 0%nat))) (seq 0 (length (cat_vars eps b))) /\
  concat (map snd (s_expansion s)) = seq (length (plain_vars eps b)) (total_values b (cat_vars eps b)) /\
  (forall k, In k (s_ints s) <->
     ((k < length (plain_vars eps b))%nat /\ vtype_of b (nth k (plain_vars eps b) 0%nat) <> VReal) \/
     (length (plain_vars eps b) <= k < encoded_dim eps b)%nat).
Proof.
  pose proof dim_spec as D.
  assert (T : (s_dim s - length (s_noncat s))%nat = total_values b (cat_vars eps b)).
  { rewrite D. unfold encoded_dim. rewrite plain_length. lia. }
  assert (TK : forall l, take 0 (s_noncat s) (take 0 uf l) = values_at (plain_vars eps b) l).
  { intros l. unfold values_at. rewrite plain_take. unfold take. rewrite map_map. apply map_ext_in.
    intros i Hi. pose proof (noncat_bound i Hi) as Hb. exact (nth_take 0 uf l i Hb). }
  assert (LW : s_lower s = values_at (plain_vars eps b) (bb_lower b) ++ repeat 0 (total_values b (cat_vars eps b))).
  { rewrite (en_lower _ _ _ _ HE), T. f_equal. apply TK. }
  assert (UP : s_upper s = values_at (plain_vars eps b) (bb_upper b) ++ repeat 1 (total_values b (cat_vars eps b))).
  { rewrite (en_upper _ _ _ _ HE), T. f_equal. apply TK. }
  split; [exact D|]. split; [|split; [exact LW|split; [exact UP|]]].
  - rewrite UP. rewrite app_length, repeat_length. unfold values_at. rewrite map_length. reflexivity.
  - split; [|split].
    + rewrite cat_length. apply (nth_ext _ _ [] []).
      * rewrite !map_length, seq_length. apply expansion_length.
      * intros k Hk. rewrite map_length, expansion_length in Hk.
        change ([] : list nat) with (snd (0%nat, 0, [] : list nat)) at 1. rewrite map_nth. rewrite (block_nth k Hk). cbn [snd].
        rewrite (nth_indep _ [] ((fun k => seq (block_start eps b k) (num_values b (nth k (cat_vars eps b) 0%nat))) 0%nat)) by (rewrite map_length, seq_length; exact Hk).
        rewrite (map_nth (fun k => seq (block_start eps b k) (num_values b (nth k (cat_vars eps b) 0%nat)))).
        rewrite seq_nth by exact Hk. reflexivity.
    + destruct (blocks_spec lo up (s_cat s) (length (s_noncat s))) as (_ & _ & B & _).
      rewrite <- (en_exp _ _ _ _ HE), <- (en_total _ _ _ _ HE), T in B. rewrite plain_length. exact B.
    + intros k. rewrite (en_ints _ _ _ _ HE). rewrite in_app_iff, filter_In, !in_seq. rewrite T, plain_length. unfold encoded_dim. rewrite plain_length.
      assert (X : forall k, (k < length (s_noncat s))%nat ->
        (is_int (nth (nth k (s_noncat s) 0%nat) (map3 demote ty lo up) VReal) = true <-> vtype_of b (nth k (plain_vars eps b) 0%nat) <> VReal)).
      { intros j Hj. assert (Hin : In (nth j (s_noncat s) 0%nat) (s_noncat s)) by (apply nth_In; exact Hj).
        destruct (noncat_cat_partition s lo up ty HE) as (_ & _ & _ & NN & _). apply NN in Hin. destruct Hin as [Hb Hc].
        rewrite nth_demote in Hc |- * by (unfold ty, up; rewrite ?take_length; lia).
        rewrite (plain_nth j Hj). assert (E : nth (nth j (s_noncat s) 0%nat) ty VReal = vtype_of b (nth (nth j (s_noncat s) 0%nat) uf 0%nat))
          by (unfold ty; apply nth_take; lia). rewrite E in *.
        destruct (vtype_of b _); unfold demote in *; cbn [is_cat andb is_int] in *.
        - split; [discriminate|congruence].
        - split; [intros _; discriminate|reflexivity].
        - destruct (Qeq_bool _ 1); cbn in *; [split; [intros _; discriminate|reflexivity]|discriminate]. }
      split.
      * intros [[A1 A2]|A]; [left|right; lia]. split; [lia|]. apply X; [lia|exact A2].
      * intros [[A1 A2]|A]; [left|right; lia]. split; [lia|]. apply X; [lia|exact A2].
Qed.

(** C23 *)
Lemma take_where_combine {A} (f : A -> bool) m (x : point) : length x = length m ->
  take 0 (where_ f m) x = map snd (filter (fun mx => f (fst mx)) (combine m x)).
Proof.
  intros HL. unfold take, where_.
  assert (G : forall m x pre, length x = length m ->
     map (fun i => nth i (pre ++ x) 0) (where_from f (length pre) m) = map snd (filter (fun mx => f (fst mx)) (combine m x))).
  { clear. induction m as [|a m IH]; intros [|v x] pre HL; cbn [length] in HL; try lia; cbn [where_from combine filter fst map]; [reflexivity|].
    assert (E := IH x (pre ++ [v]) ltac:(lia)). rewrite app_length in E. cbn [length] in E. rewrite Nat.add_1_r, <- app_assoc in E. cbn [app] in E.
    destruct (f a); cbn [map snd]; rewrite E; [|reflexivity]. rewrite app_nth2, Nat.sub_diag by lia. reflexivity. }
  apply (G m x []). exact HL.
Qed.
Lemma decode_objfun_length p : length p = s_dim s -> length (decode_objfun s p) = length uf.
Proof.
  intros Hp. unfold decode_objfun. destruct (s_expansion s) eqn:E.
  - assert (Z0 : length (s_cat s) = 0%nat) by (rewrite <- expansion_length, E; reflexivity).
    destruct (noncat_cat_partition s lo up ty HE) as (_ & _ & NL & _).
    rewrite Hp, (en_total _ _ _ _ HE). destruct (s_cat s); [|discriminate]. cbn [blocks_end length] in *.
    rewrite L in NL. lia.
  - destruct (decode_spec (fun p ex => first_active p ex 0) s lo up ty p HE Hp) as (DL & _). rewrite DL. exact L.
Qed.
Lemma bb_point_merge p : length p = s_dim s -> bb_point s p = merge (mask_of eps b) (decode_objfun s p) /\
  length (decode_objfun s p) = nones (mask_of eps b).
Proof.
  intros Hp. destruct Hwf as [HU HT]. unfold bb_dim in *.
  assert (LN : length (decode_objfun s p) = nones (mask_of eps b)).
  { rewrite decode_objfun_length by exact Hp. unfold uf. rewrite (free_unfixed eps b Hwf). apply unfixed_count. exact HU. }
  split; [|exact LN]. unfold bb_point. rewrite HF. rewrite (fixed_somes eps b HU).
  exact (insert_fixed_merge (mask_of eps b) [] (decode_objfun s p) LN).
Qed.
Lemma fixed_spec p : length p = s_dim s ->
  length (bb_point s p) = bb_dim b /\
  (forall i, (i < bb_dim b)%nat -> fixedb eps b i = true -> nth i (bb_point s p) 0 = lower b i) /\
  values_at uf (bb_point s p) = decode_objfun s p.
Proof.
  intros Hp. destruct (bb_point_merge p Hp) as [E LN]. destruct Hwf as [HU HT]. pose proof HU as HU'. unfold bb_dim in HU'.
  assert (ML : length (merge (mask_of eps b) (decode_objfun s p)) = bb_dim b).
  { rewrite merge_length by exact LN. apply mask_length. exact HU'. }
  rewrite E. split; [exact ML|]. split.
  - intros i Hi Hf. apply merge_some; [exact LN|]. rewrite (mask_nth eps b i HU' Hi).
    change (close_pair eps (nth i (bb_lower b) 0, nth i (bb_upper b) 0)) with (fixedb eps b i). rewrite Hf. reflexivity.
  - change (values_at uf) with (take 0 uf). unfold uf. rewrite (free_unfixed eps b Hwf), (unfixed_where eps b HU').
    rewrite take_where_combine by (rewrite ML; symmetry; apply mask_length; exact HU').
    apply merge_free. exact LN.
Qed.
Lemma values_nth idx x k : (k < length idx)%nat -> nth k (values_at idx x) 0 = nth (nth k idx 0%nat) x 0.
Proof. intros H. exact (nth_take 0 idx x k H). Qed.
Lemma no_cat_decode p : cat_vars eps b = [] -> decode_objfun s p = p.
Proof.
  intros H. unfold decode_objfun. assert (Z0 : length (s_expansion s) = 0%nat) by (rewrite expansion_length, <- cat_length, H; reflexivity).
  destruct (s_expansion s); [reflexivity|discriminate].
Qed.
(** Complete description of the point handed to the black box. *)
Lemma decoded_spec p : length p = s_dim s ->
  values_at (plain_vars eps b) (bb_point s p) = firstn (length (plain_vars eps b)) p /\
  (forall k, (k < length (cat_vars eps b))%nat -> let i := nth k (cat_vars eps b) 0%nat in
     (forall j, (j < num_values b i)%nat -> nth (block_start eps b k + j) p 0 == 1 ->
        (forall j', (j' < j)%nat -> ~ nth (block_start eps b k + j') p 0 == 1) ->
        nth i (bb_point s p) 0 = lower b i + inject_Z (Z.of_nat j)) /\
     ((forall j, (j < num_values b i)%nat -> ~ nth (block_start eps b k + j) p 0 == 1) ->
        nth i (bb_point s p) 0 = 0)).
Proof.
  intros Hp. destruct (fixed_spec p Hp) as (BL & _ & BV).
  assert (LD := decode_objfun_length p Hp).
  assert (AT : forall i, (i < length uf)%nat -> nth (nth i uf 0%nat) (bb_point s p) 0 = nth i (decode_objfun s p) 0).
  { intros i Hi. rewrite <- BV. symmetry. apply values_nth. exact Hi. }
  assert (LP : (length (s_noncat s) <= length p)%nat).
  { rewrite Hp, (en_total _ _ _ _ HE). apply (blocks_spec lo up (s_cat s) (length (s_noncat s))). }
  destruct (s_expansion s) as [|e0 er] eqn:EXP.
  - assert (Z0 : length (s_cat s) = 0%nat) by (rewrite <- expansion_length, EXP; reflexivity).
    assert (C0 : cat_vars eps b = []) by (pose proof cat_length as CL; destruct (cat_vars eps b); [reflexivity|cbn in CL; lia]).
    split.
    + assert (PV : plain_vars eps b = uf).
      { unfold plain_vars. fold uf. unfold cat_vars in C0. fold uf in C0. clear - C0. induction uf as [|i r IH]; cbn in *; [reflexivity|].
        destruct (categoricalb b i); [discriminate|]. cbn. f_equal. apply IH. exact C0. }
      rewrite PV, BV, (no_cat_decode p C0). rewrite <- LD, (no_cat_decode p C0), firstn_all. reflexivity.
    + rewrite C0. cbn. intros k Hk. lia.
  - destruct (decode_spec (fun p ex => first_active p ex 0) s lo up ty p HE Hp) as (_ & DN & DC).
    assert (DO : decode_objfun s p = decode_with (fun p ex => first_active p ex 0) s p) by (unfold decode_objfun; rewrite EXP; reflexivity).
    split.
    + rewrite plain_length. apply (nth_ext _ _ 0 0).
      * unfold values_at. rewrite map_length, firstn_length, plain_length. lia.
      * intros k Hk. unfold values_at in Hk. rewrite map_length, plain_length in Hk.
        rewrite values_nth by (rewrite plain_length; exact Hk). rewrite (plain_nth k Hk).
        assert (Hin : In (nth k (s_noncat s) 0%nat) (s_noncat s)) by (apply nth_In; exact Hk).
        rewrite AT by (apply noncat_bound; exact Hin). rewrite DO, (DN k Hk).
        rewrite <- (firstn_skipn (length (s_noncat s)) p) at 1. rewrite app_nth1; [reflexivity|]. rewrite firstn_length. lia.
    + intros k Hk. rewrite cat_length in Hk. cbn zeta. set (i := nth k (cat_vars eps b) 0%nat).
      assert (Hin : In (nth k (s_cat s) 0%nat) (s_cat s)) by (apply nth_In; exact Hk).
      assert (IN : In (nth k (s_cat s) 0%nat, lower b i, seq (block_start eps b k) (num_values b i)) (s_expansion s)).
      { apply in_expansion. exists k. auto. }
      assert (V : nth i (bb_point s p) 0 = match first_active p (seq (block_start eps b k) (num_values b i)) 0 with
                   | Some j => lower b i + inject_Z (Z.of_nat j) | None => 0 end).
      { unfold i at 1. rewrite (cat_nth k Hk). rewrite AT by (apply cat_bound; exact Hin). rewrite DO.
        exact (DC _ _ _ IN). }
      assert (AC : forall j, active p (seq (block_start eps b k) (num_values b i)) j <-> (j < num_values b i)%nat /\ nth (block_start eps b k + j) p 0 == 1).
      { intros j. unfold active. rewrite seq_length. split; intros [A1 A2]; (split; [exact A1|]); rewrite seq_nth in * by exact A1; exact A2. }
      split.
      * intros j Hj Ha Hm. rewrite V. assert (F : first_active p (seq (block_start eps b k) (num_values b i)) 0 = Some j).
        { apply first_active_iff. exists j. split; [reflexivity|]. split; [apply AC; auto|].
          intros k' Hk' Hact. apply AC in Hact. apply (Hm k' Hk'). apply Hact. }
        rewrite F. reflexivity.
      * intros Hn. rewrite V. rewrite first_active_none; [reflexivity|].
        intros j Hact. apply AC in Hact. destruct Hact as [A1 A2]. exact (Hn j A1 A2).
Qed.

(** C24 / C25 *)
Lemma returned_length p : length p = s_dim s -> length (returned_point s p) = length uf.
Proof.
  intros Hp. unfold returned_point. destruct (s_expansion s) eqn:E.
  - pose proof (decode_objfun_length p Hp) as H. unfold decode_objfun in H. rewrite E in H. exact H.
  - unfold compress. destruct (decode_spec (fun p ex => last_active p ex 0 None) s lo up ty p HE Hp) as (DL & _). lia.
Qed.
Lemma one_hot_active p : one_hot eps b p -> forall i l ex, In (i, l, ex) (s_expansion s) ->
    forall k k', active p ex k -> active p ex k' -> k = k'.
Proof.
  intros [_ H] i l ex Hin k k' [A1 A2] [B1 B2]. apply in_expansion in Hin. destruct Hin as (q & Hq & _ & _ & ->).
  rewrite seq_length in A1, B1. rewrite seq_nth in A2, B2 by assumption.
  destruct (H q) as (j & Hj & _ & Hu); [rewrite cat_length; exact Hq|].
  destruct (Nat.eq_dec k j) as [->|Nk]; [|exfalso; exact (Hu k A1 Nk A2)].
  destruct (Nat.eq_dec k' j) as [->|Nk']; [reflexivity|exfalso; exact (Hu k' B1 Nk' B2)].
Qed.
Lemma returned_agrees p : one_hot eps b p -> returned_point s p = values_at uf (bb_point s p).
Proof.
  intros H. destruct H as [HL H]. assert (Hp : length p = s_dim s) by (rewrite dim_spec; exact HL).
  destruct (fixed_spec p Hp) as (_ & _ & BV). rewrite BV. symmetry. apply decode_agree.
  apply one_hot_active. split; assumption.
Qed.
Lemma range_of x : length x = length uf -> (forall k, (k < length (cat_vars eps b))%nat ->
     category (lower b (nth k (cat_vars eps b) 0%nat)) (upper b (nth k (cat_vars eps b) 0%nat)) (nth (nth k (s_cat s) 0%nat) x 0)) ->
  in_range s up x.
Proof.
  intros Lx H i l ex Hin. apply in_expansion in Hin. destruct Hin as (k & Hk & -> & -> & _).
  assert (HB : (nth k (s_cat s) 0%nat < length uf)%nat) by (apply cat_bound, nth_In; exact Hk).
  rewrite (up_nth _ HB). rewrite <- (cat_nth k Hk). apply H. rewrite cat_length. exact Hk.
Qed.
Lemma encode_decode x : length x = length uf ->
  (forall k, (k < length (cat_vars eps b))%nat ->
     category (lower b (nth k (cat_vars eps b) 0%nat)) (upper b (nth k (cat_vars eps b) 0%nat)) (nth (nth k (s_cat s) 0%nat) x 0)) ->
  one_hot eps b (expand s x) /\ same_point (decode_objfun s (expand s x)) x /\ same_point (returned_point s (expand s x)) x.
Proof.
  intros Lx H. pose proof (range_of x Lx H) as R.
  destruct (expand_spec s lo up ty x HE) as (XL & XN & XC).
  assert (OH : one_hot eps b (expand s x)).
  { split; [rewrite XL; apply dim_spec|]. intros k Hk. rewrite cat_length in Hk.
    set (i := nth k (cat_vars eps b) 0%nat).
    assert (IN : In (nth k (s_cat s) 0%nat, lower b i, seq (block_start eps b k) (num_values b i)) (s_expansion s)).
    { apply in_expansion. exists k. auto. }
    destruct (expand_active s lo up ty x HE R _ _ _ IN) as (j & [A1 A2] & U & _).
    rewrite seq_length in A1. rewrite seq_nth in A2 by exact A1. exists j. split; [exact A1|]. split; [exact A2|].
    intros j' Hj' Hne Ha. apply Hne. apply U. split; [rewrite seq_length; exact Hj'|]. rewrite seq_nth by exact Hj'. exact Ha. }
  assert (RT : forall pick, (forall p ex k, active p ex k -> (forall k', active p ex k' -> k' = k) -> pick p ex = Some k) ->
     same_point (decode_with pick s (expand s x)) x).
  { intros pick Hpick. destruct (round_trip_with pick s lo up ty x Hpick HE ltac:(lia) R) as [A B].
    split; [exact A|]. intros i Hi. apply B. lia. }
  split; [exact OH|].
  destruct (s_expansion s) as [|e0 er] eqn:E.
  - assert (EX : same_point (expand s x) x).
    { assert (Z0 : s_cat s = []). { pose proof expansion_length as X. rewrite E in X. destruct (s_cat s); [reflexivity|discriminate]. }
      assert (LP : length (s_noncat s) = length lo).
      { destruct (noncat_cat_partition s lo up ty HE) as (_ & _ & NL & _). rewrite Z0 in NL. cbn in NL. lia. }
      assert (NI : s_noncat s = seq 0 (length lo)).
      { rewrite (en_noncat _ _ _ _ HE). destruct (en_len _ _ _ _ HE) as [HU' HT'].
        replace (length lo) with (length (map3 demote ty lo up)) by (rewrite map3_len3; lia).
        apply where_none. rewrite <- (en_cat _ _ _ _ HE). exact Z0. }
      unfold expand. rewrite E. cbn [map concat]. rewrite app_nil_r, NI, L, <- Lx, take_seq. split; [reflexivity|]. intros; reflexivity. }
    unfold decode_objfun, returned_point. rewrite E. split; exact EX.
  - unfold decode_objfun, returned_point. rewrite E. split.
    + apply RT. intros p ex k A U. exact (first_active_some p ex 0 k A U).
    + apply RT. intros p ex k A U. exact (last_active_some p ex 0 None k A U).
Qed.
Lemma free_lt i : In i uf -> (i < bb_dim b)%nat /\ fixedb eps b i = false.
Proof. intros H. unfold uf, free_vars in H. rewrite filter_In, in_seq, negb_true_iff in H. split; [lia|tauto]. Qed.
Lemma cat_values x : representable eps b x -> forall k, (k < length (cat_vars eps b))%nat ->
  category (lower b (nth k (cat_vars eps b) 0%nat)) (upper b (nth k (cat_vars eps b) 0%nat)) (nth (nth k (s_cat s) 0%nat) (values_at uf x) 0).
Proof.
  intros (_ & _ & H) k Hk. pose proof Hk as Hk'. rewrite cat_length in Hk'.
  rewrite values_nth by (apply cat_bound, nth_In; exact Hk'). rewrite <- (cat_nth k Hk'). apply H. apply nth_In. exact Hk.
Qed.
Lemma round_trip x : representable eps b x ->
  one_hot eps b (expand s (values_at uf x)) /\
  same_point (bb_point s (expand s (values_at uf x))) x /\
  same_point (returned_point s (expand s (values_at uf x))) (values_at uf x).
Proof.
  intros HR. pose proof (cat_values x HR) as HC. destruct HR as (Lx & HX & _).
  assert (LV : length (values_at uf x) = length uf) by (unfold values_at; apply map_length).
  destruct (encode_decode (values_at uf x) LV HC) as (OH & [D1 D2] & RR).
  split; [exact OH|]. split; [|exact RR].
  assert (Hp : length (expand s (values_at uf x)) = s_dim s) by (apply (expand_spec s lo up ty _ HE)).
  destruct (fixed_spec _ Hp) as (BL & BF & BV).
  split; [lia|]. intros i Hi. rewrite BL in Hi. destruct (fixedb eps b i) eqn:F.
  - rewrite (BF i Hi F). symmetry. apply HX; assumption.
  - assert (Hin : In i uf) by (unfold uf, free_vars; rewrite filter_In, in_seq, F; split; [lia|reflexivity]).
    destruct (In_nth _ _ 0%nat Hin) as (k & Hk & Ek).
    rewrite <- Ek. rewrite <- (values_nth uf (bb_point s _) k Hk). rewrite <- (values_nth uf x k Hk). rewrite BV.
    apply D2. rewrite D1, LV. exact Hk.
Qed.

(** C27 *)
Lemma compress_spec :
  (forall i, (i < length uf)%nat -> nth i (compress_bounds s (s_lower s)) 0 = lower b (nth i uf 0%nat)) /\
  (forall i, (i < length uf)%nat ->
     (categoricalb b (nth i uf 0%nat) = true -> exists z, upper b (nth i uf 0%nat) - lower b (nth i uf 0%nat) == inject_Z z) ->
     nth i (compress_bounds s (s_upper s)) 0 == upper b (nth i uf 0%nat)) /\
  length (compress_bounds s (s_lower s)) = length uf /\ length (compress_bounds s (s_upper s)) = length uf /\
  compress_ints s (s_ints s) = filter (fun i => negb (is_real (vtype_of b (nth i uf 0%nat)))) (seq 0 (length uf)).
Proof.
  destruct structure as (D & LU & LW & UP & _).
  destruct (compress_bounds_spec s lo up ty (s_lower s) HE eq_refl) as (CL & CN & CC).
  destruct (compress_bounds_spec s lo up ty (s_upper s) HE ltac:(lia)) as (CL' & CN' & CC').
  destruct (noncat_cat_partition s lo up ty HE) as (_ & _ & _ & NN & NC).
  assert (HD : forall k, (k < length (s_cat s))%nat -> let j := hd 0%nat (seq (block_start eps b k) (num_values b (nth k (cat_vars eps b) 0%nat))) in
     nth j (s_lower s) 0 = 0 /\ nth j (s_upper s) 0 = 1).
  { intros k Hk. cbn zeta. unfold num_values at 1 2. cbn [seq hd].
    assert (G : (length (plain_vars eps b) <= block_start eps b k < encoded_dim eps b)%nat).
    { unfold block_start, encoded_dim. split; [lia|].
      rewrite <- cat_length in Hk. clear - Hk. revert k Hk. induction (cat_vars eps b) as [|c r IH]; intros k Hk; cbn [length] in Hk; [lia|].
      destruct k as [|k]; cbn [firstn total_values]; [unfold num_values; lia|]. specialize (IH k ltac:(lia)). lia. }
    unfold encoded_dim in G. rewrite LW, UP. unfold values_at. split; rewrite app_nth2; rewrite map_length; try lia.
    - apply nth_repeat.
    - rewrite (nth_indep _ 0 1) by (rewrite repeat_length; lia). apply nth_repeat. }
  assert (POS : forall i, (i < length uf)%nat -> (exists k, (k < length (s_noncat s))%nat /\ i = nth k (s_noncat s) 0%nat) \/
     (exists k, (k < length (s_cat s))%nat /\ i = nth k (s_cat s) 0%nat)).
  { intros i Hi. destruct (is_cat (nth i (map3 demote ty lo up) VReal)) eqn:B.
    - right. assert (Hc : In i (s_cat s)) by (apply NC; split; [lia|exact B]). destruct (In_nth _ _ 0%nat Hc) as (k & Hk & <-). eauto.
    - left. assert (Hc : In i (s_noncat s)) by (apply NN; split; [lia|exact B]). destruct (In_nth _ _ 0%nat Hc) as (k & Hk & <-). eauto. }
  split; [|split; [|split; [lia|split; [lia|]]]].
  - intros i Hi. destruct (POS i Hi) as [(k & Hk & ->)|(k & Hk & ->)].
    + rewrite (CN k Hk). rewrite LW. rewrite app_nth1 by (unfold values_at; rewrite map_length, plain_length; exact Hk).
      rewrite values_nth by (rewrite plain_length; exact Hk). rewrite (plain_nth k Hk). reflexivity.
    + assert (IN := proj2 (in_expansion _ _ _) (ex_intro _ k (conj Hk (conj eq_refl (conj eq_refl eq_refl))))).
      rewrite (CC _ _ _ IN). destruct (HD k Hk) as [-> _]. cbn [Qeq_bool]. rewrite (cat_nth k Hk). reflexivity.
  - intros i Hi HZ. destruct (POS i Hi) as [(k & Hk & ->)|(k & Hk & ->)].
    + rewrite (CN' k Hk). rewrite UP. rewrite app_nth1 by (unfold values_at; rewrite map_length, plain_length; exact Hk).
      rewrite values_nth by (rewrite plain_length; exact Hk). rewrite (plain_nth k Hk). reflexivity.
    + assert (IN := proj2 (in_expansion _ _ _) (ex_intro _ k (conj Hk (conj eq_refl (conj eq_refl eq_refl))))).
      rewrite (CC' _ _ _ IN). destruct (HD k Hk) as [_ ->]. change (Qeq_bool 1 0) with false. cbv iota.
      rewrite seq_length. set (c := nth k (cat_vars eps b) 0%nat).
      assert (Ec : nth (nth k (s_cat s) 0%nat) uf 0%nat = c) by (unfold c; symmetry; apply cat_nth; exact Hk).
      rewrite Ec in *.
      assert (Hc : In c (cat_vars eps b)) by (apply nth_In; rewrite cat_length; exact Hk).
      assert (Hcat : categoricalb b c = true) by (unfold cat_vars in Hc; apply filter_In in Hc; tauto).
      destruct (HZ Hcat) as [z Hz]. pose proof (Hord c Hc) as Ho.
      assert (Fz : Qfloor (upper b c - lower b c) = z).
      { rewrite Hz. apply Qfloor_Z. }
      assert (Z0 : (0 <= z)%Z) by (rewrite <- Fz; change 0%Z with (Qfloor 0); apply Qfloor_resp_le; lra).
      unfold num_values. rewrite Fz, Nat2Z.inj_succ, Z2Nat.id by exact Z0.
      unfold Z.succ. rewrite inject_Z_plus. change (inject_Z 1) with 1. lra.
  - rewrite (compress_ints_spec s lo up ty HE). rewrite (filter_where _ ty VReal).
    unfold ty. rewrite take_length. apply filter_ext_In'. intros i Hi. apply in_seq in Hi.
    rewrite nth_take by lia. reflexivity.
Qed.

(** C88 *)
Lemma user_point_accepts p : (exists q, user_point s p = Some q) <-> length p = length uf.
Proof.
  unfold user_point. destruct (noncat_cat_partition s lo up ty HE) as (_ & _ & NL & _). rewrite NL, L.
  destruct (Nat.eqb_spec (length p) (length uf)); split; try congruence; eauto. intros [q H]; discriminate.
Qed.
Lemma round_at_nth ints p : forall off i, (i < length p)%nat ->
  nth i (round_at off ints p) 0 = if existsb (Nat.eqb (off + i)) ints then inject_Z (round_half_even (nth i p 0)) else nth i p 0.
Proof.
  induction p as [|x r IH]; intros off i Hi; cbn [length] in Hi; [lia|]. cbn [round_at].
  destruct i as [|i]; cbn [nth]; [rewrite Nat.add_0_r; reflexivity|]. rewrite IH by lia.
  replace (S off + i)%nat with (off + S i)%nat by lia. reflexivity.
Qed.
Lemma round_at_length ints p : forall off, length (round_at off ints p) = length p.
Proof. induction p as [|x r IH]; intros off; cbn; [reflexivity|]. rewrite IH. reflexivity. Qed.
Lemma round_int z q : q == inject_Z z -> round_half_even q = z.
Proof.
  intros H. unfold round_half_even. assert (F : Qfloor q = z) by (rewrite H; apply Qfloor_Z). rewrite F.
  assert (B : Qltb (q - inject_Z z) (1#2) = true) by (apply Qltb_lt; lra). rewrite B. reflexivity.
Qed.
Lemma user_point_exact x q : representable eps b x ->
  (forall i, (i < bb_dim b)%nat -> vtype_of b i = VInt \/ vtype_of b i = VCat -> exists z, nth i x 0 == inject_Z z) ->
  user_point s (values_at uf x) = Some q -> same_point (bb_point s q) x.
Proof.
  intros HR HI HU. destruct (round_trip x HR) as (OH & [B1 B2] & _).
  assert (Eq : q = round_integer_vars (expand s (values_at uf x)) (s_ints s)).
  { unfold user_point in HU. destruct (_ =? _)%nat; [injection HU as <-; reflexivity|discriminate]. }
  set (p := expand s (values_at uf x)) in *.
  assert (Hp : length p = s_dim s) by (apply (expand_spec s lo up ty _ HE)).
  assert (Hq : length q = s_dim s) by (rewrite Eq; unfold round_integer_vars; rewrite round_at_length; exact Hp).
  assert (PQ : forall j, (j < length p)%nat -> nth j q 0 == nth j p 0).
  { intros j Hj. rewrite Eq. unfold round_integer_vars. rewrite round_at_nth by exact Hj. cbn [Nat.add].
    destruct (existsb (Nat.eqb j) (s_ints s)) eqn:E; [|reflexivity].
    assert (Hin : In j (s_ints s)) by (apply memn_In; exact E).
    assert (INT : exists z, nth j p 0 == inject_Z z).
    { destruct structure as (D & _ & _ & _ & _ & _ & SI). apply SI in Hin. destruct Hin as [[J1 J2]|J].
      - destruct (expand_spec s lo up ty (values_at uf x) HE) as (_ & XN & _). rewrite plain_length in J1.
        unfold p. rewrite (XN j J1). assert (Hb := noncat_bound _ (nth_In (s_noncat s) 0%nat J1)).
        rewrite values_nth by exact Hb. rewrite <- (plain_nth j J1). set (i := nth j (plain_vars eps b) 0%nat) in *.
        assert (Hi : (i < bb_dim b)%nat).
        { unfold i. rewrite (plain_nth j J1). apply free_lt. apply nth_In. exact Hb. }
        apply (HI i Hi). destruct (vtype_of b i); [congruence|auto|auto].
      - assert (HB : exists i l ex k, In (i, l, ex) (s_expansion s) /\ (k < length ex)%nat /\ nth k ex 0%nat = j).
        { destruct structure as (_ & _ & _ & _ & _ & CC & _).
          assert (Hj' : In j (concat (map snd (s_expansion s)))).
          { rewrite CC. apply in_seq. unfold encoded_dim in J. lia. }
          apply in_concat in Hj'. destruct Hj' as (ex & Hex & Hjex). apply in_map_iff in Hex.
          destruct Hex as ([[i l] ex'] & <- & Hin'). destruct (In_nth _ _ 0%nat Hjex) as (k & Hk & Ek). exists i, l, ex', k. auto. }
        destruct HB as (i & l & ex & k & Hin' & Hk & <-).
        destruct (expand_spec s lo up ty (values_at uf x) HE) as (_ & _ & XC). unfold p. rewrite (XC i l ex k Hin' Hk).
        destruct (Qeq_bool _ _); [exists 1%Z; reflexivity|exists 0%Z; reflexivity]. }
    destruct INT as [z Hz]. rewrite (round_int z _ Hz). symmetry. exact Hz. }
  (* decoding only looks at coordinates up to equality *)
  destruct (fixed_spec p Hp) as (BLp & BFp & BVp). destruct (fixed_spec q Hq) as (BLq & BFq & BVq).
  split; [destruct HR; lia|]. intros i Hi. rewrite BLq in Hi. rewrite <- (B2 i) by lia.
  destruct (fixedb eps b i) eqn:F; [rewrite (BFp i Hi F), (BFq i Hi F); reflexivity|].
  destruct (decoded_spec p Hp) as [DPp DCp]. destruct (decoded_spec q Hq) as [DPq DCq].
  assert (Hin : In i uf) by (unfold uf, free_vars; rewrite filter_In, in_seq, F; split; [lia|reflexivity]).
  destruct (categoricalb b i) eqn:Ci.
  - assert (Hc : In i (cat_vars eps b)) by (unfold cat_vars; apply filter_In; auto).
    destruct (In_nth _ _ 0%nat Hc) as (k & Hk & Ek). destruct OH as [OL OH]. destruct (OH k Hk) as (j & Hj & Ha & Hu).
    specialize (DCp k Hk). specialize (DCq k Hk). cbn zeta in DCp, DCq. rewrite Ek in *.
    assert (JB : forall j, (j < num_values b i)%nat -> (block_start eps b k + j < length p)%nat).
    { intros j1 Hj1. rewrite OL. unfold block_start, encoded_dim. rewrite <- Ek in Hj1.
      clear - Hk Hj1. revert k Hk Hj1. induction (cat_vars eps b) as [|c r IH]; intros k Hk Hj1; cbn [length] in Hk; [lia|].
      destruct k as [|k]; cbn [firstn total_values nth] in *; [lia|]. specialize (IH k ltac:(lia) Hj1). lia. }
    rewrite (proj1 DCp j Hj Ha) by (intros j' Hj'; apply Hu; lia).
    rewrite (proj1 DCq j Hj); [reflexivity| |].
    + rewrite PQ by (apply JB; exact Hj). exact Ha.
    + intros j' Hj' Hx. rewrite PQ in Hx by (apply JB; lia). apply (Hu j'); [lia|lia|exact Hx].
  - assert (Hc : In i (plain_vars eps b)) by (unfold plain_vars; apply filter_In; rewrite Ci; auto).
    destruct (In_nth _ _ 0%nat Hc) as (k & Hk & Ek).
    assert (Ep : nth i (bb_point s p) 0 = nth k p 0).
    { rewrite <- Ek. rewrite <- values_nth by exact Hk. rewrite DPp.
      rewrite <- (firstn_skipn (length (plain_vars eps b)) p) at 2. rewrite app_nth1; [reflexivity|].
      rewrite firstn_length. rewrite Hp, dim_spec. unfold encoded_dim. lia. }
    assert (Eq' : nth i (bb_point s q) 0 = nth k q 0).
    { rewrite <- Ek. rewrite <- values_nth by exact Hk. rewrite DPq.
      rewrite <- (firstn_skipn (length (plain_vars eps b)) q) at 2. rewrite app_nth1; [reflexivity|].
      rewrite firstn_length. rewrite Hq, dim_spec. unfold encoded_dim. lia. }
    rewrite Ep, Eq'. apply PQ. rewrite Hp, dim_spec. unfold encoded_dim. lia.
Qed.
End Problem.
