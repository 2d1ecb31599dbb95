From Verif Require Import SpecGA InitProofs InitSample InitGlue CatProofs CatCodes CatGlue BaseLemmas.
From Coq Require Import Lia Lqa.
Open Scope Q_scope.

Lemma same_point_refl p : same_point p p.
Proof. split; [reflexivity|]. intros; reflexivity. Qed.
Lemma feas_same lo up ints x y : (forall j, In j ints -> (j < length lo)%nat) -> feasible lo up ints x -> same_point y x -> feasible lo up ints y.
Proof.
  intros HI (L & B & I) [SL SE]. split; [lia|]. split.
  - intros j Hj. rewrite (SE j) by lia. apply B, Hj.
  - intros j Hj. destruct (I j Hj) as [z Hz]. exists z. rewrite (SE j) by (rewrite SL, L; apply HI, Hj). exact Hz.
Qed.
Lemma unit_between l u r : l <= u -> 0 <= r -> r < 1 -> l <= r * (u - l) + l /\ r * (u - l) + l <= u.
Proof.
  intros Hlu H0 H1. assert (P : 0 <= r * (u - l)) by (apply Qmult_le_0_compat; lra).
  assert (P2 : 0 <= (1 - r) * (u - l)) by (apply Qmult_le_0_compat; lra).
  assert (E : (1 - r) * (u - l) == (u - l) - r * (u - l)) by ring. rewrite E in P2. lra.
Qed.

Section Space.
Context (sp : space).
Let lo := sp_lower sp. Let up := sp_upper sp. Let ints := sp_ints sp. Let n := sp_dim sp.
Definition feas (x : point) : Prop := feasible (sp_lower sp) (sp_upper sp) (sp_ints sp) x.
Definition coded (p : point) : Prop := exists x, feas x /\ p = sp_enc sp x.
Definition in_unit (l : list Q) : Prop := forall x, In x l -> 0 <= x < 1.
Context (GB : good_box lo up ints).
Context (DE : forall x, feas x -> same_point (sp_dec sp (sp_enc sp x)) x).
Context (EE : forall x y, feas x -> same_point y x -> same_point (sp_enc sp y) (sp_enc sp x)).

Lemma ints_lt' j : In j ints -> (j < length lo)%nat.
Proof. intros H. destruct GB as [_ G]. apply G in H. tauto. Qed.
Lemma uplen : length up = length lo.
Proof. destruct GB as [[BL _] _]. lia. Qed.
Lemma box_le j : (j < length lo)%nat -> nth j lo 0 <= nth j up 0.
Proof. destruct GB as [[_ BO] _]. apply BO. Qed.

Lemma sample_coded r : length r = n -> in_unit r -> coded (sample_point sp r).
Proof.
  intros HL HU. eexists. split; [|reflexivity]. apply round_feasible; [exact GB|].
  unfold uniform_row. fold lo up. pose proof uplen as UL. assert (HL' : length r = length lo) by exact HL. unfold point in *.
  split; [rewrite map3_len3 by lia; exact HL'|]. intros i Hi. rewrite (nth_map3 _ r lo up i 0 0 0 0) by lia.
  assert (Hr : 0 <= nth i r 0 < 1) by (apply HU, nth_In; lia).
  pose proof (box_le i Hi) as B. destruct (unit_between _ _ (nth i r 0) B) as [U1 U2]; [lra|lra|].
  assert (0 <= bound_shift ints i) by (unfold bound_shift; destruct (memn i ints); discriminate). fold ints. lra.
Qed.
Lemma mate_feas c x y : length c = n -> feas x -> feas y -> feas (mate c x y).
Proof.
  intros HC (L1 & B1 & I1) (L2 & B2 & I2). unfold n, sp_dim in HC. unfold mate. unfold point in *. fold lo in HC, L1, L2, B1, B2 |- *. unfold feas, feasible. fold lo up ints.
  assert (E : forall i, (i < length lo)%nat -> nth i (map3 (fun (c : bool) f m => if c then f else m) c x y) 0 = (if nth i c false then nth i x 0 else nth i y 0)).
  { intros i Hi. rewrite (nth_map3 _ c x y i false 0 0 0) by lia. reflexivity. }
  split; [rewrite map3_len3 by lia; lia|]. split.
  - intros j Hj. rewrite (E j Hj). destruct (nth j c false); auto.
  - intros j Hj. rewrite (E j (ints_lt' j Hj)). destruct (nth j c false); auto.
Qed.
Lemma set_feas j v x : (j < length lo)%nat -> feas x -> nth j lo 0 <= v <= nth j up 0 -> (In j ints -> integral v) -> feas (set_at j v x).
Proof.
  intros Hj (L & B & I) HV HI. unfold point in *. split; [rewrite set_at_length; exact L|]. split.
  - intros i Hi. destruct (Nat.eq_dec j i) as [<-|N]; [rewrite nth_set_at by (fold lo in L; lia); exact HV|].
    rewrite nth_set_at_ne by exact N. apply B, Hi.
  - intros i Hi. destruct (Nat.eq_dec j i) as [<-|N]; [rewrite nth_set_at by (fold lo in L; lia); apply HI, Hi|].
    rewrite nth_set_at_ne by exact N. apply I, Hi.
Qed.
Lemma new_coordinate_ok j r : (j < length lo)%nat -> 0 <= r < 1 ->
  nth j lo 0 <= new_coordinate sp (j, r) <= nth j up 0 /\ (In j ints -> integral (new_coordinate sp (j, r))).
Proof.
  intros Hj [R0 R1]. unfold new_coordinate. fold lo up ints. pose proof (box_le j Hj) as B.
  destruct (unit_between _ _ r B R0 R1) as [U1 U2].
  set (v := nth j lo 0 + r * (nth j up 0 - nth j lo 0)). assert (V : v == r * (nth j up 0 - nth j lo 0) + nth j lo 0) by (unfold v; ring).
  destruct (memn j ints) eqn:M.
  - apply memn_In in M. destruct GB as [_ G]. destruct (G j M) as (_ & I1 & I2). split; [apply rhe_between; auto; rewrite V; lra|].
    intros _. eexists; reflexivity.
  - split; [split; rewrite V; lra|]. intros H. apply memn_In in H. congruence.
Qed.
Lemma mutate_feas max mu : forall x, mutation_ok n max mu -> feas x -> feas (mutate sp mu x).
Proof.
  intros x (_ & _ & H) Hx. unfold mutate. revert x Hx H. induction mu as [|[j r] t IH]; intros x Hx H; cbn [map fst put]; [exact Hx|].
  destruct (H j r (or_introl eq_refl)) as [Hj Hr]. destruct (new_coordinate_ok j r Hj Hr) as [V I].
  apply IH; [apply set_feas; assumption|]. intros j' r' H'. apply H. right. exact H'.
Qed.
Lemma dec_feas p : coded p -> feas (sp_dec sp p).
Proof. intros (x & Hx & ->). eapply feas_same; [exact ints_lt'|exact Hx|apply DE, Hx]. Qed.
Lemma enc_coded x : feas x -> coded (sp_enc sp x).
Proof. intros H. exists x. auto. Qed.
Lemma recode p : coded p -> same_point (sp_enc sp (sp_dec sp p)) p.
Proof. intros (x & Hx & ->). apply EE; [exact Hx|apply DE, Hx]. Qed.

Definition all_coded (l : list point) : Prop := forall p, In p l -> coded p.
Lemma coded_app l m : all_coded l -> all_coded m -> all_coded (l ++ m).
Proof. intros H1 H2 p Hp. apply in_app_or in Hp. destruct Hp; auto. Qed.
Lemma samples_coded m rows : uniform_rows m n rows -> all_coded (generate_sample_points sp rows).
Proof.
  intros [_ H] p Hp. apply in_map_iff in Hp. destruct Hp as (r & <- & Hr). destruct (H r Hr) as [A B]. apply sample_coded; assumption.
Qed.
Lemma in_map3 {A B C D} (f : A -> B -> C -> D) l : forall m k x, In x (map3 f l m k) -> exists a b c, In a l /\ In b m /\ In c k /\ x = f a b c.
Proof.
  induction l as [|a l IH]; intros [|b m] [|c k] x H; cbn in H; try contradiction. destruct H as [<-|H].
  - exists a, b, c. cbn. auto.
  - destruct (IH m k x H) as (a' & b' & c' & H1 & H2 & H3 & ->). exists a', b', c'. cbn. auto.
Qed.
Lemma in_map2 {A B D} (f : A -> B -> D) l : forall m x, In x (map2 f l m) -> exists a b, In a l /\ In b m /\ x = f a b.
Proof.
  induction l as [|a l IH]; intros [|b m] x H; cbn in H; try contradiction. destruct H as [<-|H].
  - exists a, b. cbn. auto.
  - destruct (IH m x H) as (a' & b' & H1 & H2 & ->). exists a', b'. cbn. auto.
Qed.

Section Gen.
Context (base dim max : nat) (scores : list score) (population : list point) (d : gen_draw).
Let ns := num_surviving base dim. Let nn := num_new base dim.
Context (Hdim : (0 < dim)%nat) (HS : length scores = length population) (HP : length population = population_size base dim)
  (HD : draws_ok ns nn n max scores d) (HC : all_coded population).
Let best := map (fun i => nth i population []) (firstn ns (g_rank d)).
Lemma sizes : (1 <= ns)%nat /\ (ns + ns + nn + 1 = population_size base dim)%nat.
Proof.
  unfold ns, nn, num_new, num_surviving. assert (4 <= population_size base dim)%nat.
  { unfold population_size. replace (20 * dim / 5)%nat with (4 * dim)%nat; [lia|]. apply Nat.div_unique with 0%nat; lia. }
  pose proof (Nat.div_mod (population_size base dim) 4 ltac:(lia)) as DM. pose proof (Nat.mod_upper_bound (population_size base dim) 4 ltac:(lia)).
  lia.
Qed.
Lemma best_len : length best = ns.
Proof.
  destruct HD as (([RL _] & _) & _). unfold best. rewrite map_length, firstn_length. pose proof sizes. lia.
Qed.
Lemma best_coded : all_coded best.
Proof.
  intros p Hp. apply in_map_iff in Hp. destruct Hp as (i & <- & Hi). apply firstn_In in Hi. destruct HD as (([_ [_ RB]] & _) & _).
  apply HC, nth_In. rewrite <- HS. apply RB, Hi.
Qed.
Lemma best_nth_coded i : (i < ns)%nat -> coded (nth i best []).
Proof. intros H. apply best_coded, nth_In. rewrite best_len. exact H. Qed.
Lemma generation_coded : all_coded (generation sp base dim population d).
Proof.
  pose proof sizes as [N1 N2]. destruct HD as (_ & (FL & _ & FB) & (ML & _ & MB) & CL & CB & NW & MU & GL & GM).
  unfold generation. fold ns. fold best. repeat apply coded_app.
  - pose proof best_coded as BC. unfold survivors. destruct best as [|p0 r]; [intros ? []|]. intros q [<-|Hq].
    + apply enc_coded, dec_feas, BC. left; reflexivity.
    + apply in_map2 in Hq. destruct Hq as (o & q' & Ho & Hq' & ->). apply enc_coded.
      assert (DF : feas (sp_dec sp q')) by (apply dec_feas, BC; right; exact Hq'). destruct o as [mu|]; [|exact DF].
      eapply mutate_feas; [apply GM; exact Ho|exact DF].
  - intros q Hq. apply in_map3 in Hq. destruct Hq as (c & f & m & Hc & Hf & Hm & ->). apply enc_coded.
    apply mate_feas; [apply CB, Hc|apply dec_feas, best_nth_coded, FB, Hf|apply dec_feas, best_nth_coded, MB, Hm].
  - eapply samples_coded. exact NW.
  - intros q [<-|[]]. apply enc_coded. eapply mutate_feas; [exact MU|]. apply dec_feas. replace (hd [] best) with (nth 0 best []) by (destruct best; reflexivity).
    apply best_nth_coded. lia.
Qed.
Lemma generation_length : length (generation sp base dim population d) = length population.
Proof.
  pose proof sizes as [N1 N2]. destruct HD as (_ & (FL & _ & FB) & (ML & _ & MB) & CL & CB & [NW _] & MU & GL & GM).
  unfold generation. fold ns. fold best. rewrite !app_length. unfold generate_sample_points. rewrite map_length. cbn [length].
  unfold offspring. rewrite map3_len3 by lia. pose proof best_len as BL.
  assert (length (survivors sp best d) = ns).
  { unfold survivors. destruct best as [|p0 r]; cbn [length] in *; [lia|]. rewrite map2_length by lia. lia. }
  rewrite H, CL, NW. lia.
Qed.
Lemma generation_best f : scores = map f population -> (forall p q, same_point p q -> xle (f p) (f q) = true) ->
  (forall a b c, xle a b = true -> xle b c = true -> xle a c = true) ->
  forall p, In p population -> exists q, In q (generation sp base dim population d) /\ xle (f q) (f p) = true.
Proof.
  intros ES HF TR p Hp. pose proof sizes as [N1 N2]. pose proof best_len as BL. pose proof best_coded as BC.
  destruct HD as (((RL & RN & RB) & RS) & _).
  set (p0 := nth 0 best []). assert (P0 : In p0 best) by (apply nth_In; lia).
  exists (sp_enc sp (sp_dec sp p0)). split.
  - unfold generation. fold ns. fold best. apply in_or_app. left. unfold survivors, p0. clear - BL N1. destruct best as [|x r]; [cbn [length] in BL; lia|]. left. reflexivity.
  - apply TR with (f p0); [apply HF, recode, BC, P0|].
    destruct (In_nth _ _ [] Hp) as (i & Hi & <-).
    assert (IR : In i (g_rank d)).
    { destruct (in_dec Nat.eq_dec i (g_rank d)) as [|NI]; [assumption|exfalso].
      assert (X : (length (i :: g_rank d) <= length (seq 0 (length population)))%nat).
      { apply NoDup_incl_length; [constructor; assumption|]. intros k [<-|Hk]; apply in_seq; (split; [apply Nat.le_0_l|cbn [Nat.add]]); [exact Hi|]. rewrite <- HS. apply RB. exact Hk. }
      cbn [length] in X. rewrite seq_length, <- HS in X. clear - X RL. lia. }
    destruct (In_nth _ _ 0%nat IR) as (k & Hk & <-).
    assert (E0 : p0 = nth (nth 0 (g_rank d) 0%nat) population []).
    { unfold p0, best. destruct (g_rank d) as [|a r] eqn:ER; [cbn in Hk; lia|]. destruct ns as [|m]; [lia|]. reflexivity. }
    rewrite E0. specialize (RS 0%nat k ltac:(lia)). rewrite ES in RS.
    assert (M : forall j, (j < length (g_rank d))%nat -> nth (nth j (g_rank d) 0%nat) (map f population) None = f (nth (nth j (g_rank d) 0%nat) population [])).
    { intros j Hj. assert (B : (nth j (g_rank d) 0%nat < length scores)%nat) by (apply RB, nth_In, Hj).
      rewrite (nth_indep _ None (f [])) by (rewrite map_length; lia). apply map_nth. }
    rewrite !M in RS by lia. exact RS.
Qed.
End Gen.

Lemma xle_trans a b c : xle a b = true -> xle b c = true -> xle a c = true.
Proof.
  unfold xle. destruct a, b, c; intros H1 H2; try reflexivity; try discriminate.
  apply Qle_bool_iff in H1. apply Qle_bool_iff in H2. apply Qle_bool_iff. lra.
Qed.
Lemma run_population base dim N objfun gens : forall gen population, (0 < dim)%nat ->
  (forall l, length (objfun l) = length l) -> length population = population_size base dim ->
  all_coded population -> run_ok sp base dim N gen objfun population gens ->
  length (fold_left (generation sp base dim) gens population) = population_size base dim /\
  all_coded (fold_left (generation sp base dim) gens population).
Proof.
  induction gens as [|d r IH]; intros gen population Hd HO HL HC H; cbn [fold_left run_ok] in *; [auto|]. destruct H as [H1 H2].
  apply (IH (S gen)); auto.
  - rewrite (generation_length base dim _ _ _ d Hd (HO _) HL H1). exact HL.
  - exact (generation_coded base dim _ _ _ d Hd (HO _) HL H1 HC).
Qed.
Lemma run_best base dim N objfun f gens : forall gen population, (0 < dim)%nat ->
  fixed_scoring f objfun -> length population = population_size base dim ->
  all_coded population -> run_ok sp base dim N gen objfun population gens ->
  forall p, In p population -> exists q, In q (fold_left (generation sp base dim) gens population) /\ xle (f q) (f p) = true.
Proof.
  intros gen population Hd [HF1 HF2]. revert gen population.
  assert (HO : forall l, length (objfun l) = length l) by (intros l; rewrite HF1; apply map_length).
  induction gens as [|d r IH]; intros gen population HL HC H p Hp; cbn [fold_left run_ok] in *.
  - exists p. split; [exact Hp|]. apply HF2. apply same_point_refl.
  - destruct H as [H1 H2].
    destruct (generation_best base dim _ _ _ d Hd (HO _) HL H1 HC f (HF1 _) HF2 xle_trans p Hp) as (q & Hq & Lq).
    destruct (IH (S gen) (generation sp base dim population d)) with (p := q) as (q' & Hq' & Lq'); auto.
    + rewrite (generation_length base dim _ _ _ d Hd (HO _) HL H1). exact HL.
    + exact (generation_coded base dim _ _ _ d Hd (HO _) HL H1 HC).
    + exists q'. split; [exact Hq'|]. eapply xle_trans; eassumption.
Qed.
End Space.
