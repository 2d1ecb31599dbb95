(** * Parallel runs on a finite search space. *)
From Coq Require Import Permutation.
From Verif Require Import SpecSpace SpecParSpace GAGlue CatProofs InitProofs AlgDistinct AlgGlue ProblemProofs ProblemGlue ProblemRuns CatGlue InitGlue SpaceProofs SpaceRun.
From Verif Require Import ParBox ParStop RegionProofs ParInv ParBudget ParFinite AlgSep.
From Coq Require Import Lia Lqa.
Open Scope Z_scope.

Section Par.
Variables (args d : dict) (eps m : Q) (b : bbox) (u : user_data) (pc0 : pcfg) (ok : pin -> Prop).
Let c := base pc0.
Hypotheses (HC : construct args = SOk d) (HE : setting d "eps_zero" eps) (HMD : setting d "min_dist" m) (Heps : (0 < eps <= 1)%Q) (Hem : (eps <= m)%Q)
  (Hm1 : (m + 2 * eps < 1)%Q)
  (HSc : scaling_safe d eps b) (Hord : ordered_bounds eps b) (HF : free_vars eps b <> [])
  (HU : valued_points eps b u) (HD : all_discrete eps b)
  (HM : make_algorithm d b false u = COk (base pc0)) (HOK : forall q, ok q -> distinct_pins eps b (init_node_pos (base pc0)) q).
Let ps := construct_problem eps b.
Let AS : assembled d eps b false u c. Proof. exact (make_assembled _ _ _ _ _ _ HM HE). Qed.
Let Hwf : SpecCategorical.well_formed b. Proof. exact (as_wf _ _ _ _ _ _ AS). Qed.
Let HU' : forall l x, u_pos u = Some l -> In x l -> declared_free eps b x.
Proof. intros l x H. destruct (HU l H) as (_ & _ & X). apply X. Qed.
Let HOK' : forall q, ok q -> sound_pins eps b q. Proof. intros i Hi. apply (HOK i Hi). Qed.
Let Hcord : cat_ordered eps b.
Proof. intros i Hi. apply Hord. unfold cat_vars in Hi. apply filter_In in Hi. tauto. Qed.
Let D : s_dim ps = encoded_dim eps b. Proof. exact (dim_spec eps b Hwf Hcord). Qed.
Let CS : affine c = true -> s_ints ps = []. Proof. exact (as_scaling _ _ _ _ _ _ AS HSc Hord). Qed.
Let EPS : eps_zero c = eps. Proof. exact (eps_c d eps b u c HE Heps HM). Qed.
Let MIN : min_dist c = m. Proof. exact (min_c d eps m b u c HMD Heps HM). Qed.
Let NZ : has_noisy c = false. Proof. exact (as_noisy _ _ _ _ _ _ AS). Qed.
Let UNS : scaling_on (affine c) (integer_vars c) = false. Proof. exact (unscaled d eps b u c HE Heps HSc Hord HF HD HM). Qed.

Let UI : forall q, In q (init_node_pos c) -> encodes eps b q /\ within (box_lower ps) (box_upper ps) q.
Proof. exact (user_in d eps b false u c HE Hord HU' HM). Qed.
Let INT p : encodes eps b p -> length p = s_dim ps /\ forall j, (j < length p)%nat -> is_integer (nth j p 0%Q).
Proof. exact (run_integral d eps b u c HE Heps Hord HD HM p). Qed.
Lemma par_points m0 P p : preach pc0 ok m0 P -> no_error m0 -> In p (sent (p_log P)) ->
  encodes eps b p /\ within (box_lower ps) (box_upper ps) p /\ forall j, (j < length p)%nat -> is_integer (nth j p 0%Q).
Proof.
  intros HR N HI0. apply in_sent in HI0. destruct HI0 as (k & nz & id & HI). destruct (box_len eps b Hwf Hord) as [BL BU]. fold ps in BL, BU.
  assert (G1 : encodes eps b p).
  { destruct (region_reach pc0 ok (encodes eps b)) with (m := m0) (P := P) as (_ & R & _); auto.
    - intros q pts x Hq Hp Hx. destruct (HOK' q Hq) as [A _]. exact (proj1 (A pts x Hp Hx)).
    - intros q Hq. apply UI. exact Hq.
    - intros q x Hq Hp. destruct (HOK' q Hq) as [_ A]. fold c. unfold to_orig.
      apply (run_transform eps b Hwf Hord c); [apply (as_lower _ _ _ _ _ _ AS)|apply (as_upper _ _ _ _ _ _ AS)|apply (as_ints _ _ _ _ _ _ AS)|].
      apply (run_clip eps b Hwf Hord c); [apply (as_lower _ _ _ _ _ _ AS)|apply (as_upper _ _ _ _ _ _ AS)|exact CS|exact (A x Hp)].
    - intros _ x Hx. apply (run_transform eps b Hwf Hord c); [apply (as_lower _ _ _ _ _ _ AS)|apply (as_upper _ _ _ _ _ _ AS)|apply (as_ints _ _ _ _ _ _ AS)|exact Hx].
    - rewrite Forall_forall in R. exact (R _ HI). }
  split; [exact G1|]. split; [|apply INT; exact G1].
  assert (G2 : within (var_lower c) (var_upper c) p).
  { assert (BO : box_ok (var_lower c) (var_upper c)).
    { rewrite (as_lower _ _ _ _ _ _ AS), (as_upper _ _ _ _ _ _ AS). fold ps. split; [unfold point in *; lia|].
      intros j Hj. apply (box_ordered eps b Hwf Hord). fold ps. unfold point in *. lia. }
    destruct (region_reach pc0 ok (within (var_lower c) (var_upper c))) with (m := m0) (P := P) as (_ & R & _); auto.
    - intros q pts x Hq Hp Hx. destruct (HOK' q Hq) as [A _]. destruct (proj2 (A pts x Hp Hx)) as (F1 & F2 & _). fold ps in F1, F2.
      rewrite (as_lower _ _ _ _ _ _ AS), (as_upper _ _ _ _ _ _ AS). fold ps. unfold point in *. split; [exact F1|]. split; [lia|]. intros j Hj. apply F2. lia.
    - intros q Hq. rewrite (as_lower _ _ _ _ _ _ AS), (as_upper _ _ _ _ _ _ AS). apply UI. exact Hq.
    - intros q x Hq Hp. destruct (HOK' q Hq) as [_ A]. apply (proposal_in_box c x BO).
      + intros Ha. rewrite (as_ints _ _ _ _ _ _ AS). exact (CS Ha).
      + destruct (A x Hp) as (L & _). rewrite (as_lower _ _ _ _ _ _ AS). fold ps. unfold point in *. rewrite L, BL. symmetry. exact D.
    - fold c. rewrite NZ. discriminate.
    - rewrite Forall_forall in R. exact (R _ HI). }
  rewrite (as_lower _ _ _ _ _ _ AS), (as_upper _ _ _ _ _ _ AS) in G2. exact G2.
Qed.
Lemma integer_apart p q : encodes eps b p -> encodes eps b q -> ~ SpecCategorical.same_point p q -> (1 <= sqdist p q)%Q.
Proof.
  intros Hp Hq HN. destruct (INT p Hp) as (L1 & I1). destruct (INT q Hq) as (L2 & I2).
  destruct (sqdist_integer p q I1 I2) as (z & Z). pose proof (sqdist_nonneg p q) as NN. rewrite Z in NN |- *.
  assert (Y : 0 <= z) by (rewrite Zle_Qle; exact NN).
  assert (z <> 0).
  { intros ->. apply HN. apply same_point_dist; [unfold point in *; congruence|]. exact Z. }
  change 1%Q with (inject_Z 1). rewrite <- Zle_Qle. lia.
Qed.
Lemma samples_apart q pts : ok q -> i_samples (q_inp q) = Some pts ->
  separated (min_dist c + 2 * eps_zero c) pts /\
  (forall p, In p pts -> length p = length (var_lower c)) /\
  (forall p y, In p pts -> In y (init_node_pos c) -> AlgSep.apart (min_dist c) y p).
Proof.
  intros Hq Hp. destruct (HOK q Hq) as ((A & _) & B). destruct (B pts Hp) as (B1 & B2). rewrite MIN, EPS.
  destruct (box_len eps b Hwf Hord) as [BL BU]. fold ps in BL, BU.
  assert (EN : forall p, In p pts -> encodes eps b p) by (intros p Hin; exact (proj1 (A pts p Hp Hin))).
  split; [|split].
  - apply apart_pairwise in B1. pose proof integer_apart as IA. clear - B1 EN Hm1 Heps Hem IA. unfold separated.
    induction pts as [|p l IH]; [constructor|]. destruct B1 as (H1 & H2).
    constructor; [|apply IH; [exact H2|intros q Hq; apply EN; right; exact Hq]].
    apply Forall_forall. intros q Hq. unfold AlgSep.apart.
    assert (X : (1 <= sqdist p q)%Q) by (apply IA; [apply EN; left; reflexivity|apply EN; right; exact Hq|exact (H1 q Hq)]).
    nra.
  - intros p Hin. destruct (INT p (EN p Hin)) as (L & _). rewrite (as_lower _ _ _ _ _ _ AS). fold ps. unfold point in *. congruence.
  - intros p y Hin Hy. unfold AlgSep.apart. rewrite sqdist_sym.
    assert (X : (1 <= sqdist p y)%Q) by (apply integer_apart; [apply EN, Hin|apply UI, Hy|exact (B2 p y Hin Hy)]). nra.
Qed.
Lemma par_apart m0 P : preach pc0 ok m0 P -> no_error m0 -> AlgDistinct.apart eps (sent (p_log P)).
Proof.
  intros HR N. rewrite <- EPS. destruct (box_len eps b Hwf Hord) as [BL BU]. fold ps in BL, BU.
  apply (sent_apart pc0 ok) with (m := m0); try exact N; try exact HR; fold c.
  - exact NZ.
  - exact UNS.
  - rewrite (as_lower _ _ _ _ _ _ AS), (as_upper _ _ _ _ _ _ AS). fold ps. unfold point in *. congruence.
  - rewrite MIN. lra.
  - rewrite EPS. lra.
  - rewrite EPS, MIN. exact Hem.
  - exact (points_valued d eps b u c HE Heps Hord HU HM).
  - intros y Hy. destruct (INT y (proj1 (UI y Hy))) as (L & _). rewrite (as_lower _ _ _ _ _ _ AS). fold ps. unfold point in *. congruence.
  - exact samples_apart.
  - intros q p Hq Hp. destruct (HOK' q Hq) as [_ A]. destruct (INT p (A p Hp)) as (L & _). rewrite (as_lower _ _ _ _ _ _ AS). fold ps. unfold point in *. congruence.
Qed.
Notation G := (grid (box_lower ps) (box_upper ps)).
Lemma par_floors m0 P : preach pc0 ok m0 P -> no_error m0 -> NoDup (map floors (sent (p_log P))) /\ incl (map floors (sent (p_log P))) G.
Proof.
  intros HR N. apply (floors_nodup eps); [lra|exact (par_apart m0 P HR N)|]. intros p Hp. apply (par_points m0 P p HR N Hp).
Qed.

Lemma accurate_sent : forall log, accurate_submissions log <= Z.of_nat (length (sent log)).
Proof.
  induction log as [|e log IH]; [cbn; lia|]. destruct e as [k p nz id| | | | |]; try exact IH.
  change (SpecParSpace.sent (PSubmit k p nz id :: log)) with (p :: SpecParSpace.sent log). cbn [length].
  destruct nz; cbn [accurate_submissions]; lia.
Qed.
Lemma par_count m0 P : preach pc0 ok m0 P -> no_error m0 -> evalcount (C (p_s P)) <= Z.of_nat (length (map floors (sent (p_log P)))).
Proof.
  intros HR N. rewrite (lg_acc _ _ (ledger_reach pc0 ok m0 P HR N)), map_length. apply accurate_sent.
Qed.
Lemma par_size : search_space_size c = Some (Z.of_nat (length G)).
Proof. exact (size_eq d eps b u c HE Hord HD HM). Qed.
Lemma par_never_exceeds m0 P z : preach pc0 ok m0 P -> no_error m0 -> search_space_size c = Some z ->
  evalcount (C (p_s P)) <= z /\ Z.of_nat (length (sent (p_log P))) <= z.
Proof.
  intros HR N HZ. rewrite par_size in HZ. injection HZ as <-. pose proof (par_count m0 P HR N) as X. destruct (par_floors m0 P HR N) as (ND & I).
  pose proof (NoDup_incl_length ND I) as Y. rewrite map_length in *. lia.
Qed.
Lemma par_exhausted m0 P z : cat_vars eps b = [] -> preach pc0 ok m0 P -> no_error m0 -> search_space_size c = Some z -> evalcount (C (p_s P)) = z ->
  forall x, declared_free eps b x -> exists p, In p (sent (p_log P)) /\ SpecCategorical.same_point x (values_at (free_vars eps b) (bbpt ps p)).
Proof.
  intros HCat HR N0 HZ HEq x Hx. rewrite par_size in HZ. injection HZ as <-. pose proof (par_count m0 P HR N0) as PCN. rewrite HEq in PCN. destruct (par_floors m0 P HR N0) as (N & I).
  assert (DI : incl G (map floors (sent (p_log P)))) by (apply NoDup_length_incl; [exact N|lia|exact I]).
  assert (XI : forall k, (k < length x)%nat -> is_integer (nth k x 0%Q)).
  { intros k Hk. destruct Hx as (L & H). unfold point in *. rewrite L in Hk. specialize (H k Hk).
    assert (FI : In (nth k (free_vars eps b) 0%nat) (free_vars eps b)) by (apply nth_In; exact Hk). specialize (HD _ FI).
    assert (NC : ~ In (nth k (free_vars eps b) 0%nat) (cat_vars eps b)) by (rewrite HCat; intros []).
    unfold allowed_value in H. destruct (vtype_of b _) eqn:ET; [contradiction|exact (proj1 H)|].
    destruct (Qeq_bool _ _) eqn:EQ; [exact (proj1 H)|]. exfalso. apply NC. unfold cat_vars at 1. apply filter_In. split; [exact FI|].
    unfold categoricalb. rewrite ET, EQ. reflexivity. }
  assert (XE : SpecCategorical.same_point x (map inject_Z (floors x))).
  { split; [rewrite map_length; unfold floors; rewrite map_length; reflexivity|]. intros k Hk. rewrite nth_inject. symmetry. apply floors_nth; auto. }
  assert (XG : In (floors x) G).
  { apply (grid_declared eps b Hwf Hord HD HCat). destruct Hx as (L & H). split; [rewrite <- L; symmetry; apply XE|].
    intros k Hk. specialize (H k Hk). assert (E : (nth k x 0 == nth k (map inject_Z (floors x)) 0)%Q) by (apply XE; unfold point in *; lia).
    exact (allowed_same _ _ _ _ E H). }
  apply DI, in_map_iff in XG. destruct XG as (p & E & Hp). destruct (par_points m0 P p HR N0 Hp) as (EN & _ & PI).
  exists p. split; [exact Hp|].
  destruct (INT p EN) as (LP & _). pose proof (fixed_spec eps b Hwf p LP) as (_ & _ & FV). fold ps in FV. rewrite FV.
  unfold ps. rewrite (no_cat_decode eps b Hwf p HCat). assert (LL : length p = length x).
  { apply (f_equal (@length Z)) in E. unfold floors in E. rewrite !map_length in E. exact E. }
  apply floors_same; auto.
Qed.
(** At the end of a call: recorded, with a value no smaller than the value returned. *)
Lemma par_recorded P p : preach pc0 ok PcDone P -> In p (sent (p_log P)) ->
  exists k w, In (PRow (Some k) p w) (p_log P) /\ In (PAnswer k w) (p_log P) /\ forall v q, result (p_s P) = Some (v, q) -> (v <= w)%Q.
Proof.
  intros HR Hp. assert (N : no_error PcDone) by (intros e; discriminate). apply in_sent in Hp. destruct Hp as (k & nz & id & Hp).
  destruct (box_len eps b Hwf Hord) as [BL BU]. fold ps in BL, BU.
  destruct (done_recorded pc0 ok) with (P := P) (k := k) (p := p) (nz := nz) (id := id) as (w & W1 & W2 & W3); try exact HR; try exact Hp; fold c.
  - exact NZ.
  - exact UNS.
  - rewrite (as_lower _ _ _ _ _ _ AS), (as_upper _ _ _ _ _ _ AS). fold ps. unfold point in *. congruence.
  - rewrite MIN. lra.
  - rewrite EPS. lra.
  - intros y Hy. destruct (INT y (proj1 (UI y Hy))) as (L & _). rewrite (as_lower _ _ _ _ _ _ AS). fold ps. unfold point in *. congruence.
  - exact samples_apart.
  - intros q p0 Hq Hp0. destruct (HOK' q Hq) as [_ A]. destruct (INT p0 (A p0 Hp0)) as (L & _). rewrite (as_lower _ _ _ _ _ _ AS). fold ps. unfold point in *. congruence.
  - exists k, w. split; [exact W1|]. split; [exact W2|]. intros v q Hres.
    destruct (par_fresh_value pc0 ok PcDone P NZ HR N) as (v' & p' & R' & _ & M & _); [discriminate|].
    rewrite Hres in R'. injection R' as <- <-. exact (M w W3).
Qed.
(** With a categorical variable the number of 0/1 vectors is never reached. *)
Lemma par_never_reached m0 P z : cat_vars eps b <> [] -> preach pc0 ok m0 P -> no_error m0 -> search_space_size c = Some z -> evalcount (C (p_s P)) < z.
Proof.
  intros HCat HR N0 HZ. rewrite par_size in HZ. injection HZ as <-. pose proof (par_count m0 P HR N0) as PCN. destruct (par_floors m0 P HR N0) as (N & I).
  set (v0 := map Qfloor (box_lower ps)). destruct (box_len eps b Hwf Hord) as [BL BU]. fold ps in BL, BU.
  destruct (box_integral eps b Hwf Hord) as [I1 I2]. fold ps in I1, I2.
  assert (V : forall j, (j < s_dim ps)%nat -> nth j v0 0 = Qfloor (nth j (box_lower ps) 0%Q)).
  { intros j Hj. unfold v0. rewrite (nth_indep _ 0 (Qfloor 0%Q)) by (rewrite map_length; unfold point in *; lia). apply map_nth. }
  assert (Hv0 : In v0 G).
  { apply (floors_in (box_lower ps) (box_upper ps) (box_lower ps)).
    - split; [reflexivity|]. split; [unfold point in *; congruence|]. intros j Hj. split; [apply Qle_refl|].
      apply (box_ordered eps b Hwf Hord). fold ps. unfold point in *. lia.
    - intros j Hj. apply I1. apply (all_ints eps b Hwf Hord HD). fold ps. unfold point in *. lia. }
  assert (NI : ~ In v0 (map floors (sent (p_log P)))).
  { intros X. apply in_map_iff in X. destruct X as (p & E & Hp). destruct (par_points m0 P p HR N0 Hp) as (EN & W & PI).
    apply (cat_zero_corner eps b Hwf Hord HCat v0 V). destruct (encodes_one_hot eps b p EN) as (L & H).
    assert (NT : forall j, (nth j (map inject_Z v0) 0 == nth j p 0)%Q).
    { intros j. rewrite nth_inject, <- E. destruct (Nat.lt_ge_cases j (length p)) as [Hj|Hj]; [apply floors_nth; auto|].
      rewrite (nth_overflow p) by exact Hj. rewrite nth_overflow; [reflexivity|]. unfold floors. rewrite map_length. exact Hj. }
    split; [rewrite map_length, <- E; unfold floors; rewrite map_length; exact L|]. intros k Hk. destruct (H k Hk) as (j & Hj & E1 & E2).
    exists j. split; [exact Hj|]. split; [rewrite NT; exact E1|]. intros j' Hj' Hne. rewrite NT. apply E2; assumption. }
  assert (X : (length (v0 :: map floors (sent (p_log P))) <= length G)%nat).
  { apply NoDup_incl_length; [constructor; assumption|]. intros x [<-|Hx]; [exact Hv0|apply I, Hx]. }
  cbn in X. lia.
Qed.
End Par.
