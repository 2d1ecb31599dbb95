(** * Runs on a finite search space. *)
From Verif Require Import SpecSpace GAGlue CatProofs InitProofs AlgDistinct AlgGlue ProblemProofs ProblemGlue ProblemRuns CatGlue InitGlue SpaceProofs.
From Coq Require Import Lia Lqa.
Open Scope Z_scope.

Lemma expand_all_len s : forall ps qs, expand_all s ps = COk qs -> length qs = length ps.
Proof.
  induction ps as [|p r IH]; intros qs H; cbn [expand_all] in H; [injection H as <-; reflexivity|].
  destruct (user_point s p) as [q|]; [|discriminate]. apply cbind_ok in H. destruct H as (qs' & E & H). injection H as <-.
  cbn. f_equal. apply IH. exact E.
Qed.
Lemma make_space d b noisy u c eps : make_algorithm d b noisy u = COk c -> setting d "eps_zero" eps ->
  let s := construct_problem eps b in
  search_space_size c = space_size (s_dim s) (box_lower s) (box_upper s) (s_ints s) /\
  check_values u = true /\
  (forall ps, u_pos u = Some ps -> length (init_node_pos c) = length (rows_of ps)) /\
  (u_pos u = None -> init_node_pos c = []).
Proof.
  intros HM HE. destruct (make_ok _ _ _ _ _ HM) as (eps' & frac & d' & _ & E1 & CV & _ & CE & SA & AS).
  assert (eps' = eps) by (apply (setting_unique d "eps_zero"); [apply get_num_setting; exact E1|exact HE]). subst eps'.
  destruct (assemble_ok _ _ _ _ _ AS) as (ups & EU & _ & _ & _ & _ & _ & _ & ES & _ & EP & _). cbv zeta.
  split; [exact ES|]. split; [exact CV|]. rewrite EP. split.
  - intros ps Hps. rewrite Hps in EU. exact (expand_all_len _ _ _ EU).
  - intros Hn. rewrite Hn in EU. injection EU as <-. reflexivity.
Qed.

Lemma allowed_same b i v w : (v == w)%Q -> allowed_value b i v -> allowed_value b i w.
Proof.
  intros E. assert (X : integer_value b i v -> integer_value b i w).
  { intros ((z & H1) & H2). split; [exists z; rewrite <- E; exact H1|rewrite <- E; exact H2]. }
  unfold allowed_value. destruct (vtype_of b i); [rewrite E; auto|exact X|]. destruct (Qeq_bool _ _); [exact X|].
  intros (z & H1 & H2 & H3). exists z. rewrite <- E. auto.
Qed.
Section Run.
Variables (args d : dict) (eps m : Q) (b : bbox) (u : user_data) (c : cfg) (ok : inp -> Prop).
Hypotheses (HC : construct args = SOk d) (HE : setting d "eps_zero" eps) (HMD : setting d "min_dist" m) (Heps : (0 < eps <= 1)%Q) (Hem : (eps <= m)%Q)
  (HSc : scaling_safe d eps b) (Hord : ordered_bounds eps b) (HF : free_vars eps b <> [])
  (HU : valued_points eps b u) (HD : all_discrete eps b)
  (HM : make_algorithm d b false u = COk c) (HOK : forall i, ok i -> distinct_inputs eps b i).
Let ps := construct_problem eps b.
Let AS : assembled d eps b false u c. Proof. exact (make_assembled _ _ _ _ _ _ HM HE). Qed.
Let Hwf : SpecCategorical.well_formed b. Proof. exact (as_wf _ _ _ _ _ _ AS). Qed.
Let HU' : forall l x, u_pos u = Some l -> In x l -> declared_free eps b x.
Proof. intros l x H. destruct (HU l H) as (_ & _ & X). apply X. Qed.
Let HOK' : forall i, ok i -> sound_inputs eps b i. Proof. intros i Hi. apply HOK. exact Hi. Qed.
Let Hcord : cat_ordered eps b.
Proof. intros i Hi. apply Hord. unfold cat_vars in Hi. apply filter_In in Hi. tauto. Qed.
Let D : s_dim ps = encoded_dim eps b. Proof. exact (dim_spec eps b Hwf Hcord). Qed.

Lemma dim_pos : (0 < s_dim ps)%nat.
Proof.
  destruct (s_dim ps) eqn:E; [|lia]. exfalso. apply HF. apply (zero_dim eps b Hwf Hord). exact E.
Qed.
Lemma eps_c : eps_zero c = eps.
Proof. destruct (fields_spec d b false u c HM) as (_ & H & _). apply (setting_unique d "eps_zero"); [apply H; cbn [number_fields In]; tauto|exact HE]. Qed.
Lemma min_c : min_dist c = m.
Proof. destruct (fields_spec d b false u c HM) as (_ & H & _). apply (setting_unique d "min_dist"); [apply H; cbn [number_fields In]; tauto|exact HMD]. Qed.
Lemma unscaled : scaling_on (affine c) (integer_vars c) = false.
Proof.
  destruct (affine c) eqn:EA; [|reflexivity]. exfalso.
  pose proof (as_scaling _ _ _ _ _ _ AS HSc Hord EA) as X. fold ps in X.
  pose proof (all_ints eps b Hwf Hord HD 0%nat dim_pos) as Y. fold ps in Y. rewrite X in Y. destruct Y.
Qed.
Lemma points_valued : (length (init_node_pos c) <= length (init_node_val c))%nat.
Proof.
  destruct (make_space d b false u c eps HM HE) as (_ & CV & L1 & L2). rewrite (as_val _ _ _ _ _ _ AS).
  destruct (u_pos u) as [l|] eqn:E; [|rewrite L2 by reflexivity; cbn; lia]. rewrite (L1 l eq_refl).
  destruct (HU l E) as (N & V & _). unfold check_values in CV. rewrite E in CV. destruct (u_val u) as [vs|]; [|congruence].
  apply Nat.eqb_eq in CV. destruct l; [congruence|]. cbn [rows_of]. lia.
Qed.
Lemma run_integral p : encodes eps b p -> length p = s_dim ps /\ forall j, (j < length p)%nat -> is_integer (nth j p 0%Q).
Proof.
  intros H. pose proof H as (L & _). assert (LP : length p = s_dim ps) by (rewrite D; exact L). split; [exact LP|].
  intros j Hj. apply (encodes_integral eps b Hwf Hord p H). apply (all_ints eps b Hwf Hord HD). fold ps. rewrite <- LP. exact Hj.
Qed.
Lemma run_apart s l : reach c ok s l -> AlgDistinct.apart eps (acc_at (trace s)).
Proof.
  intros HR. rewrite <- eps_c. apply (apart_reach c ok s l); auto.
  - split; [apply (as_noisy _ _ _ _ _ _ AS)|rewrite min_c; lra].
  - exact unscaled.
  - rewrite eps_c, min_c. exact Hem.
  - exact points_valued.
  - intros i pts Hi Hp. destruct (HOK i Hi) as (H1 & H2). rewrite eps_c. apply (distinct_apart eps pts (s_dim ps)); [lra| |exact (H2 pts Hp)].
    intros p Hin. apply run_integral. destruct H1 as (H1 & _). exact (proj1 (H1 pts p Hp Hin)).
Qed.
Lemma run_points s l p : reach c ok s l -> In p (acc_at (trace s)) ->
  encodes eps b p /\ within (box_lower ps) (box_upper ps) p /\ forall j, (j < length p)%nat -> is_integer (nth j p 0%Q).
Proof.
  intros HR Hp. apply in_acc_at in Hp. destruct Hp as (v & Hp).
  assert (X : encodes eps b p).
  { apply (serial_region args d eps b false u c ok HC HE HSc Hord HU' HM HOK' s l HR). left. exists v. exact Hp. }
  split; [exact X|]. split; [|apply run_integral; exact X].
  pose proof (serial_box args d eps b false u c ok HC HE HSc Hord HU' HM HOK' s l HR) as B.
  unfold ps. rewrite <- (as_lower _ _ _ _ _ _ AS), <- (as_upper _ _ _ _ _ _ AS). apply (in_box_spec c s p B). left. exists v. exact Hp.
Qed.
Notation G := (grid (box_lower ps) (box_upper ps)).
Lemma run_floors s l : reach c ok s l -> NoDup (map floors (acc_at (trace s))) /\ incl (map floors (acc_at (trace s))) G.
Proof.
  intros HR. apply (floors_nodup eps); [lra|exact (run_apart s l HR)|]. intros p Hp. apply (run_points s l p HR Hp).
Qed.
Lemma run_count s l : reach c ok s l -> evalcount (C s) = Z.of_nat (length (map floors (acc_at (trace s)))).
Proof. intros HR. destruct (counted_spec c ok s l HR) as [-> _]. rewrite calls_acc, map_length. reflexivity. Qed.
Lemma size_eq : search_space_size c = Some (Z.of_nat (length G)).
Proof. destruct (make_space d b false u c eps HM HE) as (-> & _). apply (space_grid eps b Hwf Hord HD). Qed.
Lemma never_exceeds s l z : reach c ok s l -> search_space_size c = Some z -> evalcount (C s) <= z.
Proof.
  intros HR HZ. rewrite size_eq in HZ. injection HZ as <-. rewrite (run_count s l HR). destruct (run_floors s l HR) as (N & I).
  apply inj_le. apply NoDup_incl_length; assumption.
Qed.
Lemma never_reached s l z : cat_vars eps b <> [] -> reach c ok s l -> search_space_size c = Some z -> evalcount (C s) < z.
Proof.
  intros HCat HR HZ. rewrite size_eq in HZ. injection HZ as <-. rewrite (run_count s l HR). destruct (run_floors s l HR) as (N & I).
  set (v0 := map Qfloor (box_lower ps)). destruct (box_len eps b Hwf Hord) as [BL BU]. fold ps in BL, BU.
  destruct (box_integral eps b Hwf Hord) as [I1 I2]. fold ps in I1, I2.
  assert (V : forall j, (j < s_dim ps)%nat -> nth j v0 0 = Qfloor (nth j (box_lower ps) 0%Q)).
  { intros j Hj. unfold v0. rewrite (nth_indep _ 0 (Qfloor 0%Q)) by (rewrite map_length; unfold point in *; lia). apply map_nth. }
  assert (Hv0 : In v0 G).
  { apply (floors_in (box_lower ps) (box_upper ps) (box_lower ps)).
    - split; [reflexivity|]. split; [unfold point in *; congruence|]. intros j Hj. split; [apply Qle_refl|].
      apply (box_ordered eps b Hwf Hord). fold ps. unfold point in *. lia.
    - intros j Hj. apply I1. apply (all_ints eps b Hwf Hord HD). fold ps. unfold point in *. lia. }
  assert (NI : ~ In v0 (map floors (acc_at (trace s)))).
  { intros X. apply in_map_iff in X. destruct X as (p & E & Hp). destruct (run_points s l p HR Hp) as (EN & W & PI).
    apply (cat_zero_corner eps b Hwf Hord HCat v0 V). destruct (encodes_one_hot eps b p EN) as (L & H).
    assert (NT : forall j, (nth j (map inject_Z v0) 0 == nth j p 0)%Q).
    { intros j. rewrite nth_inject, <- E. destruct (Nat.lt_ge_cases j (length p)) as [Hj|Hj]; [apply floors_nth; auto|].
      rewrite (nth_overflow p) by exact Hj. rewrite nth_overflow; [reflexivity|]. unfold floors. rewrite map_length. exact Hj. }
    split; [rewrite map_length, <- E; unfold floors; rewrite map_length; exact L|]. intros k Hk. destruct (H k Hk) as (j & Hj & E1 & E2).
    exists j. split; [exact Hj|]. split; [rewrite NT; exact E1|]. intros j' Hj' Hne. rewrite NT. apply E2; assumption. }
  assert (X : (length (v0 :: map floors (acc_at (trace s))) <= length G)%nat).
  { apply NoDup_incl_length; [constructor; assumption|]. intros x [<-|Hx]; [exact Hv0|apply I, Hx]. }
  cbn in X. lia.
Qed.
Lemma exhausted s l z : cat_vars eps b = [] -> reach c ok s l -> search_space_size c = Some z -> evalcount (C s) = z ->
  forall x, declared_free eps b x -> exists p v, In (EvAcc p v) (trace s) /\ same_point x (values_at (free_vars eps b) (bbpt ps p)).
Proof.
  intros HCat HR HZ HEq x Hx. rewrite size_eq in HZ. injection HZ as <-. rewrite (run_count s l HR) in HEq. destruct (run_floors s l HR) as (N & I).
  assert (DI : incl G (map floors (acc_at (trace s)))) by (apply NoDup_length_incl; [exact N|lia|exact I]).
  assert (XI : forall k, (k < length x)%nat -> is_integer (nth k x 0%Q)).
  { intros k Hk. destruct Hx as (L & H). unfold point in *. rewrite L in Hk. specialize (H k Hk).
    assert (FI : In (nth k (free_vars eps b) 0%nat) (free_vars eps b)) by (apply nth_In; exact Hk). specialize (HD _ FI).
    assert (NC : ~ In (nth k (free_vars eps b) 0%nat) (cat_vars eps b)) by (rewrite HCat; intros []).
    unfold allowed_value in H. destruct (vtype_of b _) eqn:ET; [contradiction|exact (proj1 H)|].
    destruct (Qeq_bool _ _) eqn:EQ; [exact (proj1 H)|]. exfalso. apply NC. unfold cat_vars at 1. apply filter_In. split; [exact FI|].
    unfold categoricalb. rewrite ET, EQ. reflexivity. }
  assert (XE : same_point x (map inject_Z (floors x))).
  { split; [rewrite map_length; unfold floors; rewrite map_length; reflexivity|]. intros k Hk. rewrite nth_inject. symmetry. apply floors_nth; auto. }
  assert (XG : In (floors x) G).
  { apply (grid_declared eps b Hwf Hord HD HCat). destruct Hx as (L & H). split; [rewrite <- L; symmetry; apply XE|].
    intros k Hk. specialize (H k Hk). assert (E : (nth k x 0 == nth k (map inject_Z (floors x)) 0)%Q) by (apply XE; unfold point in *; lia).
    exact (allowed_same _ _ _ _ E H). }
  apply DI, in_map_iff in XG. destruct XG as (p & E & Hp). destruct (run_points s l p HR Hp) as (EN & _ & PI).
  pose proof Hp as Hv. apply in_acc_at in Hv. destruct Hv as (v & Hv). exists p, v. split; [exact Hv|].
  destruct (run_integral p EN) as (LP & _). pose proof (fixed_spec eps b Hwf p LP) as (_ & _ & FV). fold ps in FV. rewrite FV.
  unfold ps. rewrite (no_cat_decode eps b Hwf p HCat). assert (LL : length p = length x).
  { apply (f_equal (@length Z)) in E. unfold floors in E. rewrite !map_length in E. exact E. }
  apply floors_same; auto.
Qed.
End Run.
