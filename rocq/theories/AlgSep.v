(** * Separation of the nodes (C10). *)
From Verif Require Export AlgBox.
From Coq Require Import Permutation.
Open Scope Z_scope.

(** ** Triangle inequality for squared distances *)
Fixpoint dotd (x y : point) : Q :=
  match x, y with a :: x', b :: y' => (a * b + dotd x' y')%Q | _, _ => 0%Q end.
Fixpoint sub (p q : point) : point :=
  match p, q with a :: p', b :: q' => (a - b)%Q :: sub p' q' | _, _ => [] end.

Lemma Qsq_le_abs u v : (0 <= u)%Q -> (v * v <= u * u)%Q -> (v <= u)%Q.
Proof.
  intros Hu H. destruct (Qlt_le_dec u v) as [L|L]; [|assumption].
  exfalso. assert (u * u < v * v)%Q; [|lra].
  apply Qle_lt_trans with (u * v)%Q.
  - rewrite (Qmult_comm u v). apply Qmult_le_compat_r; lra.
  - apply Qmult_lt_compat_r; lra.
Qed.

Lemma sqdist_sub p : forall q, (sqdist p q == dotd (sub p q) (sub p q))%Q.
Proof.
  induction p as [|a p IH]; intros [|b q]; cbn; try reflexivity. rewrite IH. reflexivity.
Qed.
Lemma dotd_nonneg x : (0 <= dotd x x)%Q.
Proof.
  induction x as [|a x IH]; cbn; [lra|]. pose proof (Qsq_nonneg a). lra.
Qed.

Lemma cauchy_step a b s A B : (0 <= A)%Q -> (0 <= B)%Q -> (s * s <= A * B)%Q ->
  ((a * b + s) * (a * b + s) <= (a * a + A) * (b * b + B))%Q.
Proof.
  intros HA HB Hs.
  assert (K : (2 * (a * b) * s <= a * a * B + b * b * A)%Q).
  { apply Qsq_le_abs.
    - pose proof (Qmult_le_0_compat _ _ (Qsq_nonneg a) HB).
      pose proof (Qmult_le_0_compat _ _ (Qsq_nonneg b) HA). lra.
    - assert (H1 : ((a * b) * (a * b) * (s * s) <= (a * b) * (a * b) * (A * B))%Q).
      { rewrite !(Qmult_comm ((a * b) * (a * b))). apply Qmult_le_compat_r; [assumption|].
        apply Qsq_nonneg. }
      pose proof (Qsq_nonneg (a * a * B - b * b * A)) as H2.
      setoid_replace (2 * (a * b) * s * (2 * (a * b) * s))%Q
        with (4 * ((a * b) * (a * b) * (s * s)))%Q by ring.
      setoid_replace ((a * a * B + b * b * A) * (a * a * B + b * b * A))%Q
        with ((a * a * B - b * b * A) * (a * a * B - b * b * A) +
              4 * ((a * b) * (a * b) * (A * B)))%Q by ring.
      lra. }
  setoid_replace ((a * b + s) * (a * b + s))%Q
    with ((a * b) * (a * b) + 2 * (a * b) * s + s * s)%Q by ring.
  setoid_replace ((a * a + A) * (b * b + B))%Q
    with ((a * b) * (a * b) + (a * a * B + b * b * A) + A * B)%Q by ring.
  lra.
Qed.
Lemma cauchy x : forall y, (dotd x y * dotd x y <= dotd x x * dotd y y)%Q.
Proof.
  induction x as [|a x IH]; intros [|b y]; cbn; try lra.
  apply cauchy_step; auto using dotd_nonneg.
Qed.

(** If |p-r| <= e and |r-q| <= d then |p-q| <= d+e. *)
Lemma triangle p r q d e : length p = length r -> length q = length r ->
  (0 <= d)%Q -> (0 <= e)%Q -> (sqdist p r <= e * e)%Q -> (sqdist r q <= d * d)%Q ->
  (sqdist p q <= (d + e) * (d + e))%Q.
Proof.
  intros L1 L2 Hd He H1 H2.
  assert (E : (sqdist p q == dotd (sub p r) (sub p r) + 2 * dotd (sub p r) (sub r q) +
                              dotd (sub r q) (sub r q))%Q).
  { clear - L1 L2. revert r q L1 L2. induction p as [|a p IH]; intros [|b r] [|c q] L1 L2;
      cbn in *; try lia; [ring|]. rewrite (IH r q) by lia. ring. }
  rewrite E. rewrite sqdist_sub in H1, H2.
  set (x := sub p r) in *. set (y := sub r q) in *.
  assert (K : (dotd x y <= d * e)%Q).
  { apply Qsq_le_abs; [apply Qmult_le_0_compat; assumption|].
    eapply Qle_trans; [apply cauchy|].
    setoid_replace (d * e * (d * e))%Q with ((e * e) * (d * d))%Q by ring.
    apply Qle_trans with (e * e * dotd y y)%Q.
    - apply Qmult_le_compat_r; [assumption|apply dotd_nonneg].
    - rewrite !(Qmult_comm (e * e)). apply Qmult_le_compat_r; [assumption|apply Qsq_nonneg]. }
  setoid_replace ((d + e) * (d + e))%Q with (e * e + 2 * (d * e) + d * d)%Q by ring. lra.
Qed.

(** ** Pairwise separation *)
Definition apart (d : Q) (p q : point) : Prop := (d * d < sqdist p q)%Q.
Definition separated (d : Q) (ps : list point) : Prop := ForallOrdPairs (apart d) ps.

Lemma apart_sym d p q : apart d p q -> apart d q p.
Proof. unfold apart. rewrite (sqdist_sym q p). auto. Qed.

Lemma FOP_app {A} (R : A -> A -> Prop) l m :
  ForallOrdPairs R l -> ForallOrdPairs R m -> (forall x y, In x l -> In y m -> R x y) ->
  ForallOrdPairs R (l ++ m).
Proof.
  intros Hl Hm H. induction Hl as [|x l Hx Hl IH]; cbn; [assumption|].
  constructor; [apply Forall_app; split; [assumption|]|].
  - apply Forall_forall. intros y Hy. apply H; simpl; auto.
  - apply IH. intros a b Ha Hb. apply H; simpl; auto.
Qed.
Lemma FOP_delete {A} (R : A -> A -> Prop) l : ForallOrdPairs R l ->
  forall j, ForallOrdPairs R (delete_at j l).
Proof.
  intros H. induction H as [|x l Hx Hl IH]; intros [|j]; cbn; try constructor; auto.
  now apply Forall_delete.
Qed.
Lemma FOP_perm {A} (R : A -> A -> Prop) l m : (forall x y, R x y -> R y x) ->
  Permutation l m -> ForallOrdPairs R l -> ForallOrdPairs R m.
Proof.
  intros Hs HP. induction HP as [|x l m HP IH|x y l|l m k H1 IH1 H2 IH2]; intros H; auto.
  - inversion H; subst. constructor; auto. rewrite Forall_forall in *.
    intros z Hz. apply H2. eapply Permutation_in; [apply Permutation_sym; eassumption|assumption].
  - inversion H as [|? ? F1 H1]; subst. inversion H1 as [|? ? F2 H2]; subst.
    inversion F1; subst. constructor; [constructor; auto|constructor; auto].
Qed.

Lemma separated_snoc d p ps : (0 <= d)%Q -> near d p ps = false -> separated d ps ->
  separated d (ps ++ [p]).
Proof.
  intros Hd Hn Hs. apply FOP_app; [assumption|constructor; [constructor|constructor]|].
  intros x y Hx [<-|[]]. apply apart_sym. apply (proj1 (near_false d p ps Hd) Hn x Hx).
Qed.

(** ** Sample points of a restart *)
(** Where each sample point ends up. *)
Definition placed (c : cfg) (noisy : bool) (t : tabs) (old : list point) (p : point) : point :=
  if near (eps_zero c) p old && (noisy || negb (nth (nearest p old) (all_is_noisy t) false))
  then nth (nearest p old) (all_pos t) [] else p.

Lemma remove_existing_perm c noisy t old : forall samples kept prev,
  remove_existing c noisy t old samples = (kept, prev) ->
  Permutation (kept ++ map e_pos prev) (map (placed c noisy t old) samples).
Proof.
  induction samples as [|p r IH]; intros kept prev H; simpl in H.
  - injection H as <- <-. constructor.
  - destruct (remove_existing c noisy t old r) as [k0 p0] eqn:E.
    specialize (IH _ _ eq_refl). cbn [map]. unfold placed at 1.
    destruct (near (eps_zero c) p old &&
              (noisy || negb (nth (nearest p old) (all_is_noisy t) false)));
      injection H as <- <-.
    + rewrite map_app. cbn [map]. rewrite app_assoc.
      apply Permutation_sym. apply Permutation_cons_app. rewrite app_nil_r.
      apply Permutation_sym. exact IH.
    + cbn. now constructor.
Qed.

Lemma gen_perm c k t i gen evs na nn pts :
  restart_gen c k t i = Ok (gen, evs, na, nn) -> i_samples i = Some pts ->
  gen = [] \/
  Permutation (map e_pos gen)
    (map (if (nodes_at_restart t =? 0)%nat then fun p => p
          else placed c (noisy_mode k) t (firstn (nodes_at_restart t) (all_pos t))) pts).
Proof.
  intros H Hp. unfold restart_gen in H.
  destruct ((0 <? itercount k) || do_init_strategy c).
  2: { injection H as <- _ _ _. auto. }
  rewrite Hp in H. cbv zeta in H.
  set (old := firstn (nodes_at_restart t) (all_pos t)) in *.
  right.
  destruct (nodes_at_restart t =? 0)%nat.
  - destruct (negb _ && _); [discriminate|].
    destruct (eval_samples _ _ _ _) as [rows es] eqn:Ev. injection H as <- _ _ _.
    assert (Hm : restart_accurate c k = false -> noisy_mode k = true).
    { unfold restart_accurate. destruct (noisy_mode k); auto. }
    destruct (eval_samples_spec c t _ _ _ _ _ _ Hm Ev) as (_ & _ & _ & _ & _ & _ & E).
    rewrite app_nil_r, E, map_id. apply Permutation_refl.
  - destruct (remove_existing c (noisy_mode k) t old pts) as [new prev] eqn:Er.
    destruct (negb _ && _); [discriminate|].
    destruct (eval_samples _ _ _ _) as [rows es] eqn:Ev. injection H as <- _ _ _.
    assert (Hm : restart_accurate c k = false -> noisy_mode k = true).
    { unfold restart_accurate. destruct (noisy_mode k); auto. }
    destruct (eval_samples_spec c t _ _ _ _ _ _ Hm Ev) as (_ & _ & _ & _ & _ & _ & E).
    rewrite map_app, E. now apply remove_existing_perm.
Qed.

Lemma placed_near c noisy t old p : (0 <= eps_zero c)%Q ->
  old = firstn (nodes_at_restart t) (all_pos t) ->
  (sqdist p (placed c noisy t old p) <= eps_zero c * eps_zero c)%Q.
Proof.
  intros He ->. unfold placed. set (old := firstn _ _).
  destruct (near (eps_zero c) p old) eqn:En; cbn [andb].
  2: rewrite sqdist_refl; apply Qsq_nonneg.
  destruct (noisy || _); [|rewrite sqdist_refl; apply Qsq_nonneg].
  pose proof (near_nearest _ _ _ En) as (_ & H).
  assert (Hl : (nearest p old < length old)%nat) by (apply nearest_lt; eapply near_nonempty; eauto).
  replace (nth (nearest p old) (all_pos t) []) with (nth (nearest p old) old []); [assumption|].
  unfold old at 2. rewrite <- (firstn_skipn (nodes_at_restart t) (all_pos t)) at 2.
  symmetry. apply app_nth1. exact Hl.
Qed.

Lemma placed_in c noisy t old p : old = firstn (nodes_at_restart t) (all_pos t) ->
  placed c noisy t old p = p \/ In (placed c noisy t old p) (all_pos t).
Proof.
  intros ->. unfold placed. set (old := firstn _ _).
  destruct (near (eps_zero c) p old) eqn:En; cbn [andb]; [|auto].
  destruct (noisy || _); [|auto]. right.
  apply nth_In. eapply Nat.lt_le_trans; [apply nearest_lt; eapply near_nonempty; eauto|].
  unfold old. rewrite firstn_length. lia.
Qed.

Lemma FOP_map {A B} (R : B -> B -> Prop) (S : A -> A -> Prop) (f : A -> B) l :
  (forall x y, In x l -> In y l -> S x y -> R (f x) (f y)) ->
  ForallOrdPairs S l -> ForallOrdPairs R (map f l).
Proof.
  intros H F. induction F as [|x l Hx Hl IH]; cbn; constructor.
  - apply Forall_forall. intros y Hy. apply in_map_iff in Hy. destruct Hy as (z & <- & Hz).
    rewrite Forall_forall in Hx. apply H; simpl; auto.
  - apply IH. intros a b Ha Hb. apply H; simpl; auto.
Qed.

(** User points: each selected one is apart from the generated sample and from all
    earlier user points. *)
Lemma select_user_sep c gen pts : (0 <= min_dist c)%Q -> forall pre,
  separated (min_dist c)
    (map (fun j => nth j (pre ++ pts) []) (select_user c gen pre (length pre) pts)) /\
  (forall j, In j (select_user c gen pre (length pre) pts) ->
     (forall q, In q gen -> apart (min_dist c) (nth j (pre ++ pts) []) q) /\
     (forall q, In q pre -> apart (min_dist c) (nth j (pre ++ pts) []) q)).
Proof.
  intros Hd. induction pts as [|p r IH]; intros pre; cbn [select_user].
  - split; [constructor|intros j []].
  - specialize (IH (pre ++ [p])). rewrite app_length in IH. cbn [length] in IH.
    replace (length pre + 1)%nat with (S (length pre)) in IH by lia.
    rewrite <- app_assoc in IH. cbn [app] in IH. destruct IH as (IH1 & IH2).
    assert (Hp : nth (length pre) (pre ++ p :: r) [] = p)
      by (rewrite app_nth2, Nat.sub_diag by lia; reflexivity).
    split.
    + destruct (negb _ && negb _) eqn:B; cbn [app map]; [|assumption].
      rewrite Hp. constructor; [|assumption].
      apply Forall_forall. intros x Hx. apply in_map_iff in Hx. destruct Hx as (j & <- & Hj).
      apply apart_sym. apply (IH2 j Hj). apply in_or_app; simpl; auto.
    + intros j Hj. apply in_app_or in Hj. destruct Hj as [Hj|Hj].
      * destruct (negb _ && negb _) eqn:B; [|destruct Hj]. destruct Hj as [<-|[]].
        apply andb_true_iff in B. destruct B as [B1 B2]. apply negb_true_iff in B1, B2.
        rewrite Hp. split; [exact (proj1 (near_false _ _ _ Hd) B1)
                           |exact (proj1 (near_false _ _ _ Hd) B2)].
      * destruct (IH2 j Hj) as (A1 & A2). split; [assumption|].
        intros q Hq. apply A2. apply in_or_app; auto.
Qed.

(** A sample is well separated: more than [min_dist + 2*eps_zero] between any two points. *)
Definition env_sep (c : cfg) (i : inp) : Prop :=
  forall pts, i_samples i = Some pts ->
    separated (min_dist c + 2 * eps_zero c) pts /\
    Forall (fun p => length p = length (var_lower c)) pts.

Lemma apart_weaken d d' p q : (0 <= d)%Q -> (d <= d')%Q -> apart d' p q -> apart d p q.
Proof.
  unfold apart. intros H0 H H1. eapply Qle_lt_trans; [|exact H1].
  apply Qle_trans with (d * d')%Q.
  - rewrite (Qmult_comm d d'). apply Qmult_le_compat_r; assumption.
  - apply Qmult_le_compat_r; lra.
Qed.

Lemma apart_placed c p q p' q' : (0 <= eps_zero c)%Q -> (0 <= min_dist c)%Q ->
  length p = length p' -> length q = length q' -> length p = length q ->
  (sqdist p p' <= eps_zero c * eps_zero c)%Q -> (sqdist q q' <= eps_zero c * eps_zero c)%Q ->
  apart (min_dist c + 2 * eps_zero c) p q -> apart (min_dist c) p' q'.
Proof.
  intros He Hd L1 L2 L3 H1 H2 Ha. unfold apart in *.
  destruct (Qlt_le_dec (min_dist c * min_dist c) (sqdist p' q')) as [?|Hle]; [assumption|].
  exfalso.
  assert (K1 : (sqdist p q' <= (min_dist c + eps_zero c) * (min_dist c + eps_zero c))%Q)
    by (apply triangle with (r := p'); auto; lia).
  rewrite sqdist_sym in K1. rewrite sqdist_sym in Ha.
  assert (K2 : (sqdist q p <= ((min_dist c + eps_zero c) + eps_zero c) *
                              ((min_dist c + eps_zero c) + eps_zero c))%Q).
  { apply triangle with (r := q'); auto; try lia; lra. }
  assert (E : (((min_dist c + eps_zero c) + eps_zero c) * ((min_dist c + eps_zero c) + eps_zero c)
           == (min_dist c + 2 * eps_zero c) * (min_dist c + 2 * eps_zero c))%Q) by ring.
  rewrite E in K2. lra.
Qed.

Definition sep_inv (c : cfg) (s : st) : Prop :=
  box_inv c s /\ separated (min_dist c) (node_pos (T s)).

Lemma restart_separated c i s s' :
  scaling_on (affine c) (integer_vars c) = false ->
  (0 <= min_dist c)%Q -> (0 <= eps_zero c)%Q ->
  (forall p, In p (init_node_pos c) -> length p = length (var_lower c)) ->
  env_sep c i -> Forall (fun p => length p = length (var_lower c)) (all_pos (T s)) ->
  restart c i s = Ok s' -> separated (min_dist c) (node_pos (T s')).
Proof.
  intros Hsc Hd He Hu Hi Hall H.
  pose proof H as H0. unfold restart in H0. cbv zeta in H0.
  fold (mark (T s)) in H0. fold (bump_restarts (C s)) in H0.
  destruct (restart_gen c (bump_restarts (C s)) (mark (T s)) i)
    as [[[[gen evs] na] nn]|] eqn:Eg; cbn [bind] in H0; [|discriminate].
  destruct (restart_user c (bump_restarts (C s)) gen i) as [[usr uevs] nu] eqn:Eu.
  assert (HT : T s' = restart_tabs c (mark (T s)) (gen ++ usr)).
  { destruct (gen ++ usr) as [|e0 rest] eqn:Er; [discriminate|].
    assert (Hne : e0 :: rest <> []) by discriminate.
    revert Er Hne H0. generalize (e0 :: rest) as rows. clear e0 rest. intros rows Er Hne H0.
    match type of H0 with context [current_gap c ?x] => destruct (current_gap c x) as [g|] end;
      cbn [bind] in H0; [|discriminate].
    destruct (length rows =? 1)%nat; [discriminate|]. injection H0 as <-.
    match goal with |- context [log_all ?v ?gg ?x] =>
      destruct (log_all_fields v gg x) as (F1 & _) end. rewrite F1. reflexivity. }
  rewrite HT. cbn [node_pos restart_tabs].
  assert (Hid : map (fun e => to_scaled c (e_pos e)) (gen ++ usr) = map e_pos (gen ++ usr)).
  { apply map_ext. intros e. unfold to_scaled, transform_domain. now rewrite Hsc. }
  rewrite Hid, map_app.
  assert (Hgen : separated (min_dist c) (map e_pos gen)).
  { destruct (i_samples i) as [pts|] eqn:Es.
    - destruct (Hi pts Es) as (S1 & S2).
      destruct (gen_perm _ _ _ _ _ _ _ _ _ Eg Es) as [->|HP]; [constructor|].
      eapply FOP_perm; [apply apart_sym|apply Permutation_sym; exact HP|].
      apply FOP_map with (S := apart (min_dist c + 2 * eps_zero c)); [|exact S1].
      intros p q Hp Hq Ha. rewrite Forall_forall in S2.
      destruct (nodes_at_restart (mark (T s)) =? 0)%nat.
      + eapply apart_weaken; [| |exact Ha]; lra.
      + pose proof (S2 p Hp) as Lp. pose proof (S2 q Hq) as Lq.
        assert (LL : forall x, length x = length (var_lower c) ->
           length (placed c (noisy_mode (bump_restarts (C s))) (mark (T s))
             (firstn (nodes_at_restart (mark (T s))) (all_pos (mark (T s)))) x) = length (var_lower c)).
        { intros x Lx. destruct (placed_in c (noisy_mode (bump_restarts (C s))) (mark (T s)) _ x eq_refl)
            as [E|E]; [now rewrite E|]. cbn [all_pos mark] in E. rewrite Forall_forall in Hall.
          exact (Hall _ E). }
        eapply (apart_placed c p q); [assumption|assumption| | |lia| | |exact Ha].
        * now rewrite (LL p Lp).
        * now rewrite (LL q Lq).
        * now apply placed_near.
        * now apply placed_near.
    - unfold restart_gen in Eg. rewrite Es in Eg.
      destruct (_ || _); [discriminate|]. injection Eg as <- _ _ _. constructor. }
  apply FOP_app; [assumption| |].
  - unfold restart_user in Eu. destruct (_ && _); [|injection Eu as <- _ _; constructor].
    cbv zeta in Eu.
    destruct (select_user_sep c (map (fun e => fst (fst (fst e))) gen) (init_node_pos c) Hd [])
      as (SS & _). cbn [app length] in SS.
    destruct (_ <? _)%nat; injection Eu as <- _ _.
    + rewrite !map_map. cbn. rewrite <- (map_map snd (fun j => nth j (init_node_pos c) [])).
      rewrite indexed_snd. exact SS.
    + rewrite !map_map. cbn. exact SS.
  - intros x y Hx Hy. unfold restart_user in Eu.
    destruct (_ && _); [|injection Eu as <- _ _; destruct Hy].
    cbv zeta in Eu.
    destruct (select_user_sep c (map (fun e => fst (fst (fst e))) gen) (init_node_pos c) Hd [])
      as (_ & SS). cbn [app length] in SS. apply apart_sym.
    destruct (_ <? _)%nat; injection Eu as <- _ _.
    + rewrite !map_map in Hy. apply in_map_iff in Hy. destruct Hy as ([a b] & <- & Hab).
      cbn. apply indexed_In in Hab. apply (proj1 (SS b Hab)). exact Hx.
    + rewrite !map_map in Hy. apply in_map_iff in Hy. destruct Hy as (b & <- & Hab).
      cbn. apply (proj1 (SS b Hab)). exact Hx.
Qed.

(** Passes without a restart preserve separation, in every configuration. *)
Lemma evaluate_separated c i p po s l s' l' : (0 <= min_dist c)%Q -> accepted c s p ->
  evaluate c i p po s l = Ok (s', l') -> separated (min_dist c) (node_pos (T s)) ->
  separated (min_dist c) (node_pos (T s')).
Proof.
  intros Hd (_ & Hn) H Hs. apply evaluate_sum in H.
  destruct H as (v & noisy & e & es & [_ HT _ _ _ _ _ _ _]). rewrite HT. cbn.
  now apply separated_snoc.
Qed.

Definition dims (c : cfg) (s : st) : Prop :=
  Forall (fun p => length p = length (var_lower c)) (node_pos (T s)) /\
  Forall (fun p => length p = length (var_lower c)) (all_pos (T s)).
Definition env_dims (c : cfg) (i : inp) : Prop :=
  (forall pts p, i_samples i = Some pts -> In p pts -> length p = length (var_lower c)) /\
  (forall q, i_prop i = Some q -> length q = length (var_lower c)).

Lemma dims_restart c i s s' : length (var_upper c) = length (var_lower c) ->
  (forall p, In p (init_node_pos c) -> length p = length (var_lower c)) ->
  env_dims c i -> restart c i s = Ok s' -> dims c s -> dims c s'.
Proof.
  intros Hup Hu (Hsamp & _) H (H2 & H3). apply restart_effect in H.
  destruct H as [(gen & evs & na & nn & usr & uevs & nu & G & _ & U & _ & _ & HT & _ & _ & _ & Ht)].
  assert (Hev : forall e p, In e (evs ++ uevs) -> ev_position e = Some p ->
                    length p = length (var_lower c)).
  { intros e p He Hp. apply in_app_or in He. destruct He as [He|He].
    - destruct (gs_pos _ _ _ _ _ _ _ _ G e p He Hp) as (pts & E & Hin & _). eapply Hsamp; eauto.
    - apply Hu. eapply (us_evpos _ _ _ _ _ _ U); eauto. }
  assert (Hrow : forall e, In e (gen ++ usr) -> length (e_pos e) = length (var_lower c)).
  { intros e He. assert (R : row_origin c (mark (T s)) (noisy_mode (bump_restarts (C s))) (evs ++ uevs) e).
    { apply in_app_or in He. destruct He as [He|He].
      - pose proof (gs_origin _ _ _ _ _ _ _ _ G) as F. rewrite Forall_forall in F.
        eapply row_origin_mono; [|apply F; assumption]. apply incl_appl, incl_refl.
      - pose proof (us_origin _ _ _ _ _ _ U) as F. rewrite Forall_forall in F.
        eapply row_origin_mono; [|apply F; assumption]. apply incl_appr, incl_refl. }
    apply row_pos_origin in R. destruct R as [R|(ev & E1 & E2)]; [|eauto].
    cbn in R. rewrite Forall_forall in H3. auto. }
  unfold dims. rewrite HT. cbn. split.
  - apply Forall_forall. intros p Hp. apply in_map_iff in Hp. destruct Hp as (e & <- & He).
    unfold to_scaled. rewrite transform_length; auto.
  - apply Forall_app; split; [assumption|]. apply Forall_forall. intros p Hp.
    apply in_map_iff in Hp. destruct Hp as (e & <- & He). auto.
Qed.
Lemma dims_eval c i q p s l s' l' : length (var_upper c) = length (var_lower c) ->
  length q = length (var_lower c) -> p = clip q (l_lower c) (l_upper c) ->
  evaluate c i p (to_orig c p) s l = Ok (s', l') -> dims c s -> dims c s'.
Proof.
  intros Hup Hq -> H (H2 & H3). apply evaluate_sum in H.
  destruct H as (v & noisy & e & es & [He HT _ _ _ Ht _ _ _]).
  destruct (search_bounds_length c Hup) as (S1 & S2).
  assert (L : length (clip q (l_lower c) (l_upper c)) = length (var_lower c))
    by (rewrite clip_length; lia).
  unfold dims. rewrite HT. cbn. split; apply Forall_app; split; auto.
  constructor; auto. unfold to_orig. rewrite transform_length; auto.
Qed.
Lemma dims_remove c j s s' : remove_node j s = Ok s' -> dims c s -> dims c s'.
Proof.
  intros H (H2 & H3). apply remove_fields in H. destruct H as (_ & HT & _).
  unfold dims. rewrite HT. cbn. split; now apply Forall_delete.
Qed.

Lemma separated_reach c (ok : inp -> Prop) s l :
  scaling_on (affine c) (integer_vars c) = false ->
  length (var_upper c) = length (var_lower c) ->
  (0 <= min_dist c)%Q -> (0 <= eps_zero c)%Q ->
  (forall p, In p (init_node_pos c) -> length p = length (var_lower c)) ->
  (forall i, ok i -> env_dims c i /\ env_sep c i) ->
  reach c ok s l -> separated (min_dist c) (node_pos (T s)).
Proof.
  intros Hsc Hup Hd He Hu Hi HR.
  enough (HH : dims c s /\ separated (min_dist c) (node_pos (T s))) by apply HH.
  revert HR.
  apply (reach_preserves c ok (fun s => dims c s /\ separated (min_dist c) (node_pos (T s)))).
  - intros s0 s1 Hq (H1 & H2). unfold dims. rewrite (q_T _ _ Hq). auto.
  - intros i s0 s1 Hok H (H1 & H2). destruct (Hi i Hok) as (E1 & E2).
    split; [eapply dims_restart; eauto|].
    eapply restart_separated; eauto. apply H1.
  - intros j s0 s1 _ H (H1 & H2). split; [eapply dims_remove; eauto|].
    apply remove_fields in H. destruct H as (_ & HT & _). rewrite HT. cbn.
    now apply FOP_delete.
  - intros i q s0 l0 s1 l1 Hok Hq Hacc H (H1 & H2).
    assert (Lq : length q = length (var_lower c)).
    { destruct (Hi i Hok) as ((_ & Hp) & _). destruct Hq as [Hq|[(_ & s2 & j & (P2 & _) & Hj)|Hq]];
        [auto| |lra].
      destruct P2 as (P2 & _). apply nth_error_In in Hj. rewrite Forall_forall in P2. auto. }
    split; [eapply dims_eval; eauto|eapply evaluate_separated; eauto].
  - split; [split; constructor|constructor].
Qed.
