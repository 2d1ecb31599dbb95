(** * Decomposition of [restart]. *)
From Verif Require Export AlgFrame.
Open Scope Z_scope.

Lemma count_ev_app f a b : count_ev f (a ++ b) = count_ev f a + count_ev f b.
Proof. unfold count_ev. rewrite filter_app, app_length. lia. Qed.
Lemma count_ev_nil f : count_ev f [] = 0.
Proof. reflexivity. Qed.
Lemma count_ev_cons f e a : count_ev f (e :: a) = (if f e then 1 else 0) + count_ev f a.
Proof. unfold count_ev. simpl. destruct (f e); simpl length; lia. Qed.
Lemma count_ev_silent f es : (forall e, silent e -> f e = false) -> Forall silent es ->
  count_ev f es = 0.
Proof.
  intros Hf H. induction H; [reflexivity|]. rewrite count_ev_cons, IHForall, Hf; auto.
Qed.
Lemma count_ev_all f es : (forall e, In e es -> f e = true) -> count_ev f es = Z.of_nat (length es).
Proof.
  induction es as [|e r IH]; intros H; [reflexivity|].
  rewrite count_ev_cons, H by (simpl; auto). rewrite IH by (intros; apply H; simpl; auto).
  simpl length. lia.
Qed.
Lemma count_ev_none f es : (forall e, In e es -> f e = false) -> count_ev f es = 0.
Proof.
  induction es as [|e r IH]; intros H; [reflexivity|].
  rewrite count_ev_cons, H by (simpl; auto). rewrite IH by (intros; apply H; simpl; auto). lia.
Qed.

Lemma indexed_length {A} (l : list A) : forall i, length (indexed i l) = length l.
Proof. induction l; simpl; auto. Qed.
Lemma indexed_snd {A} (l : list A) : forall i, map snd (indexed i l) = l.
Proof. induction l as [|x r IH]; intros i; simpl; [|rewrite IH]; auto. Qed.
Lemma indexed_In {A} (l : list A) : forall i j x, In (j, x) (indexed i l) -> In x l.
Proof.
  induction l as [|y r IH]; intros i j x H; simpl in *; [tauto|].
  destruct H as [H|H]; [inversion H; auto|]. right; eapply IH; eauto.
Qed.

(** ** remove_existing *)
Lemma remove_existing_spec c noisy t old : forall samples kept prev,
  remove_existing c noisy t old samples = (kept, prev) ->
  incl kept samples /\ (length kept + length prev)%nat = length samples /\
  (forall p, In p kept -> near (eps_zero c) p old = false \/
       noisy = false /\ nth (nearest p old) (all_is_noisy t) false = true) /\
  (forall e, In e prev -> exists p, In p samples /\
       near (eps_zero c) p old = true /\ e = history_row t (nearest p old) /\
       (noisy = true \/ nth (nearest p old) (all_is_noisy t) false = false)).
Proof.
  induction samples as [|p r IH]; intros kept prev H; simpl in H.
  - inversion H; subst. repeat split; simpl; try tauto. intros x Hx; inversion Hx.
  - destruct (remove_existing c noisy t old r) as [k0 p0] eqn:E.
    destruct (IH _ _ eq_refl) as (I1 & I2 & I3 & I4).
    destruct (near (eps_zero c) p old &&
              (noisy || negb (nth (nearest p old) (all_is_noisy t) false))) eqn:B;
      inversion H; subst; clear H.
    + apply andb_true_iff in B. destruct B as [B1 B2].
      split; [intros x Hx; right; auto|].
      split; [rewrite app_length; simpl; lia|]. split; [assumption|].
      intros e He. apply in_app_or in He. destruct He as [He|[<-|[]]].
      * destruct (I4 e He) as (q & Hq & ?). exists q. simpl; auto.
      * exists p. simpl. repeat split; auto.
        apply orb_true_iff in B2. destruct B2 as [->|B2]; [auto|].
        right. now apply negb_true_iff in B2.
    + split; [intros x [->|Hx]; simpl; auto|].
      split; [simpl; lia|]. split; [|].
      * intros q [->|Hq]; auto. destruct (near (eps_zero c) q old); [|auto].
        simpl in B. apply orb_false_iff in B. destruct B as [-> B].
        right. split; [reflexivity|]. now apply negb_false_iff in B.
      * intros e He. destruct (I4 e He) as (q & Hq & ?). exists q. simpl; auto.
Qed.

Lemma near_nonempty d p ps : near d p ps = true -> ps <> [].
Proof. intros H ->. discriminate. Qed.
Lemma nearest_lt p ps : ps <> [] -> (nearest p ps < length ps)%nat.
Proof.
  intros H. unfold nearest.
  destruct (argmin_spec (map (sqdist p) ps)) as (Hl & _).
  - destruct ps; simpl; congruence.
  - now rewrite map_length in Hl.
Qed.
Lemma nearest_min p ps q : In q ps -> (sqdist p (nth (nearest p ps) ps []) <= sqdist p q)%Q.
Proof.
  intros Hq. assert (Hne : ps <> []) by (intros ->; inversion Hq).
  pose proof (argmin_spec (map (sqdist p) ps)) as Hm.
  destruct ps as [|x xs]; [congruence|]. specialize (Hm ltac:(discriminate)).
  pose proof (first_min_In _ _ (sqdist p q) Hm (in_map (sqdist p) _ _ Hq)) as Hle.
  fold (nearest p (x :: xs)) in Hle. destruct Hm as (Hlt & _). rewrite map_length in Hlt.
  fold (nearest p (x :: xs)) in Hlt.
  rewrite (nth_indep _ 0%Q (sqdist p [])) in Hle by (rewrite map_length; exact Hlt).
  rewrite map_nth in Hle. exact Hle.
Qed.
Lemma near_nearest d p ps : near d p ps = true ->
  (0 <= d /\ sqdist p (nth (nearest p ps) ps []) <= d * d)%Q.
Proof.
  intros H. apply near_true in H. destruct H as (q & Hq & Hd & Hle).
  split; [assumption|]. pose proof (nearest_min p ps q Hq). lra.
Qed.

(** ** Rows created by a restart and where they come from *)
Inductive row_origin (c : cfg) (t : tabs) (mode : bool) (es : list event) (e : entry) : Prop :=
| RO_acc : In (EvAcc (e_pos e) (e_val e)) es -> e_err e = (0, 0)%Q ->
           (e_noisy e = false \/ e_noisy e = mode) -> row_origin c t mode es e
| RO_noisy : forall el eu, In (EvNoisy (e_pos e) (e_val e) el eu) es -> e_err e = (el, eu) ->
           e_noisy e = true -> mode = true -> row_origin c t mode es e
| RO_user : In (EvUser (e_pos e) (e_val e)) es -> e_err e = (0, 0)%Q ->
            e_noisy e = false -> In (e_pos e) (init_node_pos c) -> row_origin c t mode es e
| RO_old : forall j, (j < length (all_pos t))%nat -> e = history_row t j ->
           row_origin c t mode es e.

Definition ev_recorded (rows : list entry) (ev : event) : Prop :=
  match ev with
  | EvAcc p v => exists e, In e rows /\ e_pos e = p /\ e_val e = v
  | EvNoisy p v el eu => exists e, In e rows /\ e_pos e = p /\ e_val e = v /\ e_err e = (el, eu)
                                    /\ e_noisy e = true
  | EvUser p v => exists e, In e rows /\ e_pos e = p /\ e_val e = v /\ e_noisy e = false
  | _ => False
  end.
Definition ev_position (e : event) : option point :=
  match e with EvAcc p _ => Some p | EvNoisy p _ _ _ => Some p | EvUser p _ => Some p | _ => None end.

Lemma eval_samples_spec c t acc mode i pts rows evs :
  (acc = false -> mode = true) ->
  eval_samples acc mode i pts = (rows, evs) ->
  length rows = length pts /\ length evs = length pts /\
  Forall (row_origin c t mode evs) rows /\
  Forall (ev_recorded rows) evs /\
  (forall e, In e evs -> if acc then is_acc e = true else is_noisy e = true) /\
  (forall e p, In e evs -> ev_position e = Some p -> In p pts) /\
  map e_pos rows = pts.
Proof.
  intros Hm H. unfold eval_samples in H.
  destruct acc; inversion H; subst; clear H; rewrite !map_length, indexed_length.
  - repeat split.
    + apply Forall_forall. intros e He. apply in_map_iff in He. destruct He as ([j p] & <- & Hj).
      apply RO_acc; cbn; auto. apply in_map_iff. exists (j, p). auto.
    + apply Forall_forall. intros e He. apply in_map_iff in He. destruct He as ([j p] & <- & Hj).
      cbn. exists (p, i_rs_acc i j, mode, (0, 0)%Q). repeat split.
      apply in_map_iff. exists (j, p). auto.
    + intros e He. apply in_map_iff in He. destruct He as ([j p] & <- & Hj). reflexivity.
    + intros e p He. apply in_map_iff in He. destruct He as ([j q] & <- & Hj).
      cbn. intros Hp; inversion Hp; subst. eapply indexed_In; eauto.
    + rewrite map_map. cbn. change (map snd (indexed 0 pts) = pts). apply indexed_snd.
  - specialize (Hm eq_refl). subst mode. repeat split.
    + apply Forall_forall. intros e He. apply in_map_iff in He. destruct He as ([j p] & <- & Hj).
      cbn. destruct (i_rs_noisy i j) as [[v el] eu] eqn:Ev.
      eapply RO_noisy; cbn; eauto. apply in_map_iff. exists (j, p). cbn. rewrite Ev. auto.
    + apply Forall_forall. intros e He. apply in_map_iff in He. destruct He as ([j p] & <- & Hj).
      cbn. destruct (i_rs_noisy i j) as [[v el] eu] eqn:Ev. cbn.
      exists (p, v, true, (el, eu)). repeat split.
      apply in_map_iff. exists (j, p). cbn. rewrite Ev. auto.
    + intros e He. apply in_map_iff in He. destruct He as ([j p] & <- & Hj).
      cbn. destruct (i_rs_noisy i j) as [[v el] eu]. reflexivity.
    + intros e p He. apply in_map_iff in He. destruct He as ([j q] & <- & Hj).
      cbn. destruct (i_rs_noisy i j) as [[v el] eu]. cbn.
      intros Hp; inversion Hp; subst. eapply indexed_In; eauto.
    + rewrite map_map. transitivity (map snd (indexed 0 pts)); [|apply indexed_snd].
      apply map_ext. intros [j p]. cbn. destruct (i_rs_noisy i j) as [[v el] eu]. reflexivity.
Qed.

Lemma row_origin_mono c t mode es es' e : incl es es' -> row_origin c t mode es e ->
  row_origin c t mode es' e.
Proof.
  intros Hi [H1 H2 H3|el eu H1 H2 H3 H4|H1 H2 H3 H4|j H1 H2].
  - apply RO_acc; auto.
  - eapply RO_noisy; eauto.
  - apply RO_user; auto.
  - eapply RO_old; eauto.
Qed.
Lemma ev_recorded_mono rows rows' e : incl rows rows' -> ev_recorded rows e -> ev_recorded rows' e.
Proof.
  intros Hi. destruct e; cbn; auto; intros (x & Hx & H); exists x; auto.
Qed.

Record gen_spec (c : cfg) (k : ctrs) (t : tabs) (i : inp)
       (gen : list entry) (evs : list event) (na nn : Z) : Prop := {
  gs_origin : Forall (row_origin c t (noisy_mode k) evs) gen;
  gs_rec : Forall (ev_recorded gen) evs;
  gs_na : count_ev is_acc evs = na;
  gs_nn : count_ev is_noisy evs = nn;
  gs_noisy : noisy_mode k = false -> nn = 0;
  gs_events : forall e, In e evs -> is_acc e = true \/ is_noisy e = true;
  gs_pos : forall e p, In e evs -> ev_position e = Some p ->
     exists pts, i_samples i = Some pts /\ In p pts /\
       (nodes_at_restart t = 0%nat \/
        near (eps_zero c) p (firstn (nodes_at_restart t) (all_pos t)) = false \/
        noisy_mode k = false /\
        nth (nearest p (firstn (nodes_at_restart t) (all_pos t))) (all_is_noisy t) false = true);
  gs_len : gen = [] \/ exists pts, i_samples i = Some pts /\ length gen = length pts;
  gs_bound : na + nn <= Z.of_nat (length gen) }.

Lemma restart_gen_spec c k t i gen evs na nn :
  nodes_at_restart t = length (all_pos t) ->
  restart_gen c k t i = Ok (gen, evs, na, nn) -> gen_spec c k t i gen evs na nn.
Proof.
  intros Hnar H. unfold restart_gen in H.
  destruct ((0 <? itercount k) || do_init_strategy c).
  2: { inversion H; subst. constructor; try (apply Forall_nil); try reflexivity;
       simpl; try tauto; try lia. }
  destruct (i_samples i) as [pts|] eqn:Es; [|discriminate].
  cbv zeta in H.
  set (old := firstn (nodes_at_restart t) (all_pos t)) in *.
  set (rp := if (nodes_at_restart t =? 0)%nat then (pts, [])
             else remove_existing c (noisy_mode k) t old pts) in *.
  destruct rp as [new prev] eqn:Erp.
  assert (Hrp : incl new pts /\ (length new + length prev)%nat = length pts /\
    (forall p, In p new -> nodes_at_restart t = 0%nat \/ near (eps_zero c) p old = false \/
       noisy_mode k = false /\ nth (nearest p old) (all_is_noisy t) false = true) /\
    (forall e, In e prev -> exists j, (j < length (all_pos t))%nat /\ e = history_row t j)).
  { unfold rp in Erp. destruct (nodes_at_restart t =? 0)%nat eqn:E0.
    - inversion Erp; subst. apply Nat.eqb_eq in E0. repeat split; auto using incl_refl; simpl; try lia; tauto.
    - destruct (remove_existing_spec _ _ _ _ _ _ _ Erp) as (S1 & S2 & S3 & S4).
      repeat split; auto. intros e He. destruct (S4 e He) as (p & Hp & Hn & -> & _).
      exists (nearest p old). split; [|reflexivity].
      eapply Nat.lt_le_trans; [apply nearest_lt; eapply near_nonempty; eauto|].
      unfold old. rewrite firstn_length. lia. }
  destruct Hrp as (R1 & R2 & R3 & R4).
  destruct (negb (restart_accurate c k) && (length new =? 0)%nat); [discriminate|].
  destruct (eval_samples (restart_accurate c k) (noisy_mode k) i new) as [rows es] eqn:Ev.
  assert (Hm : restart_accurate c k = false -> noisy_mode k = true).
  { unfold restart_accurate. destruct (noisy_mode k); auto. }
  destruct (eval_samples_spec c t _ _ _ _ _ _ Hm Ev) as (L1 & L2 & O1 & O2 & O3 & O4 & O5).
  inversion H; subst gen evs na nn; clear H.
  constructor.
  - apply Forall_app; split; [assumption|]. apply Forall_forall. intros e He.
    destruct (R4 e He) as (j & Hj & ->). eapply RO_old; eauto.
  - eapply Forall_impl; [|exact O2]. intros e. apply ev_recorded_mono. apply incl_appl, incl_refl.
  - destruct (restart_accurate c k).
    + rewrite count_ev_all by (intros; now apply O3). now rewrite L2.
    + apply count_ev_none. intros e He. specialize (O3 e He). destruct e; auto; discriminate.
  - destruct (restart_accurate c k).
    + apply count_ev_none. intros e He. specialize (O3 e He). destruct e; auto; discriminate.
    + rewrite count_ev_all by (intros; now apply O3). now rewrite L2.
  - intros Hf. destruct (restart_accurate c k); auto. specialize (Hm eq_refl). congruence.
  - intros e He. specialize (O3 e He). destruct (restart_accurate c k); auto.
  - intros e p He Hp. exists pts. specialize (O4 e p He Hp). auto.
  - right. exists pts. rewrite app_length, L1. auto.
  - rewrite app_length, L1. destruct (restart_accurate c k); lia.
Qed.

Lemma select_user_lt c gen pts : forall earlier i j, In j (select_user c gen earlier i pts) ->
  (i <= j < i + length pts)%nat.
Proof.
  induction pts as [|p r IH]; intros earlier i j H; simpl in *; [tauto|].
  apply in_app_or in H. destruct H as [H|H].
  - destruct (_ && _) in H; simpl in H; [|tauto]. destruct H as [<-|[]]. lia.
  - apply IH in H. lia.
Qed.
Lemma select_user_length c gen pts : forall earlier i,
  (length (select_user c gen earlier i pts) <= length pts)%nat.
Proof.
  induction pts as [|p r IH]; intros earlier i; simpl; [lia|].
  rewrite app_length. specialize (IH (earlier ++ [p]) (S i)).
  destruct (_ && _); simpl; lia.
Qed.

Record user_spec (c : cfg) (k : ctrs) (t : tabs)
       (usr : list entry) (uevs : list event) (nu : Z) : Prop := {
  us_origin : Forall (row_origin c t (noisy_mode k) uevs) usr;
  us_rec : Forall (ev_recorded usr) uevs;
  us_na : count_ev is_acc uevs = nu;
  us_nn : count_ev is_noisy uevs = 0;
  us_flag : Forall (fun e => e_noisy e = false) usr;
  us_pos : forall e, In e usr -> In (e_pos e) (init_node_pos c);
  us_evpos : forall e p, In e uevs -> ev_position e = Some p -> In p (init_node_pos c);
  us_it : usr <> [] -> itercount k = 0;
  us_ev0 : itercount k <> 0 -> uevs = [] /\ usr = [];
  us_len : (length usr <= length (init_node_pos c))%nat;
  us_bound : 0 <= nu <= Z.of_nat (length usr) }.

Lemma restart_user_spec c k t gen i usr uevs nu :
  restart_user c k gen i = (usr, uevs, nu) -> user_spec c k t usr uevs nu.
Proof.
  intros H. unfold restart_user in H.
  destruct (negb (length (init_node_pos c) =? 0)%nat && (itercount k =? 0)) eqn:B.
  2: { inversion H; subst. constructor; try (apply Forall_nil); try reflexivity;
       simpl; try tauto; try lia. }
  apply andb_true_iff in B. destruct B as [_ B]. apply Z.eqb_eq in B.
  cbv zeta in H.
  set (sel := select_user c (map (fun e => fst (fst (fst e))) gen) [] 0 (init_node_pos c)) in *.
  assert (Hsel : forall j, In j sel -> In (nth j (init_node_pos c) []) (init_node_pos c)).
  { intros j Hj. unfold sel in Hj. apply select_user_lt in Hj. apply nth_In. lia. }
  assert (Hsl : (length sel <= length (init_node_pos c))%nat) by apply select_user_length.
  destruct (length (init_node_val c) <? length (init_node_pos c))%nat;
    inversion H; subst; clear H.
  - set (rows := map (fun jp => (nth (snd jp) (init_node_pos c) [], i_rs_user i (fst jp)))
                      (indexed 0 sel)).
    assert (Hp : forall pv, In pv rows -> In (fst pv) (init_node_pos c)).
    { intros pv Hpv. unfold rows in Hpv. apply in_map_iff in Hpv.
      destruct Hpv as ([a b] & <- & Hab). cbn. apply Hsel. eapply indexed_In; eauto. }
    assert (Hl : length rows = length sel) by (unfold rows; now rewrite map_length, indexed_length).
    constructor; rewrite ?map_length; try lia; try congruence.
    + apply Forall_forall. intros e He. apply in_map_iff in He. destruct He as (pv & <- & Hpv).
      apply RO_acc; cbn; auto. apply in_map_iff. exists pv; auto.
    + apply Forall_forall. intros e He. apply in_map_iff in He. destruct He as (pv & <- & Hpv).
      cbn. exists (fst pv, snd pv, false, (0, 0)%Q). repeat split.
      apply in_map_iff. exists pv; auto.
    + rewrite count_ev_all; [rewrite map_length; lia|]. intros e He.
      apply in_map_iff in He. destruct He as (pv & <- & Hpv). reflexivity.
    + apply count_ev_none. intros e He.
      apply in_map_iff in He. destruct He as (pv & <- & Hpv). reflexivity.
    + apply Forall_forall. intros e He. apply in_map_iff in He. destruct He as (pv & <- & Hpv).
      reflexivity.
    + intros e He. apply in_map_iff in He. destruct He as (pv & <- & Hpv). cbn. auto.
    + intros e p He. apply in_map_iff in He. destruct He as (pv & <- & Hpv). cbn.
      intros Hq; inversion Hq; subst; auto.
  - set (rows := map (fun j => (nth j (init_node_pos c) [], nth j (init_node_val c) 0%Q)) sel).
    assert (Hp : forall pv, In pv rows -> In (fst pv) (init_node_pos c)).
    { intros pv Hpv. unfold rows in Hpv. apply in_map_iff in Hpv.
      destruct Hpv as (a & <- & Hab). cbn. apply Hsel. auto. }
    assert (Hl : length rows = length sel) by (unfold rows; now rewrite map_length).
    constructor; rewrite ?map_length; try lia; try congruence.
    + apply Forall_forall. intros e He. apply in_map_iff in He. destruct He as (pv & <- & Hpv).
      apply RO_user; cbn; auto. apply in_map_iff. exists pv; auto.
    + apply Forall_forall. intros e He. apply in_map_iff in He. destruct He as (pv & <- & Hpv).
      cbn. exists (fst pv, snd pv, false, (0, 0)%Q). repeat split.
      apply in_map_iff. exists pv; auto.
    + apply count_ev_none. intros e He.
      apply in_map_iff in He. destruct He as (pv & <- & Hpv). reflexivity.
    + apply count_ev_none. intros e He.
      apply in_map_iff in He. destruct He as (pv & <- & Hpv). reflexivity.
    + apply Forall_forall. intros e He. apply in_map_iff in He. destruct He as (pv & <- & Hpv).
      reflexivity.
    + intros e He. apply in_map_iff in He. destruct He as (pv & <- & Hpv). cbn. auto.
    + intros e p He. apply in_map_iff in He. destruct He as (pv & <- & Hpv). cbn.
      intros Hq; inversion Hq; subst; auto.
Qed.

(** ** The whole restart *)
Definition mark (t : tabs) : tabs :=
  mkTabs (node_pos t) (node_val t) (node_is_noisy t) (node_err t)
         (all_pos t) (all_val t) (all_is_noisy t) (all_err t) (length (all_pos t)).
Definition bump_restarts (k : ctrs) : ctrs :=
  set_restarts (num_noisy_restarts k + (if noisy_mode k then 1 else 0)) k.

Lemma log_all_fields vals g : forall s,
  T (log_all vals g s) = T s /\ C (log_all vals g s) = C s /\ Rf (log_all vals g s) = Rf s /\
  trace (log_all vals g s) = trace s /\ same_incs (I s) (I (log_all vals g s)).
Proof.
  unfold log_all. induction vals as [|v r IH]; intros s; simpl.
  - repeat split; apply same_incs_refl.
  - destruct (IH (log_value v g s)) as (H1 & H2 & H3 & H4 & H5).
    rewrite H1, H2, H3, H4. repeat split.
    all: pose proof (quiet_log v g s) as [_ HI _ _ _ _ _ _ _];
      pose proof (same_incs_trans _ _ _ HI H5) as (A1 & A2 & A3 & A4 & A5 & A6 & A7); assumption.
Qed.

Record restart_eff (c : cfg) (i : inp) (s s' : st) : Prop := {
  re_ex : exists gen evs na nn usr uevs nu,
    gen_spec c (bump_restarts (C s)) (mark (T s)) i gen evs na nn /\
    restart_user c (bump_restarts (C s)) gen i = (usr, uevs, nu) /\
    user_spec c (bump_restarts (C s)) (mark (T s)) usr uevs nu /\
    gen ++ usr <> [] /\ length (gen ++ usr) <> 1%nat /\
    T s' = restart_tabs c (mark (T s)) (gen ++ usr) /\
    same_incs (restart_incs (T s') (I s)) (I s') /\
    C s' = restart_ctrs c (fmin (I s')) (add_evals (na + nu) nn (bump_restarts (C s))) /\
    Rf s' = restart_refs (fmin (I s')) (itercount (C s)) (Rf s) /\
    trace s' = trace s ++ EvRestart :: evs ++ uevs }.

Lemma restart_effect c i s s' : restart c i s = Ok s' -> restart_eff c i s s'.
Proof.
  unfold restart. cbv zeta. fold (mark (T s)). fold (bump_restarts (C s)).
  destruct (restart_gen c (bump_restarts (C s)) (mark (T s)) i)
    as [[[[gen evs] na] nn]|] eqn:Eg; cbn [bind]; [|discriminate].
  destruct (restart_user c (bump_restarts (C s)) gen i) as [[usr uevs] nu] eqn:Eu.
  pose proof (restart_gen_spec c _ (mark (T s)) _ _ _ _ _ eq_refl Eg) as G.
  pose proof (restart_user_spec c _ (mark (T s)) _ _ _ _ _ Eu) as U.
  destruct (gen ++ usr) as [|e0 rest] eqn:Er; [discriminate|].
  assert (Hne : e0 :: rest <> []) by discriminate.
  revert Er Hne. generalize (e0 :: rest) as rows. clear e0 rest. intros rows Er Hne.
  match goal with |- context [current_gap c ?x] => destruct (current_gap c x) as [g|] eqn:Ec end;
    cbn [bind]; [|discriminate].
  destruct (length rows =? 1)%nat eqn:El; [discriminate|].
  intros H; injection H as <-.
  match goal with |- context [log_all ?v ?gg ?x] =>
    destruct (log_all_fields v gg x) as (F1 & F2 & F3 & F4 & F5) end.
  constructor. exists gen, evs, na, nn, usr, uevs, nu.
  rewrite F1, F2, F3, F4. cbn [T C Rf trace I] in *.
  pose proof F5 as (A1 & A2 & A3 & A4 & A5 & A6 & A7). rewrite A2.
  rewrite Er. apply Nat.eqb_neq in El.
  split; [exact G|]. split; [exact Eu|]. split; [exact U|]. split; [exact Hne|].
  split; [exact El|]. split; [reflexivity|]. split; [exact F5|]. auto.
Qed.
