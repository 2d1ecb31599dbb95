(** * Parallel optimizer: no point is evaluated twice (single phase, no scaling). *)
From Coq Require Import Permutation.
From Verif Require Export ParSep.
From Verif Require Import AlgMode ParBudget ParReuse ParStop ParTabs.
From Verif Require Import SpecExact ExactProofs.
From Verif Require Import ModelAlg.
From Coq Require Import Lia Lqa.
Open Scope Z_scope.

(** Not the submission of a proposed point, and no result dropped for a better one. *)
Definition proposal (e : pev) : bool :=
  match e with PSubmit _ _ _ SInit => false | PSubmit _ _ _ _ => true | PSuperseded _ => true | _ => false end.

Lemma log_no_unrow pc0 ok m P : has_noisy (base pc0) = false -> preach pc0 ok m P -> no_error m ->
  no_removal_in (p_log P).
Proof.
  intros Hn HR. induction HR as [q pa m P Hok H|q pa P0 m P Hok HR IH H|q m0 P0 m P Hok HR IH H]; intros N.
  - apply pstart_effect in H; [|exact N]. destruct H as [w It -> B|It -> Es El En SL Eb Ei Ep Eg].
    + destruct B as [(new & prev & nb & _ & _ & _ & _ & _ & _ & _ & _ & _ & _ & _ & _ & _ & EL & _) _ _].
      rewrite EL. cbn [p_log set_k pinit app]. intros x Hx. apply in_map_iff in Hx. destruct Hx as (y & Hy & _). discriminate.
    + rewrite El. intros x [].
  - assert (Z : no_removal_in (p_log P0)) by (apply IH; intros e; discriminate).
    apply pstart_effect in H; [|exact N]. destruct H as [w It -> B|It -> Es El En SL Eb Ei Ep Eg].
    + destruct B as [(new & prev & nb & _ & _ & _ & _ & _ & _ & _ & _ & _ & _ & _ & _ & _ & EL & _) _ _].
      rewrite EL. cbn [p_log set_k]. intros x Hx. apply in_app_or in Hx. destruct Hx as [Hx|Hx]; [exact (Z _ Hx)|].
      apply in_map_iff in Hx. destruct Hx as (y & Hy & _). discriminate.
    + rewrite El. exact Z.
  - assert (N0 : no_error m0).
    { intros e ->. cbn in H. injection H as <- <-. now apply (N e). }
    destruct (other_no_removal _ _ _ _ _ _ H N (or_introl Hn)) as (es & -> & F).
    intros x Hx. apply in_app_or in Hx. destruct Hx as [Hx|Hx]; [exact (IH N0 _ Hx)|exact (F _ Hx)].
Qed.

Lemma replay_rows log : no_removal_in log -> forall h,
  (forall x, In x h -> In x (replay log h)) /\
  (forall src p v, In (PRow src p v) log -> In (p, v) (replay log h)).
Proof.
  induction log as [|e r IH]; intros Hn h; [split; [auto|intros ? ? ? []]|].
  assert (Hr : no_removal_in r) by (intros j Hj; apply (Hn j); right; exact Hj).
  specialize (IH Hr).
  assert (K : forall h', (forall x, In x h -> In x h') -> (forall src p v, e = PRow src p v -> In (p, v) h') ->
     replay (e :: r) h = replay r h' ->
     (forall x, In x h -> In x (replay (e :: r) h)) /\
     (forall src p v, In (PRow src p v) (e :: r) -> In (p, v) (replay (e :: r) h))).
  { intros h' H1 H2 E. rewrite E. destruct (IH h') as (A & B). split; [auto|].
    intros src p v [X|X]; [apply A; eapply H2; exact X|eapply B; exact X]. }
  destruct e as [k p nz id|k v|src p v|j|k|k].
  - apply (K h); auto. discriminate.
  - apply (K h); auto. discriminate.
  - apply (K (h ++ [(p, v)])); [intros; apply in_or_app; auto| |reflexivity].
    intros s' p' v' X. injection X as <- <- <-. apply in_or_app. right. left. reflexivity.
  - exfalso. apply (Hn j). left. reflexivity.
  - apply (K h); auto. discriminate.
  - apply (K h); auto. discriminate.
Qed.

Lemma far_lt eps d p q : (0 <= d)%Q -> (eps <= d)%Q -> (d * d < sqdist p q)%Q -> dist_lt p q eps = false.
Proof.
  intros Hd He H. destruct (dist_lt p q eps) eqn:E; [|reflexivity]. apply dist_lt_iff in E. destruct E as (E0 & E1).
  assert (eps * eps <= d * d)%Q by nra. lra.
Qed.

Lemma use_new c q p0 noisy id P P' : use_point c q p0 noisy id P = Ok P' ->
  Forall (fun b => b = false) (all_is_noisy (T (p_s P))) ->
  (exists es, p_log P' = p_log P ++ es /\ Forall (fun e => proposal e = false) es) \/
  (let p := clip p0 (l_lower c) (l_upper c) in
   p_log P' = p_log P ++ [PSubmit (p_next P) (to_orig c p) noisy id] /\
   near (min_dist c) p (node_pos (T (p_s P))) = false /\ near (min_dist c) p (tpos (p_k P)) = false /\
   lookup_old c (T (p_s P)) (to_orig c p) = None).
Proof.
  intros H F. unfold use_point in H. cbv zeta in H |- *. set (p := clip p0 (l_lower c) (l_upper c)) in *.
  destruct (node_pos (T (p_s P))) as [|n0 nr] eqn:En; [discriminate|]. rewrite <- En in *.
  destruct (near _ _ _ || near _ _ _) eqn:Enr.
  { injection H as <-. left. exists []. rewrite app_nil_r. split; [unfold discard_search; destruct id; reflexivity|constructor]. }
  apply orb_false_iff in Enr. destruct Enr as (N1 & N2).
  destruct (lookup_old c (T (p_s P)) (to_orig c p)) as [j|] eqn:El.
  - assert (E : nth j (all_is_noisy (T (p_s P))) false = false).
    { destruct (nth_in_or_default j (all_is_noisy (T (p_s P))) false) as [X|X]; [|exact X]. rewrite Forall_forall in F. auto. }
    rewrite E in H. cbn [negb] in H. rewrite orb_true_r in H. apply reuse_iid in H. destruct H as (_ & _ & EL & _).
    left. eexists. split; [exact EL|]. repeat constructor.
  - injection H as <-. right. split; [reflexivity|]. auto.
Qed.
Lemma search_new c q j P P' : has_noisy c = false -> take_search c q j P = Ok P' ->
  Forall (fun b => b = false) (all_is_noisy (T (p_s P))) ->
  (exists es, p_log P' = p_log P ++ es /\ Forall (fun e => proposal e = false) es) \/
  (exists p nz id, p_log P' = p_log P ++ [PSubmit (p_next P) (to_orig c p) nz id] /\
   near (min_dist c) p (node_pos (T (p_s P))) = false /\ near (min_dist c) p (tpos (p_k P)) = false /\
   lookup_old c (T (p_s P)) (to_orig c p) = None).
Proof.
  intros Hn H F. unfold take_search in H. destruct (nth_error (srch (p_k P)) j) as [e|]; [|discriminate]. cbv zeta in H.
  destruct (s_bad e); [discriminate|].
  assert (K : forall p nz id, use_point c q p nz id (set_k (k_srch (delete_at j (srch (p_k P))) (p_k P)) P) = Ok P' ->
    (exists es, p_log P' = p_log P ++ es /\ Forall (fun e => proposal e = false) es) \/
    (exists p nz id, p_log P' = p_log P ++ [PSubmit (p_next P) (to_orig c p) nz id] /\
     near (min_dist c) p (node_pos (T (p_s P))) = false /\ near (min_dist c) p (tpos (p_k P)) = false /\
     lookup_old c (T (p_s P)) (to_orig c p) = None)).
  { intros p nz id H'. apply use_new in H'; [|exact F]. destruct H' as [H'|H']; [left; exact H'|right].
    eexists _, nz, id. exact H'. }
  destruct (q_ans q) as [[p|] adj|p ind].
  - eapply K; exact H.
  - injection H as <-. left. exists []. rewrite app_nil_r. split; [unfold discard_search; destruct (s_id e); reflexivity|constructor].
  - rewrite Hn in H. cbn [andb] in H. destruct (s_id e); eapply K; exact H.
Qed.

(** Extensions of the log by other steps. *)
Lemma step_new pc0 (ok : pin -> Prop) q m P m' P' : has_noisy (base pc0) = false -> preach pc0 ok m P ->
  pstep pc0 q m P = (m', P') -> no_error m' ->
  (exists es, p_log P' = p_log P ++ es /\ Forall (fun e => proposal e = false) es) \/
  (m = PcSearches /\ exists p nz id, p_log P' = p_log P ++ [PSubmit (p_next P) (to_orig (base pc0) p) nz id] /\
   near (min_dist (base pc0)) p (node_pos (T (p_s P))) = false /\ near (min_dist (base pc0)) p (tpos (p_k P)) = false /\
   lookup_old (base pc0) (T (p_s P)) (to_orig (base pc0) p) = None).
Proof.
  intros Hn HR H N.
  assert (N0 : no_error m).
  { intros e ->. cbn in H. injection H as <- <-. now apply (N e). }
  pose proof (proj1 (proj1 (exact_reach pc0 ok m P Hn HR N0))) as EX.
  destruct (quiet_reach pc0 ok m P Hn HR N0) as (_ & QP & _).
  pose proof (pstep_effect _ _ _ _ _ _ H N) as E.
  assert (O : forall P1, p_log P1 = p_log P -> exists es, p_log P1 = p_log P ++ es /\ Forall (fun e => proposal e = false) es).
  { intros P1 ->. exists []. rewrite app_nil_r. split; [reflexivity|constructor]. }
  destruct E as [-> -> -> _| -> -> -> _|b -> -> Hm| -> -> Hm| -> -> ->|kind w w' -> -> -> Ew Hw|b j -> -> E|j -> -> E|Hm E|j kind w w' -> -> E|kind w -> E|t r -> -> Ep E| -> -> Ep ->];
    try (left; apply O; reflexivity).
  - left. assert (HN : forall t, nth_error (pend (p_k P)) j = Some t -> t_noisy t = false).
    { intros t Ht. apply nth_error_In in Ht. rewrite Forall_forall in QP. auto. }
    destruct E as [t v el eu _ _ _ Es _ _ El Ek|t v el eu Ht _ Hz _ _ Es _ _ El Ek|t v el eu t' Ht _ Hz _ _ _ Q _ _ _ El Ek|t v el eu _ _ _ _ _ Q _ _ _ El SL _ _];
      try (eexists; (split; [exact El|]); repeat constructor; fail).
    all: rewrite (HN t Ht) in Hz; discriminate.
  - cbn [pstep] in H. destruct (ready q (srch (p_k P))) as [j'|] eqn:Er.
    + apply finish_ok in H; [|exact N]. destruct (take_search _ _ _ _) as [P1|] eqn:ET; cbn [bind] in H; [|discriminate].
      injection H as <-. apply search_new in ET; [|exact Hn|exact EX]. destruct ET as [ET|ET]; auto.
    + destruct (_ <=? _); injection H as HH1 HH2; subst; left; apply O; reflexivity.
  - left. destruct E as [k' Hm' Q1 It En El Ek SL Eb Elc|id bad k' -> Q1 It En El Ek I1 I2 SL Eb Eb2 Elc|kind w P0 Hk -> Hi Q1 It En El Ek B]; auto.
    pose proof B as [(new & prev & nb & W1 & _ & _ & _ & _ & _ & _ & _ & _ & _ & _ & _ & _ & EL & _) _ _].
    rewrite EL, El. eexists. split; [reflexivity|]. apply Forall_forall. intros x Hx. apply in_map_iff in Hx. destruct Hx as (y & <- & Hy).
    rewrite W1 in Hy. destruct (submit_from_spec nb new (p_next P0)) as (_ & _ & F). rewrite Forall_forall in F.
    destruct (F y Hy) as (_ & -> & _). reflexivity.
  - left. destruct E as [(t & v & el & eu & _ & _ & _ & _ & _ & _ & EL) _ _ _ _]. rewrite EL. eexists. split; [reflexivity|]. repeat constructor.
  - left. destruct E as [(usr & uevs & nu & rows & _ & _ & _ & _ & _ & _ & _ & _ & EL & _) _ _ _ _ _ _ _ _ _ _].
    rewrite EL. eexists. split; [reflexivity|]. apply Forall_forall. intros x Hx.
    apply in_app_or in Hx. destruct Hx as [Hx|Hx]; [apply in_map_iff in Hx; destruct Hx as (y & <- & _); reflexivity|].
    apply in_app_or in Hx. destruct Hx as [Hx|Hx]; [apply in_map_iff in Hx; destruct Hx as (y & <- & _); reflexivity|].
    unfold user_log in Hx. destruct (0 <? nu).
    + apply in_flat_map in Hx. destruct Hx as (y & _ & Hy). destruct Hy as [<-|[<-|[<-|[]]]]; reflexivity.
    + apply in_map_iff in Hx; destruct Hx as (y & <- & _); reflexivity.
  - left. rewrite (fi_log _ _ _ _ _ _ E). eexists. split; [reflexivity|]. repeat constructor.
Qed.

Lemma begin_new c q kind P w P' : begin_eff c q kind P w P' ->
  exists es, p_log P' = p_log P ++ es /\ Forall (fun e => proposal e = false) es.
Proof.
  intros B. pose proof B as [(new & prev & nb & W1 & _ & _ & _ & _ & _ & _ & _ & _ & _ & _ & _ & _ & EL & _) _ _].
  rewrite EL. eexists. split; [reflexivity|]. apply Forall_forall. intros x Hx. apply in_map_iff in Hx. destruct Hx as (y & <- & Hy).
  rewrite W1 in Hy. destruct (submit_from_spec nb new (p_next P)) as (_ & _ & F). rewrite Forall_forall in F.
  destruct (F y Hy) as (_ & -> & _). reflexivity.
Qed.
Lemma start_new pc0 q pa P0 m P : pstart pc0 q pa P0 = (m, P) -> no_error m ->
  exists es, p_log P = p_log P0 ++ es /\ Forall (fun e => proposal e = false) es.
Proof.
  intros H N. apply pstart_effect in H; [|exact N]. destruct H as [w It -> B|It -> Es El En SL Eb Ei Ep Eg].
  - exact (begin_new _ _ _ _ _ _ B).
  - rewrite El. exists []. rewrite app_nil_r. split; [reflexivity|constructor].
Qed.
(** Induction over the log. *)
Lemma log_ind pc0 (ok : pin -> Prop) (Inv : list pev -> Prop) : has_noisy (base pc0) = false -> Inv [] ->
  (forall l es, Inv l -> Forall (fun e => proposal e = false) es -> Inv (l ++ es)) ->
  (forall P p nz id, preach pc0 ok PcSearches P -> Inv (p_log P) ->
     near (min_dist (base pc0)) p (node_pos (T (p_s P))) = false -> near (min_dist (base pc0)) p (tpos (p_k P)) = false ->
     lookup_old (base pc0) (T (p_s P)) (to_orig (base pc0) p) = None ->
     Inv (p_log P ++ [PSubmit (p_next P) (to_orig (base pc0) p) nz id])) ->
  forall m P, preach pc0 ok m P -> no_error m -> Inv (p_log P).
Proof.
  intros Hn H0 H1 H2 m P HR. induction HR as [q pa m P Hok H|q pa P0 m P Hok HR IH H|q m0 P0 m P Hok HR IH H]; intros N.
  - destruct (start_new _ _ _ _ _ _ H N) as (es & -> & F). cbn [pinit p_log]. apply H1; [exact H0|exact F].
  - destruct (start_new _ _ _ _ _ _ H N) as (es & -> & F). apply H1; [apply IH; intros e; discriminate|exact F].
  - assert (N0 : no_error m0).
    { intros e ->. cbn in H. injection H as <- <-. now apply (N e). }
    destruct (step_new pc0 ok q m0 P0 m P Hn HR H N) as [(es & -> & F)|(-> & p & nz & id & -> & A & B & D)].
    + apply H1; auto.
    + apply H2; auto.
Qed.
Lemma log_no_super pc0 ok m P : has_noisy (base pc0) = false -> preach pc0 ok m P -> no_error m ->
  forall k, ~ In (PSuperseded k) (p_log P).
Proof.
  intros Hn. apply (log_ind pc0 ok (fun l => forall k, ~ In (PSuperseded k) l) Hn).
  - intros k [].
  - intros l es H F k Hk. apply in_app_or in Hk. destruct Hk as [Hk|Hk]; [exact (H k Hk)|].
    rewrite Forall_forall in F. specialize (F _ Hk). discriminate.
  - intros P1 p nz id _ H _ _ _ k Hk. apply in_app_or in Hk. destruct Hk as [Hk|[Hk|[]]]; [exact (H k Hk)|discriminate].
Qed.

(** Where a submitted point is, later. *)
Lemma where_now pc0 ok m P k p nz id : has_noisy (base pc0) = false ->
  scaling_on (affine (base pc0)) (integer_vars (base pc0)) = false ->
  preach pc0 ok m P -> no_error m -> not_wait m -> In (PSubmit k p nz id) (p_log P) ->
  In (PTooClose k) (p_log P) \/ In p (map t_pos (pend (p_k P))) \/ In p (all_pos (T (p_s P))).
Proof.
  intros Hn Hsc HR N HW HS. pose proof (ledger_reach pc0 ok m P HR N) as L.
  assert (ND : NoDup (submitted (p_log P))) by (rewrite (lg_sub _ _ L); apply seq_NoDup).
  destruct (prov_reach pc0 ok m P HR N) as (PV & _ & PR).
  assert (HK : In k (outstanding m P ++ settled (p_log P))).
  { eapply Permutation_in; [apply Permutation_sym, (lg_perm _ _ L)|]. rewrite <- (lg_sub _ _ L). eapply submitted_in; eauto. }
  apply in_app_or in HK. destruct HK as [HK|HK].
  - right. left. rewrite outstanding_plain in HK by exact HW. apply in_map_iff in HK. destruct HK as (t & Et & Ht).
    destruct (PV t Ht) as (A & B). unfold sub_ev in A. rewrite Et in A.
    destruct (submitted_unique _ ND _ _ _ _ _ _ _ HS A) as (-> & _).
    apply in_map_iff. exists t. split; [|exact Ht].
    destruct B as [B|(_ & B)]; [|exact B]. rewrite scaling_off_orig in B by exact Hsc. exact B.
  - destruct (settled_cases _ _ HK) as [(p' & v & HR')|[HX|HX]].
    + right. right. destruct (PR _ _ _ HR') as (p1 & nz1 & id1 & A & B & D).
      destruct (submitted_unique _ ND _ _ _ _ _ _ _ HS A) as (-> & <- & <-).
      assert (E : p' = p1) by (destruct D as [->|(_ & ->)]; [reflexivity|apply scaling_off_orig; exact Hsc]). subst p'.
      rewrite <- (lg_pos _ _ L). apply in_map_iff. exists (p1, v). split; [reflexivity|].
      eapply (proj2 (replay_rows _ (log_no_unrow pc0 ok m P Hn HR N) [])). exact HR'.
    + exfalso. exact (log_no_super pc0 ok m P Hn HR N k HX).
    + left. exact HX.
Qed.


(** Every proposal is new. *)
Definition new_points (c : cfg) (log : list pev) : Prop :=
  forall before k p nz id after, log = before ++ PSubmit k p nz id :: after -> id <> SInit ->
  forall k' p' nz' id', In (PSubmit k' p' nz' id') before -> ~ In (PTooClose k') before ->
  dist_lt p p' (eps_zero c) = false.

Lemma new_here pc0 ok P p : has_noisy (base pc0) = false ->
  scaling_on (affine (base pc0)) (integer_vars (base pc0)) = false ->
  (0 <= min_dist (base pc0))%Q -> (eps_zero (base pc0) <= min_dist (base pc0))%Q ->
  preach pc0 ok PcSearches P ->
  near (min_dist (base pc0)) p (node_pos (T (p_s P))) = false -> near (min_dist (base pc0)) p (tpos (p_k P)) = false ->
  lookup_old (base pc0) (T (p_s P)) p = None ->
  forall k' p' nz' id', In (PSubmit k' p' nz' id') (p_log P) -> ~ In (PTooClose k') (p_log P) ->
  dist_lt p p' (eps_zero (base pc0)) = false.
Proof.
  intros Hn Hsc Hd He HR N1 N2 HL k' p' nz' id' HS HT. set (c := base pc0) in *.
  assert (N : no_error PcSearches) by (intros e; discriminate).
  assert (HW : not_wait PcSearches) by discriminate.
  rewrite near_false in N1, N2 by exact Hd.
  destruct (where_now pc0 ok _ P _ _ _ _ Hn Hsc HR N HW HS) as [X|[X|X]]; [contradiction| |].
  - destruct (lists_reach pc0 ok _ P HR N) as (E & _); [split; discriminate|].
    rewrite <- E in X. eapply far_lt; [exact Hd|exact He|apply N2; exact X].
  - pose proof (par_aligned pc0 ok _ P HR N HW) as HA. fold c in HA.
    destruct (aligned_lengths _ _ HA) as (L1 & L2 & L3 & L4).
    destruct HA as [(opos & oval & onoisy & oerr & npos & Q1 & _ & _ & _ & Q5 & _ & _ & _ & Q9) _ _ _].
    rewrite Q5 in X. apply in_app_or in X. destruct X as [X|X].
    + apply (lookup_old_none c (T (p_s P)) p); [lia|exact HL|]. rewrite Q5, <- Q1, firstn_app, Nat.sub_diag, firstn_all.
      cbn. now rewrite app_nil_r.
    + destruct (Forall2_In_r _ _ _ _ Q9 X) as (x & Hx & Hrel).
      assert (x = p').
      { destruct Hrel as [Hr|Hr]; [rewrite scaling_off_orig in Hr by exact Hsc|rewrite scaling_off_scaled in Hr by exact Hsc]; congruence. }
      subst x. eapply far_lt; [exact Hd|exact He|apply N1; exact Hx].
Qed.
Lemma proposals_new pc0 ok m P : has_noisy (base pc0) = false ->
  scaling_on (affine (base pc0)) (integer_vars (base pc0)) = false ->
  (0 <= min_dist (base pc0))%Q -> (eps_zero (base pc0) <= min_dist (base pc0))%Q ->
  preach pc0 ok m P -> no_error m -> new_points (base pc0) (p_log P).
Proof.
  intros Hn Hsc Hd He. apply (log_ind pc0 ok (new_points (base pc0)) Hn).
  - intros before k p nz id after H. destruct before; discriminate.
  - intros l es H F before k p nz id after E Hid.
    destruct (app_eq_app _ _ _ _ (eq_sym E)) as (mid & [(E1 & E2)|(E1 & E2)]).
    + exfalso. assert (X : In (PSubmit k p nz id) es) by (rewrite E2; apply in_or_app; right; left; reflexivity).
      rewrite Forall_forall in F. specialize (F _ X). cbn in F. destruct id; try discriminate; congruence.
    + destruct mid as [|x mid].
      * cbn in E2. exfalso. rewrite <- E2 in F. apply Forall_inv in F. cbn in F. destruct id; try discriminate; congruence.
      * cbn in E2. injection E2 as <- E2. rewrite E1 in H. eapply H; [reflexivity|exact Hid].
  - intros P1 p nz id HR H N1 N2 HL before k p1 nz1 id1 after E Hid.
    rewrite scaling_off_orig in E, HL by exact Hsc.
    destruct after as [|e after'] using rev_ind.
    + apply app_inj_tail in E. destruct E as (<- & E). injection E as <- <- <- <-.
      eapply new_here; eauto.
    + clear IHafter'. rewrite app_comm_cons, app_assoc in E. apply app_inj_tail in E. destruct E as (E & _).
      eapply H; [exact E|exact Hid].
Qed.

(** Points submitted at a restart. *)
Lemma restart_new c q kind P m P' : restart_begin c q kind P = Ok (m, P') ->
  Forall (fun b => b = false) (all_is_noisy (T (p_s P))) ->
  forall w, m = PcWait kind w -> forall t, In t (w_pend w) -> forall p', In p' (all_pos (T (p_s P))) ->
  dist_lt (t_at t) p' (eps_zero c) = false.
Proof.
  intros H F w -> t Ht p' Hp'. unfold restart_begin in H. cbv zeta in H. fold (mark (T (p_s P))) in H.
  destruct (_ || _) eqn:Eb.
  2: { injection H as <- _. destruct Ht. }
  destruct (i_samples (q_inp q)) as [pts|] eqn:Es; [|discriminate].
  change (nodes_at_restart (mark (T (p_s P)))) with (length (all_pos (T (p_s P)))) in H.
  change (all_pos (mark (T (p_s P)))) with (all_pos (T (p_s P))) in H. rewrite firstn_all in H.
  assert (E0 : (length (all_pos (T (p_s P))) =? 0)%nat = false).
  { apply Nat.eqb_neq. destruct (all_pos (T (p_s P))); [destruct Hp'|discriminate]. }
  rewrite E0 in H.
  destruct (remove_existing _ _ _ _ _) as [new prev] eqn:Er. injection H as <- _. cbn [w_pend] in Ht.
  apply remove_existing_spec in Er. destruct Er as (_ & _ & S3 & _).
  match type of Ht with In t (submit_from ?a ?b _) => destruct (submit_from_spec b new a) as (_ & A & _) end.
  assert (X : In (t_at t) new) by (rewrite <- A; apply in_map; exact Ht).
  destruct (S3 _ X) as [S|(_ & S)].
  - destruct (dist_lt (t_at t) p' (eps_zero c)) eqn:Ed; [|reflexivity]. exfalso.
    assert (Y : near (eps_zero c) (t_at t) (all_pos (T (p_s P))) = true).
    { unfold near. apply existsb_exists. exists p'. split; [exact Hp'|]. apply dist_lt_iff in Ed. destruct Ed as (D0 & D1).
      unfold dist_le. apply andb_true_iff. split; apply Qle_bool_iff; [lra|apply Qlt_le_weak; exact D1]. }
    congruence.
  - exfalso. change (all_is_noisy (mark (T (p_s P)))) with (all_is_noisy (T (p_s P))) in S.
    match type of S with nth ?j ?l false = true => destruct (nth_in_or_default j l false) as [Z|Z] end.
    + rewrite Forall_forall in F. rewrite (F _ Z) in S. discriminate.
    + congruence.
Qed.
Lemma history_free pc0 ok m P t : has_noisy (base pc0) = false ->
  scaling_on (affine (base pc0)) (integer_vars (base pc0)) = false ->
  preach pc0 ok m P -> no_error m -> not_wait m -> pend (p_k P) = [] ->
  (forall p', In p' (all_pos (T (p_s P))) -> dist_lt (t_at t) p' (eps_zero (base pc0)) = false) ->
  forall k' p' nz' id', In (PSubmit k' p' nz' id') (p_log P) -> ~ In (PTooClose k') (p_log P) ->
  dist_lt (t_at t) p' (eps_zero (base pc0)) = false.
Proof.
  intros Hn Hsc HR N HW Hp HF k' p' nz' id' HS HT.
  destruct (where_now pc0 ok _ P _ _ _ _ Hn Hsc HR N HW HS) as [X|[X|X]]; [contradiction| |auto].
  rewrite Hp in X. destruct X.
Qed.
Lemma lin_frame pc0 q P P1 : linear_phase (base pc0) q (cross_validate pc0 P) = LGo P1 ->
  T (p_s P1) = T (p_s P) /\ p_log P1 = p_log P /\ p_k P1 = p_k P.
Proof.
  assert (E : p_s (cross_validate pc0 P) = p_s P /\ p_log (cross_validate pc0 P) = p_log P /\ p_k (cross_validate pc0 P) = p_k P)
    by (unfold cross_validate; destruct (_ && _); auto).
  destruct E as (E1 & E2 & E3). unfold linear_phase. cbv zeta.
  destruct (i_lin_ok _); [intros H; injection H as <-; rewrite E1; auto|].
  destruct (_ && _); [discriminate|]. destruct (_ =? 0)%nat; [discriminate|]. intros H. injection H as <-.
  cbn. rewrite E1. auto.
Qed.
Lemma samples_new pc0 (ok : pin -> Prop) q m P kind w P' : has_noisy (base pc0) = false ->
  scaling_on (affine (base pc0)) (integer_vars (base pc0)) = false ->
  preach pc0 ok m P -> not_wait m -> pstep pc0 q m P = (PcWait kind w, P') ->
  forall t, In t (w_pend w) -> forall k' p' nz' id',
  In (PSubmit k' p' nz' id') (p_log P) -> ~ In (PTooClose k') (p_log P) ->
  dist_lt (t_at t) p' (eps_zero (base pc0)) = false.
Proof.
  intros Hn Hsc HR HW H t Ht.
  assert (N1 : no_error (PcWait kind w)) by (intros e; discriminate).
  assert (N0 : no_error m).
  { intros e ->. cbn in H. discriminate. }
  pose proof (proj1 (proj1 (exact_reach pc0 ok m P Hn HR N0))) as EX.
  destruct m as [|b| | | |kk ww| | |e]; cbn [pstep] in H.
  - destruct (loop_cond _ _ _ _); discriminate.
  - destruct (ready _ _) as [j|].
    + apply finish_ok in H; [|exact N1]. destruct (take_eval _ _ _ _); cbn [bind] in H; discriminate.
    + destruct (_ <? _); discriminate.
  - destruct (ready _ _) as [j|].
    + apply finish_ok in H; [|exact N1]. destruct (take_search _ _ _ _); cbn [bind] in H; discriminate.
    + destruct (_ <=? _); discriminate.
  - apply finish_ok in H; [|exact N1]. unfold plan in H. cbv zeta in H. destruct (skip_step _ _); [discriminate|].
    destruct (must_restart_parallel _ _); [|discriminate]. destruct (idle (p_k P)) eqn:Ei; [|discriminate].
    apply idle_iff in Ei. destruct Ei as (Ei & _).
    eapply history_free; eauto. intros p' Hp'.
    pose proof (restart_begin_eff _ _ _ _ _ _ H) as (w' & Ew & _). injection Ew as -> <-.
    eapply restart_new; eauto.
  - apply finish_ok in H; [|exact N1]. unfold plan2 in H. cbv zeta in H.
    destruct (linear_phase _ _ _) as [P1|P1|e] eqn:EL; [|discriminate|discriminate].
    destruct (lin_frame _ _ _ _ EL) as (F1 & F2 & F3).
    destruct (_ =? _).
    2: { destruct (_ && _); [|discriminate]. unfold plan_refinement in H. cbv zeta in H.
         match type of H with bind ?x _ = _ => destruct x; cbn [bind] in H; [|discriminate] end.
         destruct (_ && _); [discriminate|]. destruct (_ && _); [discriminate|]. destruct (stale_all _ _); [discriminate|].
         destruct (negb _); discriminate. }
    destruct (idle (p_k P1)) eqn:Ei; [|discriminate]. apply idle_iff in Ei. destruct Ei as (Ei & _). rewrite F3 in Ei.
    eapply history_free; eauto. intros p' Hp'.
    pose proof (restart_begin_eff _ _ _ _ _ _ H) as (w' & Ew & _). injection Ew as -> <-.
    eapply restart_new; [exact H| |reflexivity|exact Ht|]; cbn [p_s set_s T set_C]; rewrite F1; auto.
  - exfalso. eapply HW. reflexivity.
  - apply finish_ok in H; [|exact N1]. unfold final_step in H. destruct (pend _); [discriminate|]. cbv zeta in H.
    destruct (node_pos _); [discriminate|]. destruct (t_noisy _); [destruct (errs _); discriminate|].
    destruct (current_gap _ _); cbn [bind] in H; discriminate.
  - discriminate.
  - discriminate.
Qed.
